(** Conditions in memory: compound_condition.go, condition_container.go and
    conditions.go with the slices they share.

    The operations are those of Cond.v, except that the conditions of a
    CompoundCondition are a slice and are extended with append. *)

From Coq Require Import String List Bool Arith.
From Verif Require Import VTree Ast Cond Slices.
Import ListNotations.
Open Scope string_scope.
Open Scope list_scope.

(** A value of the Go interface type Condition.  A CompoundCondition has its
    own slice and, in the embedded ConditionContainer, the slice that it had
    when it was created. *)
Inductive hcond :=
| HNil
| HAtom (e : expr)
| HNeg (k kn : key) (c : hcond)
| HBad (e : string)
| HEmpty
| HComp (k : key) (o : bop) (s snap : slice)
| HErr (e : string) (s : slice).

Definition memory := heap hcond.

Section Operations.
Context (grow : nat -> nat -> nat).

Definition push (h : memory) (s : slice) (xs : list hcond) : memory * slice := append grow HNil h s xs.

(** compound_condition.go:71-73 and the GetError of the other conditions. *)
Definition h_error (c : hcond) : option string := match c with HBad e | HErr e _ => Some e | _ => None end.

(** The conditions field; None if not a CompoundCondition. *)
Definition h_conditions (c : hcond) : option slice :=
  match c with HEmpty => Some NoCells | HComp _ _ s _ => Some s | HErr _ s => Some s | _ => None end.

Definition h_has_op (o : bop) (c : hcond) : bool := match c with HComp _ o' _ _ => bop_eqb o' o | _ => false end.

(** compound_condition.go:183-190 [canBeFlattenedWith]. *)
Definition h_can_be_flattened (before : bop) (cs : list hcond) : bool :=
  forallb (fun c => match h_conditions c with Some _ => h_has_op before c | None => true end) cs.

(** compound_condition.go:153-174; see [add_conditions]. *)
Definition h_add_conditions (ki : key) (same : bool) (h : memory) (s : slice) (ch : bop) (c : hcond) : option (memory * slice) :=
  match h_conditions c with
  | Some sl =>
      match slice_len sl with
      | 0 => Some (h, s)
      | _ =>
          if (same && h_has_op ch c)%bool
          then if h_can_be_flattened ch (read h sl) then Some (push h s (read h sl)) else Some (push h s [c])
          else let (h1, s1) := push h NoCells [c] in Some (push h1 s [HComp ki ch s1 NoCells])
      end
  | None => if same then Some (push h s [c]) else None
  end.

Definition h_added (ki : key) (h : memory) (s : slice) (ch : bop) (c : hcond) : memory * slice :=
  match h_add_conditions ki true h s ch c with Some r => r | None => (h, s) end.

(** compound_condition.go:18-52 [CompoundConditionCreate]. *)
Definition h_create (ks : nat -> key) (h : memory) (l : hcond) (o : bop) (r : hcond) : memory * hcond :=
  match h_error l, h_error r with
  | Some e, _ => (h, HErr e NoCells)
  | None, Some e => (h, HErr e NoCells)
  | None, None =>
      match l, r with
      | HNil, _ => (h, HErr "left hand side condition is required" NoCells)
      | _, HNil => (h, HErr "right hand side condition is required" NoCells)
      | _, _ =>
          let (h1, s1) := h_added (ks 1) h NoCells o l in
          let (h2, s2) := h_added (ks 2) h1 s1 o r in
          (h2, HComp (ks 0) o s2 s2)
      end
  end.

(** compound_condition.go:148-176 [add] on a copy of a CompoundCondition. *)
Definition h_add (ks : nat -> key) (h : memory) (c : hcond) (ch : bop) (x : hcond) : memory * hcond :=
  match c with
  | HComp k o s n =>
      match h_add_conditions (ks 3) (bop_eqb o ch) h s ch x with
      | Some (h', s') => (h', HComp k o s' n)
      | None => h_create ks h c ch x
      end
  | HErr e s =>
      match h_add_conditions (ks 3) false h s ch x with
      | Some (h', s') => (h', HErr e s')
      | None => h_create ks h c ch x
      end
  | _ => let (h', s') := h_added (ks 3) h NoCells ch x in (h', HComp (ks 4) ch s' NoCells)
  end.

(** condition_container.go:13-35. *)
Definition h_container_chain (ks : nat -> key) (h : memory) (ch : bop) (c x : hcond) : result (memory * hcond) :=
  match c with
  | HNil => Panic
  | HEmpty | HComp _ _ _ _ | HErr _ _ => Val (h_add ks h c ch x)
  | _ => Val (h_create ks h c ch x)
  end.

(** See [embedded]. *)
Definition h_embedded (c : hcond) : hcond :=
  match c with
  | HNil | HBad _ | HEmpty | HErr _ _ => HNil
  | HComp k o _ n => HComp k o n NoCells
  | c => c
  end.

(** compound_condition.go:124-134 and the methods of the embedded container. *)
Definition h_condition_chain (ks : nat -> key) (h : memory) (ch : bop) (c x : hcond) : result (memory * hcond) :=
  match c with
  | HNil => Panic
  | HEmpty | HComp _ _ _ _ | HErr _ _ => Val (h_add ks h c ch x)
  | _ => h_container_chain ks h ch (h_embedded c) x
  end.

(** comparison.go:47-81, 127-133 with NOT. *)
Definition h_comparison_not (ks : nat -> key) (c : hcond) : hcond :=
  match h_error c with
  | Some e => HBad e
  | None => match c with HNil => HBad "comparison: expression must be not nil" | _ => HNeg (ks 0) (ks 1) c end
  end.

(** conditions.go:9-14. *)
Definition h_conditions_not (ks : nat -> key) (c : hcond) : hcond :=
  match c with
  | HNil | HBad _ | HErr _ _ => HErr "condition not: condition to negate must not be nil" NoCells
  | _ => h_comparison_not ks (h_embedded c)
  end.

(** condition_container.go:37-50. *)
Definition h_container_pattern (ks : nat -> key) (h : memory) (ch : bop) (c p : hcond) : result (memory * hcond) :=
  match c with HNil => Panic | _ => Val (h_create ks h c ch p) end.

End Operations.

(** ** Programs: every instruction makes a new condition from earlier ones *)

Inductive instr :=
| MkBasic (e : expr)                                   (* any condition without error that is not compound *)
| MkEmpty                                              (* NoCondition(): conditions.go:25-27 *)
| MkBad (e : string)                                   (* such a condition with an error *)
| MkChain (ks : nat -> key) (o : bop) (i j : nat)      (* ci.And(cj), ...: of a ConditionContainer *)
| MkMethod (ks : nat -> key) (o : bop) (i j : nat)     (* the same of a Condition; also Where(ci).And(cj) of builders *)
| MkPattern (ks : nat -> key) (o : bop) (i : nat) (e : expr)   (* ci.AndPattern(p), ... *)
| MkNot (ks : nat -> key) (i : nat)                    (* ci.Not() *)
| MkConditionsNot (ks : nat -> key) (i : nat).         (* ConditionsNot(ci) *)

(** Without memory: Cond.v. *)
Definition pure_step (env : list cnd) (p : instr) : result cnd :=
  let var i := nth i env Nil in
  match p with
  | MkBasic e => Val (Atom e)
  | MkEmpty => Val Empty
  | MkBad e => Val (Bad e)
  | MkChain ks o i j => container_chain ks o (var i) (var j)
  | MkMethod ks o i j => condition_chain ks o (var i) (var j)
  | MkPattern ks o i e => container_pattern ks o (var i) (Atom e)
  | MkNot ks i => Val (comparison_not ks (var i))
  | MkConditionsNot ks i => conditions_not ks (var i)
  end.

Fixpoint pure_run (env : list cnd) (ps : list instr) : result (list cnd) :=
  match ps with
  | [] => Val env
  | p :: ps' => match pure_step env p with Panic => Panic | Val c => pure_run (env ++ [c]) ps' end
  end.

(** With memory. *)
Definition heap_step (grow : nat -> nat -> nat) (h : memory) (env : list hcond) (p : instr) : result (memory * hcond) :=
  let var i := nth i env HNil in
  match p with
  | MkBasic e => Val (h, HAtom e)
  | MkEmpty => Val (h, HEmpty)
  | MkBad e => Val (h, HBad e)
  | MkChain ks o i j => h_container_chain grow ks h o (var i) (var j)
  | MkMethod ks o i j => h_condition_chain grow ks h o (var i) (var j)
  | MkPattern ks o i e => h_container_pattern grow ks h o (var i) (HAtom e)
  | MkNot ks i => Val (h, h_comparison_not ks (var i))
  | MkConditionsNot ks i => Val (h, h_conditions_not ks (var i))
  end.

Fixpoint heap_run (grow : nat -> nat -> nat) (h : memory) (env : list hcond) (ps : list instr) : result (memory * list hcond) :=
  match ps with
  | [] => Val (h, env)
  | p :: ps' => match heap_step grow h env p with Panic => Panic | Val (h', c) => heap_run grow h' (env ++ [c]) ps' end
  end.

(** ** What a value in memory stands for *)

(** The embedded slice holds the first [n] conditions. *)
Inductive denotes (h : memory) : hcond -> cnd -> Prop :=
| d_nil : denotes h HNil Nil
| d_atom : forall e, denotes h (HAtom e) (Atom e)
| d_neg : forall k kn c C, denotes h c C -> denotes h (HNeg k kn c) (Neg k kn C)
| d_bad : forall e, denotes h (HBad e) (Bad e)
| d_empty : denotes h HEmpty Empty
| d_comp : forall k o s sn cs n, n <= length cs -> denote_all h (read h s) cs -> denote_all h (read h sn) (firstn n cs) ->
    denotes h (HComp k o s sn) (Comp k o cs n)
| d_err : forall e s cs, denote_all h (read h s) cs -> denotes h (HErr e s) (CompErr e cs)
with denote_all (h : memory) : list hcond -> list cnd -> Prop :=
| da_nil : denote_all h [] []
| da_cons : forall c C l L, denotes h c C -> denote_all h l L -> denote_all h (c :: l) (C :: L).

(** Compound conditions are extended with And, Or and Xor at most once;
    [used] are those that were. *)
Definition extends (env : list cnd) (p : instr) : list nat :=
  match p with
  | MkChain _ _ i _ | MkMethod _ _ i _ =>
      match compound_conditions (nth i env Nil) with Some (_ :: _) => [i] | _ => [] end
  | _ => []
  end.

Fixpoint once (env : list cnd) (used : list nat) (ps : list instr) : bool :=
  match ps with
  | [] => true
  | p :: ps' =>
      forallb (fun i => negb (existsb (Nat.eqb i) used)) (extends env p)
      && match pure_step env p with Panic => true | Val c => once (env ++ [c]) (extends env p ++ used) ps' end
  end%bool.
