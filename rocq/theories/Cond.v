(** Conditions: compound_condition.go, condition_container.go, conditions.go and
    the conditions they combine.

    Keys of new elements are arguments: [ks] stands for the addresses of the
    locals of one call. *)

From Coq Require Import Ascii String List ZArith Bool.
From Verif Require Import GoStr Escape Num VTree Ast.
Import ListNotations.
Open Scope string_scope.

(** compound_condition.go:146 VALID_OPERATORS. *)
Inductive bop := BAnd | BOr | BXor.
Definition op_of (o : bop) : op := match o with BAnd => And | BOr => Or | BXor => Xor end.
Definition bop_eqb (a b : bop) : bool :=
  match a, b with BAnd, BAnd | BOr, BOr | BXor, BXor => true | _, _ => false end.

(** A value of the Go interface type Condition. *)
Inductive cnd :=
| Nil                                        (* nil *)
| Atom (e : expr)                            (* a condition that is not a CompoundCondition *)
| Neg (k kn : key) (c : cnd)                 (* Comparison NOT with a nested expression: comparison.go:47-81 *)
| Bad (e : string)                           (* a condition that is no CompoundCondition, with an error *)
| Empty                                      (* EMPTY_CONDITION: compound_condition.go:140-144 *)
| Comp (k : key) (o : bop) (cs : list cnd) (snap : nat)
    (* CompoundCondition; its embedded ConditionContainer holds a copy with the
       first [snap] of the conditions, those present when it was created *)
| CompErr (e : string) (cs : list cnd).      (* CompoundConditionError, to which conditions may be added *)

(** [GetError]. *)
Definition get_error (c : cnd) : option string :=
  match c with Bad e | CompErr e _ => Some e | _ => None end.

(** compound_condition.go:178-181 [hasCondition]; None if not a CompoundCondition. *)
Definition compound_conditions (c : cnd) : option (list cnd) :=
  match c with
  | Empty => Some []
  | Comp _ _ cs _ => Some cs
  | CompErr _ cs => Some cs
  | _ => None
  end.

(** The operator field of a CompoundCondition; EMPTY_CONDITION and errors have
    the zero operator. *)
Definition compound_op (c : cnd) : option bop := match c with Comp _ o _ _ => Some o | _ => None end.

Definition has_op (o : bop) (c : cnd) : bool := match compound_op c with Some o' => bop_eqb o' o | None => false end.

(** compound_condition.go:183-190 [canBeFlattenedWith]. *)
Definition can_be_flattened (before : bop) (cs : list cnd) : bool :=
  forallb (fun c => match compound_conditions c with Some _ => has_op before c | None => true end) cs.

(** compound_condition.go:54-63. *)
Definition create1 (k : key) (o : bop) : cnd := Comp k o [] 0.

(** compound_condition.go:153-174 on the conditions of a receiver whose operator
    is ([same]) or is not the chaining operator: the conditions afterwards; None
    if a new compound is to be created. *)
Definition add_conditions (ki : key) (same : bool) (cs : list cnd) (ch : bop) (c : cnd) : option (list cnd) :=
  match compound_conditions c with
  | Some [] => Some cs
  | Some inner =>
      if (same && has_op ch c)%bool
      then if can_be_flattened ch inner then Some (cs ++ inner)%list else Some (cs ++ [c])%list
      else Some (cs ++ [Comp ki ch [c] 0])%list
  | None => if same then Some (cs ++ [c])%list else None
  end.

Definition added (ki : key) (cs : list cnd) (ch : bop) (c : cnd) : list cnd :=
  match add_conditions ki true cs ch c with Some cs' => cs' | None => cs end.

(** compound_condition.go:18-52 [CompoundConditionCreate].  The operators are
    valid; conditions that are neither nil nor errors are not nil. *)
Definition create (ks : nat -> key) (l : cnd) (o : bop) (r : cnd) : cnd :=
  match get_error l, get_error r with
  | Some e, _ => CompErr e []
  | None, Some e => CompErr e []
  | None, None =>
      match l, r with
      | Nil, _ => CompErr "left hand side condition is required" []
      | _, Nil => CompErr "right hand side condition is required" []
      | _, _ =>
          let cs := added (ks 2) (added (ks 1) [] o l) o r in
          Comp (ks 0) o cs (length cs)
      end
  end.

(** compound_condition.go:148-176 [add] on a CompoundCondition. *)
Definition add (ks : nat -> key) (c : cnd) (ch : bop) (x : cnd) : cnd :=
  match c with
  | Comp k o cs n =>
      match add_conditions (ks 3) (bop_eqb o ch) cs ch x with
      | Some cs' => Comp k o cs' n
      | None => create ks c ch x
      end
  | CompErr e cs =>
      match add_conditions (ks 3) false cs ch x with
      | Some cs' => CompErr e cs'
      | None => create ks c ch x
      end
  | _ => (* EMPTY_CONDITION *)
      Comp (ks 4) ch (added (ks 3) [] ch x) 0
  end.

(** A call returns a value or panics. *)
Inductive result (A : Type) := Val (a : A) | Panic.
Arguments Val {A} a.
Arguments Panic {A}.

(** condition_container.go:13-35 [And], [Or], [Xor] of a ConditionContainer
    holding [c]; the type assertion to Condition panics on nil. *)
Definition container_chain (ks : nat -> key) (ch : bop) (c x : cnd) : result cnd :=
  match c with
  | Nil => Panic
  | Empty | Comp _ _ _ _ | CompErr _ _ => Val (add ks c ch x)
  | _ => Val (create ks c ch x)
  end.

(** What the ConditionContainer embedded in a condition holds: nothing in
    errors and in EMPTY_CONDITION, an earlier copy in compound conditions. *)
Definition embedded (c : cnd) : cnd :=
  match c with
  | Nil | Bad _ | Empty | CompErr _ _ => Nil
  | Comp k o cs n => Comp k o (firstn n cs) 0
  | c => c
  end.

(** [And], [Or], [Xor] of a Condition: CompoundCondition has its own
    (compound_condition.go:124-134), others use the embedded container. *)
Definition condition_chain (ks : nat -> key) (ch : bop) (c x : cnd) : result cnd :=
  match c with
  | Nil => Panic
  | Empty | Comp _ _ _ _ | CompErr _ _ => Val (add ks c ch x)
  | _ => container_chain ks ch (embedded c) x
  end.

(** comparison.go:47-81 with NOT; comparison.go:127-133: conditions are nested. *)
Definition comparison_not (ks : nat -> key) (c : cnd) : cnd :=
  match get_error c with
  | Some e => Bad e
  | None => match c with Nil => Bad "comparison: expression must be not nil" | _ => Neg (ks 0) (ks 1) c end
  end.

(** condition_container.go:52-55 [Not]. *)
Definition container_not (ks : nat -> key) (c : cnd) : result cnd := Val (comparison_not ks c).

(** conditions.go:9-14 [ConditionsNot]: conditions with an error have notNil =
    false. *)
Definition conditions_not (ks : nat -> key) (c : cnd) : result cnd :=
  match c with
  | Nil | Bad _ | CompErr _ _ => Val (CompErr "condition not: condition to negate must not be nil" [])
  | _ => container_not ks (embedded c)
  end.

(** condition_container.go:37-50 [AndPattern], [OrPattern], [XorPattern] of a
    container holding [c]; [p] is the pattern condition
    (relationship_pattern_condition.go:11-22). *)
Definition container_pattern (ks : nat -> key) (ch : bop) (c p : cnd) : result cnd :=
  match c with Nil => Panic | _ => Val (create ks c ch p) end.

(** The same called on a Condition. *)
Definition condition_pattern (ks : nat -> key) (ch : bop) (c p : cnd) : result cnd :=
  match c with Nil => Panic | _ => container_pattern ks ch (embedded c) p end.

(** condition_builder.go:15-36: the WHERE part of a match or with under
    construction; None: [buildCondition] returns nil. *)
Definition builder_add (ks : nat -> key) (ch : bop) (c x : cnd) : result cnd := condition_chain ks ch c x.
Definition build_condition (c : cnd) : option cnd :=
  match c with
  | Nil | Bad _ | CompErr _ _ => None
  | Empty | Comp _ _ [] _ => None
  | _ => Some c
  end.

(** ** Rendering *)

(** The visited element.  Errors and nil are not rendered (a nil part panics). *)
Fixpoint cond_expr (c : cnd) : expr :=
  match c with
  | Atom e => e
  | Neg k kn c => EComparison k None Not (Some (ENested kn (cond_expr c)))
  | Comp k o cs _ => ECompound k (op_of o) (map cond_expr cs)
  | Nil | Bad _ | Empty | CompErr _ _ => ECompound "" And []
  end.

(** ** Conditions made by calls of the API, whatever the new addresses are *)

From Verif Require Import SpecCond.

Definition bop_of_conn (o : conn) : bop := match o with CAnd => BAnd | COr => BOr | CXor => BXor end.

Inductive makes : call expr -> cnd -> Prop :=
| m_basic : forall e, makes (Basic e) (Atom e)
| m_none : makes NoCondition Empty
| m_chain : forall ks o c d x y z, makes c x -> makes d y ->
    container_chain ks (bop_of_conn o) x y = Val z -> makes (Chain o c d) z
| m_method : forall ks o c d x y z, makes c x -> makes d y ->
    condition_chain ks (bop_of_conn o) x y = Val z -> makes (Chain o c d) z
| m_pattern : forall ks o c e x z, makes c x ->
    container_pattern ks (bop_of_conn o) x (Atom e) = Val z -> makes (Chain o c (Basic e)) z
| m_not : forall ks c x z, makes c x -> container_not ks x = Val z -> makes (Negate c) z.
