(** Programs that use builder values any number of times.

    [ideal] is what such a program does if every builder value is immutable, as
    C28 and C29 claim: each call makes a new value and leaves all others as they
    are.  [actual] is what it does with the memory of HeapBuilder.v. *)

From Coq Require Import String List ZArith Bool Arith.
From Verif Require Import GoStr VTree Ast GoVal Cond Queries Builder Slices HeapBuilder.
Import ListNotations.
Open Scope list_scope.

(** A program: each instruction but Finish makes a builder value; they are
    numbered from 0. *)
Inductive instr :=
| Begin (ks : nat -> key) (c : call)              (* a function of the package *)
| Do (ks : nat -> key) (i : nat) (c : call)       (* a method of the i-th value *)
| Finish (ks : nat -> key) (i : nat).             (* Build of the i-th value *)

Definition after {A B} (x : option (outcome A)) (k : A -> option (outcome B)) : option (outcome B) :=
  match x with
  | Some (Returns a) => k a
  | Some Panics => Some Panics
  | Some Diverges => Some Diverges
  | None => None
  end.

(** The values and the statements, in the order in which they are made.  None:
    the program is not well-formed. *)
Fixpoint ideal (vs : list state) (bs : list built) (ps : list instr) : option (outcome (list state * list built)) :=
  match ps with
  | [] => Some (Returns (vs, bs))
  | Begin ks c :: ps => after (start ks c) (fun v => ideal (vs ++ [v]) bs ps)
  | Do ks i c :: ps =>
      match nth_error vs i with
      | Some v => after (step ks v c) (fun v' => ideal (vs ++ [v']) bs ps)
      | None => None
      end
  | Finish ks i :: ps =>
      match nth_error vs i with
      | Some v => after (build ks v) (fun b => ideal vs (bs ++ [b]) ps)
      | None => None
      end
  end.

Fixpoint actual (grow : nat -> nat -> nat) (st : store) (vs : list hstate) (bs : list hbuilt) (ps : list instr)
  : option (outcome (store * list hstate * list hbuilt)) :=
  match ps with
  | [] => Some (Returns (st, vs, bs))
  | Begin ks c :: ps => after (h_start grow ks st c) (fun r => actual grow (fst r) (vs ++ [snd r]) bs ps)
  | Do ks i c :: ps =>
      match nth_error vs i with
      | Some v => after (h_step grow ks st v c) (fun r => actual grow (fst r) (vs ++ [snd r]) bs ps)
      | None => None
      end
  | Finish ks i :: ps =>
      match nth_error vs i with
      | Some v => after (h_build grow ks st v) (fun r => actual grow (fst r) vs (bs ++ [snd r]) ps)
      | None => None
      end
  end.

(** ** Careful programs

    Values made from one another by calls that add no clause have the same
    clauses.  A program is careful if of the values with the same clauses at
    most one is continued with a further clause, and of those with the same sort
    items at most one with a further sort item; and if, once that has happened,
    values with those clauses behind a pointer (updating clauses and procedure
    calls inside a statement) are used no more. *)

(** Which value made the clauses, the sort items, and the sort expression that is
    not yet in the list. *)
Record origin := Origin { of_clauses : nat; of_sorts : nat; of_last : nat }.

Definition adds_sort (c : call) : bool := match c with OrderItems _ | Descending | Ascending => true | _ => false end.
Definition names_sort (c : call) : bool := match c with OrderBy _ | Then _ => true | _ => false end.
Definition about_sorting (c : call) : bool :=
  match c with Skip _ | Limit _ => true | _ => (adds_sort c || names_sort c)%bool end.

(** The call adds a clause, or closes one, or changes the builder behind the
    pointer of an updating clause or a procedure call. *)
Definition adds_clause (s : state) (c : call) : bool :=
  match s with
  | D _ => match c with Where _ | AndC _ | OrC _ | With _ _ | Returning _ _ => false | _ => true end
  | W _ => match c with Where _ | AndC _ | OrC _ => false | _ => negb (about_sorting c) end
  | U _ => match c with Returning _ _ => false | _ => negb (about_sorting c) end
  | R _ => false
  | I _ _ => match c with Args _ | Yield _ => false | _ => true end
  | S _ => false
  end.

(** A sort expression is not yet in the list. *)
Definition order_of (s : state) : order_builder :=
  match s with U u => u_order u | W w => w_order w | R r => r_order r | _ => no_order end.
Definition pending (s : state) : bool := match o_last (order_of s) with Some (Sort _ _ _) => true | _ => false end.

(** What is done with the list of sort items: nothing, an item is appended, the
    pending one is appended because the clause is made. *)
Inductive sort_use := Unused | Appended | Flushed.
Definition sort_use_of (s : state) (c : call) : sort_use :=
  match s with
  | U _ | W _ | R _ =>
      if adds_sort c then Appended
      else match s with W _ => if (adds_clause s c && pending s)%bool then Flushed else Unused | _ => Unused end
  | _ => Unused
  end.
Definition build_sort_use (s : state) : sort_use :=
  match s with U _ | R _ => if pending s then Flushed else Unused | _ => Unused end.
Definition build_adds_clause (s : state) : bool := match s with U _ => true | _ => false end.

(** What has been used: clause lists by their origin; sort lists by theirs, with
    the pending expression if that was appended. *)
Record uses := Uses { used_clauses : list nat; used_sorts : list (nat * option nat) }.
Definition no_uses : uses := Uses [] [].

Definition clauses_free (u : uses) (o : origin) : bool := negb (existsb (Nat.eqb (of_clauses o)) (used_clauses u)).
Definition sorts_free (u : uses) (o : origin) (x : sort_use) : bool :=
  match x with
  | Unused => true
  | Appended => negb (existsb (fun e => Nat.eqb (of_sorts o) (fst e)) (used_sorts u))
  | Flushed =>
      forallb (fun e => (negb (Nat.eqb (of_sorts o) (fst e))
                         || match snd e with Some p => Nat.eqb p (of_last o) | None => false end)%bool) (used_sorts u)
  end.
Definition allowed (u : uses) (o : origin) (clause : bool) (x : sort_use) : bool :=
  ((negb clause || clauses_free u o) && sorts_free u o x)%bool.
Definition use (u : uses) (o : origin) (clause : bool) (x : sort_use) : uses :=
  Uses (if clause then of_clauses o :: used_clauses u else used_clauses u)
       (match x with
        | Unused => used_sorts u
        | Appended => (of_sorts o, None) :: used_sorts u
        | Flushed => (of_sorts o, Some (of_last o)) :: used_sorts u
        end).

(** A value whose builder is behind a pointer that others may have. *)
Definition by_pointer (s : state) : bool := match s with U _ | I _ _ => true | _ => false end.

(** The call works on a copy that has the sort items too.  (Removing labels from
    an updating clause with an error gives the same value.) *)
Definition keeps_sorts (s : state) (c : call) : bool :=
  match s, c with
  | U (UB _ None _ _ _ _), RemoveLabels _ _ | U (UB _ _ None _ _ _), RemoveLabels _ _ => true
  | U _, _ | W _, _ | R _, _ => negb (adds_clause s c || adds_sort c)
  | _, _ => false
  end.
Definition keeps_clauses (s : state) (c : call) : bool :=
  match s with S _ => false | _ => negb (adds_clause s c) end.

(** The origin of the [n]-th value, which the call on a value of origin [o] gives. *)
Definition next_origin (n : nat) (o : origin) (s : state) (c : call) : origin :=
  Origin (if keeps_clauses s c then of_clauses o else n)
         (if keeps_sorts s c then of_sorts o else n)
         (if (keeps_sorts s c && negb (names_sort c))%bool then of_last o else n).

Fixpoint careful_from (vs : list (state * origin)) (u : uses) (ps : list instr) : bool :=
  match ps with
  | [] => true
  | Begin ks c :: ps =>
      match start ks c with
      | Some (Returns v) => let n := length vs in careful_from (vs ++ [(v, Origin n n n)]) u ps
      | _ => true
      end
  | Do ks i c :: ps =>
      match nth_error vs i with
      | Some (v, o) =>
          (allowed u o (adds_clause v c || by_pointer v) (sort_use_of v c)
           && match step ks v c with
              | Some (Returns v') =>
                  careful_from (vs ++ [(v', next_origin (length vs) o v c)]) (use u o (adds_clause v c) (sort_use_of v c)) ps
              | _ => true
              end)%bool
      | None => true
      end
  | Finish ks i :: ps =>
      match nth_error vs i with
      | Some (v, o) =>
          (allowed u o (build_adds_clause v) (build_sort_use v)
           && match build ks v with
              | Some (Returns _) => careful_from vs (use u o (build_adds_clause v) (build_sort_use v)) ps
              | _ => true
              end)%bool
      | None => true
      end
  end.

Definition careful (ps : list instr) : bool := careful_from [] no_uses ps.

(** ** The calls that made a value

    Every value has been made by one chain of calls, and every statement by one
    chain and Build; what the program does elsewhere is not in it. *)
Definition link : Type := (nat -> key) * call.

Fixpoint replay_from (s : state) (l : list link) : option (outcome state) :=
  match l with
  | [] => Some (Returns s)
  | (ks, c) :: l => after (step ks s c) (fun s => replay_from s l)
  end.
Definition replay (l : list link) : option (outcome state) :=
  match l with
  | [] => None
  | (ks, c) :: l => after (start ks c) (fun s => replay_from s l)
  end.

Fixpoint chains (ls : list (list link)) (ps : list instr) : list (list link) :=
  match ps with
  | [] => ls
  | Begin ks c :: ps => chains (ls ++ [[(ks, c)]]) ps
  | Do ks i c :: ps => chains (ls ++ [nth i ls [] ++ [(ks, c)]]) ps
  | Finish _ _ :: ps => chains ls ps
  end.
Fixpoint finished (ls : list (list link)) (ps : list instr) : list (list link * (nat -> key)) :=
  match ps with
  | [] => []
  | Begin ks c :: ps => finished (ls ++ [[(ks, c)]]) ps
  | Do ks i c :: ps => finished (ls ++ [nth i ls [] ++ [(ks, c)]]) ps
  | Finish ks i :: ps => (nth i ls [], ks) :: finished ls ps
  end.

(** The statement that a chain and Build give. *)
Definition alone (x : list link * (nat -> key)) : option (outcome built) :=
  after (replay (fst x)) (fun s => build (snd x) s).
