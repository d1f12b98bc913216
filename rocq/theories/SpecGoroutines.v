(** Goroutines that build statements: each makes its own chain of calls, ending
    with Build; a schedule says which goroutine makes the next call.
    Simplification: a call is not interrupted. *)

From Coq Require Import String List ZArith Bool Arith.
From Verif Require Import GoStr VTree Ast GoVal Builder SpecPersist.
Import ListNotations.
Open Scope list_scope.

(** Values that are used at most once: no value is the receiver of two calls. *)
Definition receiver (p : instr) : list nat := match p with Begin _ _ => [] | Do _ i _ | Finish _ i => [i] end.
Definition used_once (ps : list instr) : Prop := NoDup (flat_map receiver ps).

(** A goroutine: the calls it still makes, the keys its Build uses, the value its
    last call returned, whether it has called Build. *)
Record worker := Worker { w_rest : list link; w_keys : nat -> key; w_value : option nat; w_built : bool }.

(** The calls of a goroutine and the keys its Build uses. *)
Definition job : Type := list link * (nat -> key).
Definition hire (j : job) : worker := Worker (fst j) (snd j) None false.

(** Its next call, if [n] values have been made in the program. *)
Definition next_call (n : nat) (w : worker) : option (instr * worker) :=
  match w_rest w, w_value w with
  | (ks, c) :: l, None => Some (Begin ks c, Worker l (w_keys w) (Some n) false)
  | (ks, c) :: l, Some i => Some (Do ks i c, Worker l (w_keys w) (Some n) false)
  | [], Some i => if w_built w then None else Some (Finish (w_keys w) i, Worker [] (w_keys w) (Some i) true)
  | [], None => None
  end.
Definition makes_value (p : instr) : nat := match p with Finish _ _ => 0 | _ => 1 end.

Fixpoint set_nth {A} (l : list A) (i : nat) (x : A) : list A :=
  match l, i with
  | [], _ => []
  | _ :: l', O => x :: l'
  | y :: l', Datatypes.S i' => y :: set_nth l' i' x
  end.

(** The calls of all goroutines in the order of the schedule, each with the
    number of its goroutine. *)
Fixpoint merged (ws : list worker) (n : nat) (turns : list nat) : list (nat * instr) :=
  match turns with
  | [] => []
  | i :: turns' =>
      match nth_error ws i with
      | None => merged ws n turns'
      | Some w =>
          match next_call n w with
          | None => merged ws n turns'
          | Some (p, w') => (i, p) :: merged (set_nth ws i w') (makes_value p + n) turns'
          end
      end
  end.

Definition program_of (jobs : list job) (turns : list nat) : list instr := map snd (merged (map hire jobs) 0 turns).

(** The goroutines that have called Build, in the order in which they did. *)
Definition builders (jobs : list job) (turns : list nat) : list nat :=
  flat_map (fun e : nat * instr => match snd e with Finish _ _ => [fst e] | _ => [] end) (merged (map hire jobs) 0 turns).
