(** Specification: chains of builder calls that give no reason to panic. *)

From Coq Require Import String List ZArith Bool.
From Verif Require Import VTree Ast GoVal SpecCond Cond Queries Builder SpecBuilder SpecErrors.
Import ListNotations.
Open Scope list_scope.

(** The clause that is being written after the calls. *)
Definition open_clause (p : list call) : option phrase :=
  match rev (written p) with ph :: _ => Some ph | [] => None end.

(** And and Or continue the WHERE of a MATCH or a WITH. *)
Definition continues_where (p : list call) : Prop :=
  match open_clause p with
  | Some (PMatch _ _ (Some _)) | Some (PWith _ _ _ (Some _)) => True
  | _ => False
  end.

(** ON CREATE and ON MATCH continue a MERGE of some pattern. *)
Definition continues_merge (p : list call) : Prop :=
  match open_clause p with
  | Some (PMerge (_ :: _) _) => True
  | _ => False
  end.

(** The call [c] after the calls [p]: its arguments have no error, a condition
    given to Where is not nil, a procedure has a name, a statement called as
    a subquery returns rows, and what continues a clause follows one. *)
Definition harmless (p : list call) (c : call) : Prop :=
  faulty c = false
  /\ match c with
     | Where x => x <> Nil
     | AndC _ | OrC _ => continues_where p
     | OnAction _ _ => continues_merge p
     | Proc parts => parts <> []
     | Sub s => exists q, s = StOk q /\ returns_something q = true
     | _ => True
     end.

Definition all_harmless (p : list call) : Prop := forall p1 c p2, p = p1 ++ c :: p2 -> harmless p1 c.

(** Calls that can panic where no mistake was made before: UNWIND of an error, a
    procedure without name, And and Or. *)
Definition stops (c : call) : Prop :=
  match c with Unwind (GErr _ _) _ | Proc [] | AndC _ | OrC _ => True | _ => False end.
