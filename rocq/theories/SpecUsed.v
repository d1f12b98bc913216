(** Specification: the parameters that the calls of a chain use. *)

From Coq Require Import Ascii String List ZArith Bool.
From Verif Require Import GoStr Escape Num VTree Ast Cond Builder SpecBuilder SpecCalled SpecTokens SpecUses.
Import ListNotations.

(** A parameter stands somewhere in the expressions given for a clause, or in
    the statement given for a subquery. *)
Definition phrase_uses (x : string) (p : phrase) : Prop :=
  (exists e k, In e (phrase_exprs p) /\ part e (EParam k x))
  \/ match p with PSubquery q => exists k, element q (EParam k x) | _ => False end.

Definition calls_use (p : list call) (x : string) : Prop := exists ph, In ph (written p) /\ phrase_uses x ph.
