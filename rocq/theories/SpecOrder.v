(** Specification: the order of the operators in the text of a condition.

    In every pair of parentheses, and outside of all, the operators come from the
    strongest to the weakest: AND before XOR before OR.  Then reading from left
    to right and reading by precedence is the same.  Nothing here refers to the
    code. *)

From Coq Require Import List.
From Verif Require Import SpecCond.
Import ListNotations.

(** [open]: for each pair of parentheses that is open, the innermost first, the
    precedence of the last operator in it; 3, more than any, before the first. *)
Fixpoint in_order {A} (open : list nat) (ts : list (tok A)) : Prop :=
  match ts with
  | [] => True
  | TL :: ts => in_order (3 :: open) ts
  | TR :: ts => in_order (tl open) ts
  | TOp o :: ts => prec o <= hd 3 open /\ in_order (prec o :: tl open) ts
  | TNot :: ts | TAtom _ :: ts => in_order open ts
  end.

Definition strongest_first {A} (ts : list (tok A)) : Prop := in_order [3] ts.
