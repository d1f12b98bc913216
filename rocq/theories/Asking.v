(** Questions a value answers: GetExpressionType and, of a predicate whose list or
    condition is not given yet, GetError. *)

From Coq Require Import String List.
From Verif Require Import VTree Ast GoVal Exprs Functions.

(** excluded_pattern.go:55-57 and existential_subquery.go:60-62 panic, the other
    expressions return a constant (comparison.go:119-121, case.go:159-161,
    boolean_function_condition.go:50-52 and so on) or a field
    (compound_condition.go:120-122).  Simplified: which constant is left out. *)
Definition expression_type (e : expr) : outcome unit :=
  match e with
  | EExcluded _ _ | EExists _ _ _ _ _ => Panics
  | _ => Returns tt
  end.

(** predicates.go:87-89 [GetError]. *)
Definition predicate_error (b : predicate_builder) : outcome (option string) := Panics.
