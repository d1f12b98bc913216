(** Specification vocabulary for C72: statements that call subqueries. *)

From Coq Require Import String List.
From Verif Require Import GoStr VTree Ast SpecDoc SpecPrint SpecShape SpecGrammar SpecReading GoVal SpecCond Cond Queries Builder BuilderText SpecBuilder SpecPhrases SpecCalled
  SpecAsked SpecDrawn SpecUnited.
Import ListNotations.
Open Scope string_scope.
Open Scope list_scope.

(** No clause or part of the statement has the address of an expression that is
    given an alias. *)
Definition inside_apart (A : key -> string -> Prop) (q : query) : Prop :=
  forall k, List.In k (flat_map clause_keys (SpecBuilder.clauses q) ++ flat_map inner_clause_keys (SpecBuilder.clauses q) ++ part_keys q) -> unaliased A k.

Section Nested.
Context (E : env) (A : key -> string -> Prop).

(** What a phrase asks for: a clause as in C70, or a subquery that is a statement
    built by a chain of calls, or a union of such statements.  The phrases of these
    chains may call subqueries, too. *)
Inductive nested : phrase -> cclause -> Prop :=
| ne_clause : forall ph c, clause_asked A ph c -> drawable_clause E c -> nested ph c
| ne_statement : forall x q cs, proper x -> builds x q -> returns_elements q = true -> inside_apart A q ->
    nested_all (written (program x)) cs -> nested (PSubquery q) (CSub cs [])
| ne_union : forall ku all xs qs u cs css, 2 <= length xs -> Forall proper xs -> Forall2 builds xs qs ->
    Forall (fun q => returns_elements q = true) qs -> Forall (inside_apart A) qs -> (forall n, unaliased A (ku n)) ->
    union_impl ku all (map StOk qs) = StOk u -> nested_chains xs (cs :: css) ->
    nested (PSubquery u) (CSub cs (map (pair all) css))
with nested_all : list phrase -> list cclause -> Prop :=
| nl_nil : nested_all [] []
| nl_cons : forall ph c phs cs, nested ph c -> nested_all phs cs -> nested_all (ph :: phs) (c :: cs)
with nested_chains : list chain -> list (list cclause) -> Prop :=
| nc_nil : nested_chains [] []
| nc_cons : forall x cs xs css, nested_all (written (program x)) cs -> nested_chains xs css -> nested_chains (x :: xs) (cs :: css).
End Nested.

(** None of the named nodes these clauses contain is written again. *)
Definition nodes_once (E : env) (A : register) (qs : list query) : Prop :=
  forall k, List.In k (node_mentions (Cat (map (print_query E) qs))) -> ~ again A k.
