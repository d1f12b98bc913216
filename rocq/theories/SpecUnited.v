(** Specification vocabulary for C71: unions of statements made by chains of
    calls. *)

From Coq Require Import String List.
From Verif Require Import GoStr VTree Ast SpecDoc SpecPrint SpecShape SpecGrammar SpecReading GoVal SpecCond Cond Queries Builder BuilderText SpecBuilder SpecPhrases SpecCalled.
Import ListNotations.
Open Scope string_scope.
Open Scope list_scope.

(** A chain of calls, with the addresses of what the calls and Build make. *)
Record chain := Chain { making : nat -> nat -> key; closing : nat -> key; program : list Builder.call }.
(** The chain is one Go accepts and that ends where Build is offered. *)
Definition proper (x : chain) : Prop :=
  (exists i, compiles IStart (program x) = Some i /\ buildable i = true) /\ orderly (program x) = true.
(** Building it returns the statement. *)
Definition builds (x : chain) (q : query) : Prop := build_program (making x) (closing x) (program x) = Some (Returns (Built (StOk q))).

(** An alias given by a call of any of the chains. *)
Definition called_in (xs : list chain) (k : key) (a : string) : Prop := exists x, List.In x xs /\ called (program x) k a.

(** The parts of a union, and the addresses of it and of its parts. *)
Definition members (u : query) : list query := match u with QUnion _ q qs => q :: map snd qs | q => [q] end.
Definition union_keys (u : query) : list key := match u with QUnion k _ qs => k :: map (fun p => fst (fst p)) qs | _ => [] end.

(** The union of the clauses: what its text says twice. *)
Definition spread (q : query) : query := QSingle (SpecBuilder.clauses q) None.
Definition spread_union (u : query) : query :=
  match u with QUnion k q qs => QUnion k (spread q) (map (fun p => (fst p, spread (snd p))) qs) | q => spread q end.
Definition in_union (E : env) (xs : list chain) (u : query) : register :=
  Register (called_in xs) (written_again (print_query E (spread_union u))).

(** No clause, part or union has the address of an expression that is given an
    alias. *)
Definition union_apart (E : env) (A : key -> string -> Prop) (u : query) : Prop :=
  (forall q k a, List.In q (members u) ->
     List.In k (flat_map clause_keys (SpecBuilder.clauses q) ++ flat_map inner_clause_keys (SpecBuilder.clauses q)) -> ~ A k a)
  /\ (forall k a, List.In k (union_keys u) -> ~ A k a)
  /\ (forall k, List.In k (union_keys u ++ flat_map part_keys (members u)) -> ~ List.In k (aliased_keys (print_query E u))).

(** The syntax tree of a union of statements that have these clauses. *)
Definition union_of (all : bool) (css : list (list cclause)) : cquery :=
  match css with c :: cs => CQuery c (map (pair all) cs) | [] => CQuery [] [] end.
