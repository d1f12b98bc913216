(** Specification vocabulary for C76: the text of a union, put together from the
    texts its statements have on their own. *)

From Coq Require Import Ascii String List.
From Verif Require Import GoStr SpecSpace Ast SpecDoc SpecPrint BuilderText SpecPattern.
Import ListNotations.
Open Scope string_scope.
Open Scope list_scope.

Definition union_word (all : bool) : string := if all then " UNION ALL " else " UNION ".

(** The texts one after the other with the word between them.  A text that ends
    in a clause other than RETURN may be followed by white space. *)
Inductive joined (all : bool) : list string -> string -> Prop :=
| joined_one : forall t, joined all [t] t
| joined_more : forall t b ts s, all_space b -> joined all ts s -> joined all (t :: ts) (t ++ b ++ union_word all ++ s)%string.

(** The keys of the nodes that have a name. *)
Fixpoint once_keys (d : doc) : list string :=
  match d with
  | Txt _ => []
  | Cat l | Commas l => (fix go l := match l with [] => [] | d :: l' => once_keys d ++ go l' end) l
  | Shared _ d | Aliased _ _ d => once_keys d
  | Once k _ d => k :: once_keys d
  end.

(** No element that gets an alias in [d] and no named node of [d] is in [d'], too. *)
Definition nothing_again (d d' : doc) : Prop :=
  (forall k, In k (aliased_keys d) -> ~ In k (shared_keys d' ++ aliased_keys d'))
  /\ (forall k, In k (once_keys d) -> ~ In k (once_keys d')).
Definition separate (E : env) (qs : list query) : Prop :=
  ForallOrdPairs (fun q q' => nothing_again (print_query E q) (print_query E q')) qs.
