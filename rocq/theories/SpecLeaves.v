(** Specification: the texts of a statement that are written as the caller gave
    them are balanced. *)

From Coq Require Import String List ZArith.
From Verif Require Import Num Ast SpecBrackets.
Import ListNotations.

(** Parameters, raw literals and functions are written by name; a named node is
    written by its bare name when it occurs again.  Numbers are decimals with a
    mantissa that is not negative (Num.v). *)
Definition own_words (e : expr) : Prop :=
  match e with
  | EParam _ n => balanced n
  | ERaw _ s => balanced s
  | EFun _ n _ _ => balanced n
  | ENum _ n => (0 <= n_mant n)%Z
  | ENode _ (Some (_, n)) _ _ => balanced n
  | _ => True
  end.

Inductive well_lexed : expr -> Prop :=
| wl : forall e, own_words e -> Forall well_lexed (children e) -> well_lexed e.

Definition body_parts (b : body) : list expr :=
  b_items b :: opt_list (b_order b) ++ opt_list (b_skip b) ++ opt_list (b_limit b).

Inductive well_lexed_q : query -> Prop :=
| wq_match : forall k o p w, well_lexed p -> Forall well_lexed (opt_list w) -> well_lexed_q (QMatch k o p w)
| wq_create : forall k p, well_lexed p -> well_lexed_q (QCreate k p)
| wq_merge : forall k p evs, well_lexed p -> Forall well_lexed_q evs -> well_lexed_q (QMerge k p evs)
| wq_blank : forall k, well_lexed_q (QBlank k)
| wq_action : forall k c s, well_lexed_q s -> well_lexed_q (QAction k c s)
| wq_delete : forall k d e, well_lexed e -> well_lexed_q (QDelete k d e)
| wq_set : forall k e, well_lexed e -> well_lexed_q (QSet k e)
| wq_remove : forall k e, well_lexed e -> well_lexed_q (QRemove k e)
| wq_unwind : forall k e v, well_lexed e -> balanced v -> well_lexed_q (QUnwind k e v)
| wq_with : forall k d b w, Forall well_lexed (body_parts b) -> Forall well_lexed (opt_list w) -> well_lexed_q (QWith k d b w)
| wq_return : forall k d b, Forall well_lexed (body_parts b) -> well_lexed_q (QReturn k d b)
| wq_call : forall k kn sp n a y w, (forall ks x, sp = Some (ks, x) -> balanced x) -> balanced n ->
    Forall well_lexed (opt_list a) -> Forall well_lexed (opt_list y) -> Forall well_lexed (opt_list w) ->
    well_lexed_q (QCall k kn sp n a y w)
| wq_sub : forall k q, well_lexed_q q -> well_lexed_q (QSubquery k q)
| wq_single : forall cs r, Forall well_lexed_q cs -> Forall well_lexed_q (opt_list r) -> well_lexed_q (QSingle cs r)
| wq_multi : forall ps r, (forall k cs w, In (k, cs, w) ps -> Forall well_lexed_q cs /\ well_lexed_q w) -> well_lexed_q r ->
    well_lexed_q (QMulti ps r)
| wq_union : forall k q qs, well_lexed_q q -> (forall ku a x, In (ku, a, x) qs -> well_lexed_q x) -> well_lexed_q (QUnion k q qs).
