(** Headline theorems: C60 for chains of builder calls. *)

From Coq Require Import Ascii String List ZArith Bool Lia.
From Verif Require Import GoStr Escape Num VTree WellKeyed SpecLex SpecNum SpecSpace SpecTokens EscapeProofs GoStrProofs Ast SpecDoc
  SpecPrint SpecShape TokenProofs TokenTexts TokenDocs TokenPrint VTreeProofs Alloc AllocProofs RenderProofs PrintProofs
  PropertiesText PropertiesRender PropertiesBrackets PropertiesTokens SpecOutline SpecClauses OutlineProofs OutlinePrint PropertiesOutline
  GoVal SpecCond Cond Queries Builder BuilderText SpecBuilder BuilderProofs SpecPhrases BuilderOutline PropertiesBuilder.
Import ListNotations.
Open Scope string_scope.
Open Scope list_scope.

(** Whoever reads the text of a statement made by a chain of calls finds the
    clauses asked for, in the order of the calls, with their WHERE, ORDER BY,
    SKIP and LIMIT, and as many items in each as were given. *)
Theorem C60_phrases_read_from_the_text_partial : forall E K Kp ks p i,
  no_space_in_names E -> self_contained E (e_guid E) -> calm_text E (e_guid E) -> shared_parts E K ->
  compiles IStart p = Some i -> buildable i = true -> orderly p = true -> Forall (fine_phrase E K) (written p) ->
  exists q, build_program Kp ks p = Some (Returns (Built (StOk q)))
    /\ (apart E K q ->
        exists ts, tokens E (statement_text E q) = Some ts /\ outline 0 ts = flat_map phrase_outline (written p)).
Proof.
  intros E K Kp ks p i NS G GC S C B O F. destruct (C26_clauses_in_call_order_partial Kp ks p i C B O) as (q & Q & H).
  exists q. split; [exact Q|]. intros A. destruct (flattened E K (written p) q (written_last p i C) H F A) as (q' & Sh & Cm & Ou & T & _).
  destruct (C60_clauses_read_from_the_text_partial E K q' NS G GC S Sh Cm) as (ts & T1 & T2). exists ts.
  unfold statement_text in *. rewrite T in T1. rewrite Ou in T2. auto.
Qed.
Print Assumptions C60_phrases_read_from_the_text_partial.

Theorem C60_phrases_read_from_the_rendered_text_partial : forall (err : Type) E K Kp ks p i,
  no_space_in_names E -> self_contained E (e_guid E) -> calm_text E (e_guid E) -> shared_parts E K ->
  compiles IStart p = Some i -> buildable i = true -> orderly p = true -> Forall (fine_phrase E K) (written p) ->
  exists q, build_program Kp ks p = Some (Returns (Built (StOk q)))
    /\ (apart E K q -> well_keyed (to_vtq E q) = true -> well_quiet (to_vtq E q) = true ->
        exists ts, tokens E (fst (fst (render (err:=err) (SOk (to_vtq E q)) new_renderer))) = Some ts
                   /\ outline 0 ts = flat_map phrase_outline (written p)).
Proof.
  intros err E K Kp ks p i NS G GC S C B O F.
  destruct (C60_phrases_read_from_the_text_partial E K Kp ks p i NS G GC S C B O F) as (q & Q & H). exists q. split; [exact Q|].
  intros A W Qt. rewrite (C01_rendering_prints_the_statement_partial err E q W Qt). cbn [fst]. now apply H.
Qed.
Print Assumptions C60_phrases_read_from_the_rendered_text_partial.

(** ** A chain that meets the hypotheses *)

Ltac fine_one := split; [shape'|calm_one].
Ltac fine_each := repeat first
  [ match goal with
    | |- Forall _ _ => constructor
    | |- fine _ _ _ => fine_one
    | |- fine_condition _ _ _ => split; [reflexivity|cbn [cond_expr]; fine_one]
    | |- _ /\ _ => split
    | |- True => exact Logic.I
    | |- _ = "" \/ _ => right; reflexivity
    end
  | progress unfold fine_sorting
  | progress cbn [fine_phrase fine_conditions fine_item fst snd s_items map cond_expr] ].

Definition q_long : query := statement_of long.

Example C60_phrases_case :
  Forall (fine_phrase env0 aliased_texts) (written long) /\ apart env0 aliased_texts q_long
  /\ well_keyed (to_vtq env0 q_long) = true /\ well_quiet (to_vtq env0 q_long) = true
  /\ flat_map phrase_outline (written long) =
     ["MATCH"; "WHERE"; "WITH"; "ORDER"; "LIMIT"; "CREATE"; "SET"; ","; "REMOVE"; "RETURN"; ","; "ORDER"; ","; "SKIP"; "LIMIT"].
Proof.
  split.
  { let w := eval vm_compute in (written long) in change (written long) with w. fine_each. }
  split; [|split; [|split]]; try (vm_compute; reflexivity).
  split; intros k I; vm_compute in I; repeat (destruct I as [<-|I]; [intros X; vm_compute in X; repeat (destruct X as [X|X]; try discriminate X); try discriminate X|]); try contradiction.
Qed.
