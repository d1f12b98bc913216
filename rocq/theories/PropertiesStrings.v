(** Headline theorems: C64. *)

From Coq Require Import Ascii String List ZArith Bool Lia.
From Verif Require Import GoStr Escape Num VTree WellKeyed SpecSpace SpecTokens Ast SpecDoc SpecPrint SpecShape SpecOutline SpecGrammar SpecStrings
  TokenProofs VTreeProofs Alloc AllocProofs RenderProofs PrintProofs ParserMono ParserErase StringProofs PropertiesText PropertiesRender PropertiesBrackets
  PropertiesTokens PropertiesGrammar.
Import ListNotations.
Open Scope string_scope.

(** A text is read as a statement as soon as it is for some bound of the depth of calls. *)
Theorem C63_any_bound : forall E s c, is_statement E s c <-> exists ts f, tokens E s = Some ts /\ a_query f ts = Some (c, []).
Proof.
  intros E s c. split.
  - intros (ts & n & T & H). exists ts, n. split; [exact T|]. apply H. lia.
  - intros (ts & f & T & H). exists ts, f. split; [exact T|]. intros g L. exact (query_grows _ _ _ _ L H).
Qed.
Print Assumptions C63_any_bound.

(** Texts whose tokens differ in the values of string literals only are read as
    statements that differ in the values of string literals only. *)
Theorem C64_reader_does_not_look_into_strings : forall E s s' ts ts' c,
  tokens E s = Some ts -> tokens E s' = Some ts' -> map erase ts = map erase ts' -> is_statement E s c ->
  exists c', is_statement E s' c' /\ hollow_tree c = hollow_tree c'.
Proof.
  intros E s s' ts ts' c T T' R H. apply C63_any_bound in H. destruct H as (ts0 & f & T0 & H). rewrite T in T0. injection T0 as <-.
  pose proof (query_blind f ts) as B. pose proof (query_blind f ts') as B'. rewrite R, B', H in B. unfold lift in B.
  destruct (a_query f ts') as [[c' r]|] eqn:Q; [|discriminate B]. assert (B1 : hollow_tree c' = hollow_tree c) by congruence. assert (B2 : map erase r = []) by (cbn [map] in B; congruence). apply map_eq_nil in B2. subst r.
  exists c'. split; [|now symmetry]. apply C63_any_bound. exists ts', f. auto.
Qed.
Print Assumptions C64_reader_does_not_look_into_strings.

(** The texts of statements that are the same but for the values of string
    literals have the same tokens and are read as the same statement, but for
    those values. *)
Theorem C64_strings_do_not_change_the_statement_partial : forall E K q q',
  no_space_in_names E -> self_contained E (e_guid E) -> shared_parts E K -> shaped_q E K q ->
  hollowed_query q = hollowed_query q' ->
  (exists ts ts', tokens E (statement_text E q) = Some ts /\ tokens E (statement_text E q') = Some ts' /\ map erase ts = map erase ts')
  /\ forall c, is_statement E (statement_text E q) c ->
     exists c', is_statement E (statement_text E q') c' /\ hollow_tree c = hollow_tree c'.
Proof.
  intros E K q q' NS G S H B. assert (H' : shaped_q E K q') by (apply query_hollowed; rewrite <- B; now apply query_hollowed).
  destruct (C59_statement_tokens_partial E K q NS G S H) as (ts & T1 & T2). destruct (C59_statement_tokens_partial E K q' NS G S H') as (ts' & T1' & T2').
  pose proof (query_tokens_like E q q' B) as L. rewrite T1, T1' in L. injection L as L. split; [eauto|].
  intros c R. exact (C64_reader_does_not_look_into_strings _ _ _ _ _ _ T2 T2' L R).
Qed.
Print Assumptions C64_strings_do_not_change_the_statement_partial.

(** The same of the texts the renderer writes. *)
Theorem C64_strings_do_not_change_the_rendered_statement_partial : forall (err : Type) E K q q',
  no_space_in_names E -> self_contained E (e_guid E) -> shared_parts E K -> shaped_q E K q ->
  hollowed_query q = hollowed_query q' ->
  well_keyed (to_vtq E q) = true -> well_quiet (to_vtq E q) = true ->
  well_keyed (to_vtq E q') = true -> well_quiet (to_vtq E q') = true ->
  (exists ts ts', tokens E (fst (fst (render (err:=err) (SOk (to_vtq E q)) new_renderer))) = Some ts
     /\ tokens E (fst (fst (render (err:=err) (SOk (to_vtq E q')) new_renderer))) = Some ts' /\ map erase ts = map erase ts')
  /\ forall c, is_statement E (fst (fst (render (err:=err) (SOk (to_vtq E q)) new_renderer))) c ->
     exists c', is_statement E (fst (fst (render (err:=err) (SOk (to_vtq E q')) new_renderer))) c' /\ hollow_tree c = hollow_tree c'.
Proof.
  intros err E K q q' NS G S H B W Q W' Q'.
  rewrite (C01_rendering_prints_the_statement_partial err E q W Q), (C01_rendering_prints_the_statement_partial err E q' W' Q'). cbn [fst].
  now apply (C64_strings_do_not_change_the_statement_partial E K).
Qed.
Print Assumptions C64_strings_do_not_change_the_rendered_statement_partial.

Theorem C64_built_statements_partial : forall (err : Type) E K q q' hp hp',
  no_space_in_names E -> self_contained E (e_guid E) -> shared_parts E K -> shaped_q E K q ->
  hollowed_query q = hollowed_query q' ->
  built false hp -> over hp (to_vtq E q) -> well_quiet (to_vtq E q) = true ->
  built false hp' -> over hp' (to_vtq E q') -> well_quiet (to_vtq E q') = true ->
  (exists ts ts', tokens E (fst (fst (render (err:=err) (SOk (to_vtq E q)) new_renderer))) = Some ts
     /\ tokens E (fst (fst (render (err:=err) (SOk (to_vtq E q')) new_renderer))) = Some ts' /\ map erase ts = map erase ts')
  /\ forall c, is_statement E (fst (fst (render (err:=err) (SOk (to_vtq E q)) new_renderer))) c ->
     exists c', is_statement E (fst (fst (render (err:=err) (SOk (to_vtq E q')) new_renderer))) c' /\ hollow_tree c = hollow_tree c'.
Proof.
  intros err E K q q' hp hp' NS G S H B BU O Q BU' O' Q'.
  apply (C64_strings_do_not_change_the_rendered_statement_partial err E K); auto using (built_well_keyed hp), (built_well_keyed hp').
Qed.
Print Assumptions C64_built_statements_partial.

(** ** A statement that meets the hypotheses *)

(** Two users look for people by name: the same statement, and two names. *)
Definition by_name (s t : string) : query :=
  QSingle [QMatch "m" false
             (EPattern "pa" [ENode "n" (Some ("sn", "u")) [("l", "User")] (Some (EProps "pp" (EMap "mp" [EEntry "en" "name" (EStr "st" s)])))])
             (Some (EWhere "w" (EComparison "c" (Some (EProp "p" (ESym "sn" "u") (ELookup "k" "mail"))) EndsWith (Some (EStr "st2" t)))))]
          (Some (QReturn "r" false (Body (EExprs "es" [ESym "sn" "u"]) None None None))).

Example C64_case :
  no_space_in_names env0 /\ self_contained env0 (e_guid env0) /\ shared_parts env0 (fun _ => False)
  /\ shaped_q env0 (fun _ => False) (by_name "Ann" "@a.org")
  /\ hollowed_query (by_name "Ann" "@a.org") = hollowed_query (by_name "'}) DETACH DELETE u //" "\' OR true /*")
  /\ well_keyed (to_vtq env0 (by_name "Ann" "@a.org")) = true /\ well_quiet (to_vtq env0 (by_name "Ann" "@a.org")) = true
  /\ well_keyed (to_vtq env0 (by_name "'}) DETACH DELETE u //" "\' OR true /*")) = true
  /\ well_quiet (to_vtq env0 (by_name "'}) DETACH DELETE u //" "\' OR true /*")) = true.
Proof.
  split; [exact env0_names|]. split; [shape|]. split; [split; [intros o []|repeat split; intros []]|]. split; [|repeat split; vm_compute; reflexivity].
  unfold by_name.
  repeat first [ progress cbn [children opt_list own_shape app flat_map fst snd b_items b_order b_skip b_limit infix attached clause]
    | match goal with
      | |- self_contained _ _ => apply word_contained; [exact env0_names|reflexivity]
      | |- ~ False => intros []
      | |- shaped _ _ _ => apply sh
      | |- shaped_q _ _ _ => constructor
      | |- Forall _ _ => constructor
      | |- all_attached _ _ => unfold all_attached
      | |- no_label_aliased _ _ => unfold no_label_aliased
      | |- shaped_behind _ _ _ => unfold shaped_behind
      | |- shaped_body _ _ _ => unfold shaped_body
      | |- true = true \/ _ => left; reflexivity
      | |- _ /\ _ => split
      | |- _ <> _ => discriminate
      | |- True => exact Logic.I
      end
    | progress intros
    | match goal with H : Some _ = Some _ |- _ => inversion H; subst; clear H end ].
Qed.

Example C64_case_texts :
  rendered (by_name "Ann" "@a.org") = "MATCH (u:`User` {name: 'Ann'}) WHERE u.mail ENDS WITH '@a.org' RETURN u"
  /\ rendered (by_name "'}) DETACH DELETE u //" "\' OR true /*") =
       "MATCH (u:`User` {name: '\'}) DETACH DELETE u //'}) WHERE u.mail ENDS WITH '\\\' OR true /*' RETURN u"
  /\ exists c, is_statement env0 (rendered (by_name "Ann" "@a.org")) c.
Proof.
  split; [vm_compute; reflexivity|]. split; [vm_compute; reflexivity|]. eexists. reads 40.
Qed.

(** ** Where it fails *)

(** Behind a raw text that opens a literal, what a string says is read as Cypher. *)
Theorem C64_raw_text_refuted : exists q q', hollowed_query q = hollowed_query q'
  /\ well_keyed (to_vtq env0 q) = true /\ well_quiet (to_vtq env0 q) = true /\ well_keyed (to_vtq env0 q') = true /\ well_quiet (to_vtq env0 q') = true
  /\ rendered q = "RETURN [', ' + ', ']" /\ rendered q' = "RETURN [', ' IN ', ']"
  /\ exists c c', is_statement env0 (rendered q) c /\ is_statement env0 (rendered q') c' /\ hollow_tree c <> hollow_tree c'.
Proof.
  exists (gives_back (EListExpr "l" (EExprs "e" [ERaw "a" "'"; EStr "b" " + "; ERaw "c" "'"]))),
    (gives_back (EListExpr "l" (EExprs "e" [ERaw "a" "'"; EStr "b" " IN "; ERaw "c" "'"]))).
  split; [reflexivity|]. do 6 (split; [vm_compute; reflexivity|]).
  exists (read_back (XList [XBin OAdd (XStr ", ") (XStr ", ")])), (read_back (XList [XBin OIn (XStr ", ") (XStr ", ")])).
  split; [reads 40|]. split; [reads 40|]. discriminate.
Qed.
Print Assumptions C64_raw_text_refuted.
