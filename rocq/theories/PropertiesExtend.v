(** Headline theorems: C74. *)

From Coq Require Import Ascii String List ZArith Bool Lia.
From Verif Require Import SpecCond GoStr Escape Num VTree WellKeyed SpecSpace EscapeProofs GoStrProofs Ast SpecDoc SpecPrint DocProofs Cond GoVal
  Queries Builder BuilderText SpecBuilder BuilderProofs AgainProofs SpecExtend ExtendProofs PropertiesText PropertiesRender PropertiesBuilder.
Import ListNotations.
Open Scope string_scope.
Open Scope list_scope.

(** ** White space at the ends *)

(** Bytes that are not part of white space. *)
Definition plain_byte (a : ascii) : Prop :=
  forallb (fun e => negb (existsb (Ascii.eqb a) (list_ascii_of_string e))) space_encodings = true.

Lemma plain_not_space : forall a, plain_byte a -> forall q, all_space q -> ~ In a (list_ascii_of_string q).
Proof.
  intros a P q S. induction S as [|e s I S IH]; [tauto|]. rewrite los_app. intros J. apply in_app_or in J as [J|J]; [|now apply IH].
  unfold plain_byte in P. rewrite forallb_forall in P. specialize (P e I). apply negb_true_iff in P.
  assert (T : existsb (Ascii.eqb a) (list_ascii_of_string e) = true) by (apply existsb_exists; exists a; split; [exact J|apply Ascii.eqb_refl]). congruence.
Qed.
Lemma trim_left_plain : forall a s, plain_byte a -> trim_left (String a s) = String a s.
Proof.
  intros a s P. destruct (trim_left_split _ (String a s) (le_n _)) as (p & S & H). destruct p as [|b p]; [now rewrite H at 2|].
  cbn in H. injection H as <- _. exfalso. apply (plain_not_space a P _ S). now left.
Qed.
Lemma split_at : forall b x y t q, (x ++ String b y = t ++ q)%string -> (exists w, t = (x ++ String b w)%string) \/ In b (list_ascii_of_string q).
Proof.
  intros b. induction x as [|a x IH]; intros y t q H; destruct t as [|c t]; cbn in H.
  - right. subst q. now left.
  - injection H as -> ->. left. now exists t.
  - right. subst q. right. change (In b (list_ascii_of_string (x ++ String b y))). rewrite los_app. apply in_or_app. right. now left.
  - injection H as -> H. destruct (IH y t q H) as [[w ->]|J]; [left; now exists w|now right].
Qed.
(** ** Documents of clauses *)

Definition keyword (s : string) : Prop := exists a s', s = String a s' /\ plain_byte a.
Lemma clause_keyword : forall E p c, says p c ->
  exists k s l, print_query E c = Shared k (Cat (Txt s :: l)) /\ In k (made_clause c) /\ keyword s.
Proof.
  intros E p c S. destruct p, c; cbn [says] in S; try contradiction; cbn [print_query made_clause app];
    do 3 eexists; (split; [reflexivity|split; [now left|]]); try (match goal with |- keyword (if ?b then _ else _) => destruct b end);
    (do 2 eexists; split; [reflexivity|vm_compute; reflexivity]).
Qed.
Lemma aliased_clauses : forall E q, aliased_keys (print_query E q) = flat_map aliased_keys (map (print_query E) (SpecBuilder.clauses q)).
Proof.
  intros E. fix IH 1. intros q.
  assert (Triv : SpecBuilder.clauses q = [q] -> aliased_keys (print_query E q) = flat_map aliased_keys (map (print_query E) (SpecBuilder.clauses q))).
  { intros ->. cbn [map flat_map]. now rewrite app_nil_r. }
  destruct q; try (apply Triv; reflexivity); clear Triv.
  - cbn [print_query SpecBuilder.clauses]. rewrite aliased_Cat, map_app. now destruct ret.
  - cbn [print_query SpecBuilder.clauses]. rewrite aliased_Cat, map_app, !flat_map_app. cbn [flat_map]. rewrite IH, app_nil_r. f_equal.
    clear IH. induction parts as [|[[k cs] w] ps G]; [reflexivity|]. cbn [map flat_map fst snd]. rewrite map_app, flat_map_app, G. f_equal.
    unfold clauses_of_part. cbn [fst snd]. rewrite map_app. exact (aliased_Cat _).
Qed.

Lemma trim_keeps : forall a h b r, plain_byte a -> plain_byte b ->
  exists rest, rest <> "" /\ trim_space (String a h ++ String b r) = (String a h ++ rest)%string.
Proof.
  intros a h b r A B. unfold trim_space. change (String a h ++ String b r)%string with (String a (h ++ String b r)). rewrite trim_left_plain by exact A.
  destruct (trim_right_split (String a (h ++ String b r))) as (q2 & S2 & H2).
  destruct (split_at b (String a h) r _ _ H2) as [[w W]|J]; [|destruct (plain_not_space b B q2 S2 J)].
  exists (String b w). split; [discriminate|exact W].
Qed.
Lemma trim_start : forall b r, plain_byte b -> trim_space (String b r) <> "".
Proof.
  intros b r B H. apply trim_space_blank in H. apply (plain_not_space b B _ H). now left.
Qed.

(** Phrases that two statements begin with are written in the same way. *)
Lemma kept : forall E phs more q1 q2 cs1 cs1', Forall one_name phs -> more <> [] ->
  SpecBuilder.clauses q1 = cs1 ++ cs1' -> Forall2 says phs cs1 -> Forall2 says (phs ++ more) (SpecBuilder.clauses q2) ->
  (forall k, In k (made E q1 ++ made E q2) -> ~ In k (aliased_keys (print_query E q2))) ->
  (forall k, In k (made E q1) -> ~ In k (aliased_keys (Cat (map (print_query E) cs1))))
  /\ exists rest, rest <> "" /\ statement_text E q2 = (text (Cat (map (print_query E) cs1)) ++ rest)%string
     /\ (cs1 <> [] -> keyword (text (Cat (map (print_query E) cs1)))).
Proof.
  intros E phs more q1 q2 cs1 cs1' ON NM CL1 F1 F2 A.
  apply Forall2_app_inv_l in F2 as (cs & cs' & F2 & F3 & CL).
  set (N := fun k => In k (made E q1 ++ made E q2)).
  assert (N1 : forall k, In k (made E q1) -> N k) by (intros k J; apply in_or_app; now left).
  assert (N2 : forall k, In k (made E q2) -> N k) by (intros k J; apply in_or_app; now right).
  assert (SC : Forall2 (same N) (map (print_query E) cs1) (map (print_query E) cs)).
  { apply same_clauses with (ps := phs); auto.
    - apply N1. now left.
    - apply N1. right. now left.
    - intros k J. apply N1. right. right. apply in_or_app. right. rewrite CL1, flat_map_app. apply in_or_app. now left.
    - intros k J. apply N2. right. right. apply in_or_app. right. rewrite CL, flat_map_app. apply in_or_app. now left. }
  pose proof (same_cat N _ _ SC) as SD. pose proof SD as (AK & _ & _).
  assert (AL : aliased_keys (print_query E q2) = aliased_keys (Cat (map (print_query E) cs1)) ++ flat_map aliased_keys (map (print_query E) cs')).
  { rewrite AK, !aliased_clauses, CL, map_app, flat_map_app, aliased_Cat. reflexivity. }
  assert (U1 : forall k, N k -> ~ In k (aliased_keys (Cat (map (print_query E) cs1)))).
  { intros k J X. apply (A k J). rewrite AL. apply in_or_app. now left. }
  split; [auto|].
  assert (T1 : text (Cat (map (print_query E) cs1)) = fst (wcat (map (print_query E) cs) nothing_written)).
  { rewrite (same_text N _ _ SD U1). unfold text. now rewrite write_Cat. }
  assert (T2 : text (print_query E q2) = fst (wcat (map (print_query E) cs ++ map (print_query E) cs') nothing_written)).
  { rewrite C26_text_in_clause_order.
    - unfold text. now rewrite write_Cat, CL, map_app.
    - intros k J. apply A, N2. right. right. apply in_or_app. now left. }
  rewrite wcat_app in T2.
  assert (FR : forall d l m, (forall k, N k -> free k m) -> (exists ph, says ph d) -> (forall k, In k (made_clause d) -> N k) -> keyword (fst (wcat (map (print_query E) (d :: l)) m))).
  { intros d l m F (ph & Sd) D. destruct (clause_keyword E ph d Sd) as (k & s & r & P & Hk & a & s' & -> & PB). cbn [map wcat]. rewrite P, write_Shared.
    pose proof (F k (D k Hk)) as FK. unfold free in FK. rewrite FK, write_Cat. cbn [wcat]. change (write (Txt (String a s')) m) with (String a s', m). cbv beta iota.
    destruct (wcat r m) as [y m1]. destruct (wcat (map (print_query E) l) m1) as [z m2]. cbn [fst append]. do 2 eexists. split; [reflexivity|exact PB]. }
  assert (IN : forall d, In d (cs ++ cs') -> forall k, In k (made_clause d) -> N k).
  { intros d J k Jk. apply N2. right. right. apply in_or_app. right. rewrite CL. apply in_flat_map. eauto. }
  destruct more as [|ph' more']; [now destruct NM|]. inversion F3 as [|? d' ? l' Sd' FL']; subst.
  assert (FM : forall k, N k -> free k (snd (wcat (map (print_query E) cs) nothing_written))).
  { intros k J. rewrite <- write_Cat. apply free_write; [|reflexivity]. rewrite <- AK. now apply U1. }
  assert (K2' : keyword (fst (wcat (map (print_query E) (d' :: l')) (snd (wcat (map (print_query E) cs) nothing_written))))).
  { apply FR; [exact FM|eauto|]. apply IN. apply in_or_app. right. now left. }
  clear - K2' T1 T2 FR F2 IN SC. set (D := map (print_query E) (d' :: l')) in *. clearbody D. unfold statement_text. rewrite T1, T2. clear T1 T2. destruct cs as [|d l].
  - cbn [map wcat fst snd] in *. destruct (wcat D nothing_written) as [r m']. cbn [map wcat fst snd append] in *.
    destruct K2' as (b & r' & -> & PB). exists (trim_space (String b r')). split; [now apply trim_start|]. split; [reflexivity|]. intros N0. inversion SC as [H|]. destruct cs1; [now destruct N0|discriminate H].
  - assert (K1' : keyword (fst (wcat (map (print_query E) (d :: l)) nothing_written))).
    { inversion F2 as [|? ? ? ? Sd FL]; subst. apply FR; [intros; reflexivity|eauto|]. apply IN. now left. }
    destruct (wcat (map (print_query E) (d :: l)) nothing_written) as [h m]. cbn [fst snd] in *.
    destruct (wcat D m) as [r m']. cbn [fst snd] in *.
    destruct K1' as (a & h' & -> & PA), K2' as (b & r' & -> & PB). destruct (trim_keeps a h' b r' PA PB) as (rest & R & T).
    exists rest. split; [exact R|]. split; [exact T|]. intros _. do 2 eexists. split; [reflexivity|exact PA].
Qed.

Lemma write_some : forall p l, l <> [] -> fold_left write_call p l <> [].
Proof.
  induction p as [|c p IH]; intros l N; [exact N|]. cbn [fold_left]. apply IH. unfold write_call. destruct (starts c); [now destruct l|].
  unfold complete_last. destruct (rev l) as [|p0 r] eqn:R; [|now destruct (rev r)]. destruct N. apply (f_equal (@rev _)) in R. now rewrite rev_involutive in R.
Qed.
Lemma written_some : forall p i, compiles IStart p = Some i -> buildable i = true -> orderly p = true -> written p <> [].
Proof.
  intros p i C B O W. destruct p as [|d p]; [cbn in C; injection C as <-; discriminate B|].
  unfold written in W. cbn [fold_left] in W. unfold write_call at 2 in W. cbn [complete_last rev app] in W.
  destruct (starts d) as [ph|] eqn:Sd; [exact (write_some p [ph] ltac:(discriminate) W)|].
  cbn [compiles] in C. destruct (offers IStart d) as [j|] eqn:Od; [|discriminate C].
  unfold orderly in O. cbn [orderly_from] in O. apply andb_prop in O as [O _]. apply andb_prop in O as [O _].
  destruct d; cbn in Od, Sd, O; try discriminate; try (destruct e; discriminate); try (destruct s; discriminate).
Qed.
Lemma written_but_last : forall p p', written p <> [] -> exists more, more <> [] /\ written (p ++ p') = removelast (written p) ++ more.
Proof.
  intros p p' N. unfold written at 1. rewrite fold_left_app. fold (written p). destruct (exists_last N) as (l & x & W). rewrite W.
  rewrite removelast_last, write_after by discriminate. exists (fold_left write_call p' [x]). split; [|reflexivity]. apply write_some. discriminate.
Qed.
Lemma Forall2_last : forall A B (R : A -> B -> Prop) l l', Forall2 R l l' -> Forall2 R (removelast l) (removelast l').
Proof.
  intros A B R l l' F. induction F as [|a b l l' H F IH]; [constructor|]. destruct F as [|c d l l' H2 F]; [constructor|].
  change (removelast (a :: c :: l)) with (a :: removelast (c :: l)). change (removelast (b :: d :: l')) with (b :: removelast (d :: l')). now constructor.
Qed.

(** A call that starts a clause, and those after it, add to the end of the text:
    what the chain gave without them is kept. *)
Theorem C74_added_clauses_follow_partial : forall E K1 ks1 K2 ks2 p c p' i1 i2 q1 q2,
  compiles IStart p = Some i1 -> buildable i1 = true ->
  compiles IStart (p ++ c :: p') = Some i2 -> buildable i2 = true -> orderly (p ++ c :: p') = true -> starts c <> None ->
  build_program K1 ks1 p = Some (Returns (Built (StOk q1))) ->
  build_program K2 ks2 (p ++ c :: p') = Some (Returns (Built (StOk q2))) ->
  (forall k, In k (made E q1 ++ made E q2) -> ~ In k (aliased_keys (print_query E q2))) ->
  exists rest, rest <> "" /\ statement_text E q2 = (statement_text E q1 ++ rest)%string.
Proof.
  intros E K1 ks1 K2 ks2 p c p' i1 i2 q1 q2 C1 B1 C2 B2 O S Q1 Q2 A.
  assert (O1 : orderly p = true) by (eapply orderly_prefix; exact O).
  destruct (program_ok K1 ks1 p i1 C1 B1 O1) as (x & X & F1). rewrite Q1 in X. injection X as <-.
  destruct (program_ok K2 ks2 _ i2 C2 B2 O) as (x & X & F2). rewrite Q2 in X. injection X as <-.
  destruct (written_more p c p' S) as (more & NM & M). rewrite M in F2.
  assert (ON : Forall one_name (written p)) by (apply orderly_one; [exact O1|constructor]).
  destruct (kept E _ more q1 q2 (SpecBuilder.clauses q1) [] ON NM (eq_sym (app_nil_r _)) F1 F2 A) as (U & rest & R & T & Kw).
  assert (NE : SpecBuilder.clauses q1 <> []).
  { intros Z. rewrite Z in F1. inversion F1 as [W|]. exact (written_some p i1 C1 B1 O1 (eq_sym W)). }
  assert (T1 : text (print_query E q1) = text (Cat (map (print_query E) (SpecBuilder.clauses q1)))).
  { apply C26_text_in_clause_order. intros k J. rewrite aliased_clauses, <- aliased_Cat. apply U. right. right. apply in_or_app. now left. }
  rewrite T, <- T1. destruct (Kw NE) as (a & h & H & PA). rewrite <- T1 in H.
  unfold statement_text at 1. rewrite H. unfold trim_space. rewrite trim_left_plain by exact PA.
  destruct (trim_right_split (String a h)) as (q & _ & Hq). exists (q ++ rest)%string. split; [destruct q; [exact R|discriminate]|].
  rewrite Hq at 1. now rewrite sapp_assoc.
Qed.
Print Assumptions C74_added_clauses_follow_partial.

(** Whatever calls are added, all clauses but the last one are kept. *)
Theorem C74_earlier_clauses_stay_partial : forall E K1 ks1 K2 ks2 p p' i1 i2 q1 q2,
  compiles IStart p = Some i1 -> buildable i1 = true ->
  compiles IStart (p ++ p') = Some i2 -> buildable i2 = true -> orderly (p ++ p') = true ->
  build_program K1 ks1 p = Some (Returns (Built (StOk q1))) ->
  build_program K2 ks2 (p ++ p') = Some (Returns (Built (StOk q2))) ->
  (forall k, In k (made E q1 ++ made E q2) -> ~ In k (aliased_keys (print_query E q2))) ->
  exists rest, rest <> "" /\ statement_text E q2 = (text (Cat (map (print_query E) (removelast (SpecBuilder.clauses q1)))) ++ rest)%string.
Proof.
  intros E K1 ks1 K2 ks2 p p' i1 i2 q1 q2 C1 B1 C2 B2 O Q1 Q2 A.
  assert (O1 : orderly p = true) by (eapply orderly_prefix; exact O).
  destruct (program_ok K1 ks1 p i1 C1 B1 O1) as (x & X & F1). rewrite Q1 in X. injection X as <-.
  destruct (program_ok K2 ks2 _ i2 C2 B2 O) as (x & X & F2). rewrite Q2 in X. injection X as <-.
  pose proof (written_some p i1 C1 B1 O1) as NE. destruct (written_but_last p p' NE) as (more & NM & M). rewrite M in F2.
  assert (NC : SpecBuilder.clauses q1 <> []) by (intros Z; rewrite Z in F1; inversion F1; congruence).
  destruct (exists_last NC) as (l & z & L).
  assert (ON : Forall one_name (removelast (written p))).
  { assert (W : Forall one_name (written p)) by (apply orderly_one; [exact O1|constructor]). destruct (exists_last NE) as (w & y & Y). rewrite Y in *. rewrite removelast_last. now apply Forall_app in W as [W _]. }
  destruct (kept E (removelast (written p)) more q1 q2 (removelast (SpecBuilder.clauses q1)) [z] ON NM) as (_ & rest & R & T & _); auto.
  - rewrite L, removelast_last. reflexivity.
  - now apply Forall2_last.
  - eauto.
Qed.
Print Assumptions C74_earlier_clauses_stay_partial.

(** The same of the texts the renderer writes. *)
Theorem C74_rendered_clauses_follow_partial : forall (err : Type) E K1 ks1 K2 ks2 p c p' i1 i2 q1 q2,
  compiles IStart p = Some i1 -> buildable i1 = true ->
  compiles IStart (p ++ c :: p') = Some i2 -> buildable i2 = true -> orderly (p ++ c :: p') = true -> starts c <> None ->
  build_program K1 ks1 p = Some (Returns (Built (StOk q1))) ->
  build_program K2 ks2 (p ++ c :: p') = Some (Returns (Built (StOk q2))) ->
  (forall k, In k (made E q1 ++ made E q2) -> ~ In k (aliased_keys (print_query E q2))) ->
  well_keyed (to_vtq E q1) = true -> well_quiet (to_vtq E q1) = true -> well_keyed (to_vtq E q2) = true -> well_quiet (to_vtq E q2) = true ->
  exists rest, rest <> ""
    /\ fst (fst (render (err:=err) (SOk (to_vtq E q2)) new_renderer)) = (fst (fst (render (err:=err) (SOk (to_vtq E q1)) new_renderer)) ++ rest)%string.
Proof.
  intros err E K1 ks1 K2 ks2 p c p' i1 i2 q1 q2 C1 B1 C2 B2 O S Q1 Q2 A W1 L1 W2 L2.
  rewrite (C01_rendering_prints_the_statement_partial err E q1 W1 L1), (C01_rendering_prints_the_statement_partial err E q2 W2 L2). cbn [fst].
  exact (C74_added_clauses_follow_partial E K1 ks1 K2 ks2 p c p' i1 i2 q1 q2 C1 B1 C2 B2 O S Q1 Q2 A).
Qed.
Print Assumptions C74_rendered_clauses_follow_partial.

(** ** Chains that meet the hypotheses *)

Definition begun : list Builder.call :=
  [matched; Where (cond "a"); AndC (cond "b"); SetItems a_is_1; SetLabels (NodeNamed "nk" "n") ["A"; "B"]].
Definition went_on : list Builder.call :=
  [With true [GOk nn; GOk (EAlias "al" "pz" (prop nn "pz" "z") "total")]; OrderBy (GOk (prop nn "pz" "z")); Descending; Then (GOk (prop nn "py" "y")); Ascending; Limit 3;
   Merge [GOk m_]; OnAction true [GOk (prop mm "w" "w"); GOk (num "two" 2)]; Returning false [GOk mm; GOk (prop nn "pz" "z")]].
Definition other_addresses (i n : nat) : key := ("!" ++ K0 i n)%string.
Definition q_begun : query := Eval vm_compute in
  match build_program K0 (K0 99) begun with Some (Returns (Built (StOk q))) => q | _ => QSingle [] None end.
Definition q_went_on : query := Eval vm_compute in
  match build_program other_addresses (other_addresses 98) (begun ++ went_on) with Some (Returns (Built (StOk q))) => q | _ => QSingle [] None end.
Definition disjoint (a b : list key) : bool := forallb (fun k => negb (existsb (String.eqb k) b)) a.
Lemma disjoint_by : forall a b, disjoint a b = true -> forall k, In k a -> ~ In k b.
Proof.
  intros a b D k I J. unfold disjoint in D. rewrite forallb_forall in D. specialize (D k I). apply negb_true_iff in D.
  assert (T : existsb (String.eqb k) b = true) by (apply existsb_exists; exists k; split; [exact J|apply String.eqb_refl]). congruence.
Qed.

Example C74_case : valid begun /\ valid (begun ++ went_on) /\ orderly (begun ++ went_on) = true /\ starts (hd Descending went_on) <> None
  /\ build_program K0 (K0 99) begun = Some (Returns (Built (StOk q_begun)))
  /\ build_program other_addresses (other_addresses 98) (begun ++ went_on) = Some (Returns (Built (StOk q_went_on)))
  /\ (forall k, In k (made env0 q_begun ++ made env0 q_went_on) -> ~ In k (aliased_keys (print_query env0 q_went_on)))
  /\ well_keyed (to_vtq env0 q_begun) = true /\ well_quiet (to_vtq env0 q_begun) = true
  /\ well_keyed (to_vtq env0 q_went_on) = true /\ well_quiet (to_vtq env0 q_went_on) = true
  /\ statement_text env0 q_begun = "MATCH (n:`Person`) WHERE (n.a = 1 AND n.b = 1) SET n.a = 1 SET n:`A`:`B`"
  /\ statement_text env0 q_went_on =
       "MATCH (n:`Person`) WHERE (n.a = 1 AND n.b = 1) SET n.a = 1 SET n:`A`:`B` WITH DISTINCT n, n.z AS total ORDER BY total DESC, n.y ASC LIMIT 3 MERGE (m:`Movie`) ON CREATE SET m.w = 2 RETURN m, total".
Proof.
  split; [eexists; split; vm_compute; reflexivity|]. split; [eexists; split; vm_compute; reflexivity|]. split; [vm_compute; reflexivity|]. split; [discriminate|].
  split; [vm_compute; reflexivity|]. split; [vm_compute; reflexivity|]. split; [apply disjoint_by; vm_compute; reflexivity|].
  repeat split; vm_compute; reflexivity.
Qed.

(** Not for all chains that Go accepts: labels set after ON CREATE stand before
    the clauses already written. *)
Definition merged_on_create : list Builder.call := [Merge [GOk n_]; OnAction true a_is_1].
Definition labels_then : Builder.call := SetLabels (NodeNamed "nk" "n") ["A"].

Theorem C74_labels_after_on_create_refuted :
  gives merged_on_create "MERGE (n:`Person`) ON CREATE SET n.a = 1"
  /\ gives (merged_on_create ++ [labels_then]) "SET n:`A` MERGE (n:`Person`) ON CREATE SET n.a = 1"
  /\ starts labels_then <> None
  /\ ~ exists rest, ("SET n:`A` MERGE (n:`Person`) ON CREATE SET n.a = 1" = "MERGE (n:`Person`) ON CREATE SET n.a = 1" ++ rest)%string.
Proof.
  split; [compute_gives|]. split; [compute_gives|]. split; [discriminate|]. intros [rest H]. discriminate H.
Qed.
Print Assumptions C74_labels_after_on_create_refuted.

(** Calls that complete the last clause and then start another one. *)
Definition merging : list Builder.call := [matched; Where (cond "a"); AndC (cond "b"); Merge [GOk m_]; OnAction true a_is_1].
Definition completing : list Builder.call := [OnAction false [GOk (prop mm "w" "w"); GOk (num "two" 2)]; Returning false [GOk mm]; OrderBy (GOk nn)].
Definition q_merging : query := Eval vm_compute in
  match build_program K0 (K0 99) merging with Some (Returns (Built (StOk q))) => q | _ => QSingle [] None end.
Definition q_completed : query := Eval vm_compute in
  match build_program other_addresses (other_addresses 98) (merging ++ completing) with Some (Returns (Built (StOk q))) => q | _ => QSingle [] None end.

Example C74_case_completed : valid merging /\ valid (merging ++ completing) /\ orderly (merging ++ completing) = true
  /\ build_program K0 (K0 99) merging = Some (Returns (Built (StOk q_merging)))
  /\ build_program other_addresses (other_addresses 98) (merging ++ completing) = Some (Returns (Built (StOk q_completed)))
  /\ (forall k, In k (made env0 q_merging ++ made env0 q_completed) -> ~ In k (aliased_keys (print_query env0 q_completed)))
  /\ text (Cat (map (print_query env0) (removelast (SpecBuilder.clauses q_merging)))) = "MATCH (n:`Person`) WHERE (n.a = 1 AND n.b = 1) "
  /\ statement_text env0 q_completed =
       "MATCH (n:`Person`) WHERE (n.a = 1 AND n.b = 1) MERGE (m:`Movie`) ON CREATE SET n.a = 1 ON MATCH SET m.w = 2 RETURN m ORDER BY n".
Proof.
  split; [eexists; split; vm_compute; reflexivity|]. split; [eexists; split; vm_compute; reflexivity|]. split; [vm_compute; reflexivity|].
  split; [vm_compute; reflexivity|]. split; [vm_compute; reflexivity|]. split; [apply disjoint_by; vm_compute; reflexivity|].
  split; vm_compute; reflexivity.
Qed.
