(** Properties of statements: unions (C24), acceptance (C25), error
    constructors (C39). *)

From Coq Require Import Ascii String List ZArith Bool Lia.
From Verif Require Import GoStr Escape Num VTree Ast SpecPrint GoVal Queries.
Import ListNotations.
Open Scope string_scope.
Open Scope list_scope.

(** ** Specification *)

(** The statements joined by a union, in order, and the keywords between them. *)
Definition members (q : query) : list query :=
  match q with QUnion _ q0 more => q0 :: map snd more | _ => [q] end.
Definition keywords (q : query) : list bool :=
  match q with QUnion _ _ more => map (fun p => snd (fst p)) more | _ => [] end.

Definition is_union (q : query) : bool := match q with QUnion _ _ _ => true | _ => false end.

(** Made by Union ([false]) or UnionAll ([true]) of statements. *)
Definition union_of (all : bool) (q : query) : Prop :=
  is_union q = true /\ keywords q <> [] /\ Forall (fun b => b = all) (keywords q).

(** ** Proofs *)

Lemma first_statement_error_ok : forall qs, first_statement_error (map StOk qs) = None.
Proof. induction qs; cbn; auto. Qed.

Lemma sound_statements_ok : forall qs, sound_statements (map StOk qs) = qs.
Proof. induction qs; cbn; [reflexivity | now f_equal]. Qed.

Lemma broken_ok : forall qs, existsb is_broken_statement (map StOk qs) = false.
Proof. induction qs; cbn; auto. Qed.

Lemma nil_ok : forall qs, existsb (fun s => match s with StNil => true | _ => false end) (map StOk qs) = false.
Proof. induction qs; cbn; auto. Qed.

Lemma combine_snd : forall {A B} (l : list A) (m : list B), length l = length m -> map snd (combine l m) = m.
Proof. induction l; destruct m; cbn; intros; try discriminate; auto. f_equal. auto. Qed.

Lemma combine_flags : forall ks all (qs : list query) n,
  map (fun p : key * bool * query => snd (fst p)) (combine (map (fun i => (ks i, all)) (seq n (length qs))) qs)
  = repeat all (length qs).
Proof. induction qs; cbn; intros; auto. f_equal. apply IHqs. Qed.

Lemma union_create_ok : forall ks all qs, 2 <= length qs ->
  exists q, union_query_create ks all (map StOk qs) = StOk q /\ members q = qs
            /\ is_union q = true /\ keywords q = repeat all (length qs - 1).
Proof.
  intros ks all qs H. unfold union_query_create.
  rewrite map_length. replace (length qs <? 2)%nat with false by (symmetry; apply Nat.ltb_ge; lia).
  rewrite first_statement_error_ok, broken_ok, sound_statements_ok.
  destruct qs as [| q qs]; [cbn in H; lia |].
  eexists. split; [reflexivity |]. cbn [members is_union keywords].
  rewrite combine_snd by (now rewrite map_length, seq_length).
  split; [reflexivity |]. split; [reflexivity |].
  rewrite (combine_flags (fun i => ks (S i))). f_equal. cbn [length]. lia.
Qed.

Lemma all_of_union : forall all q q0 k more, q = QUnion k q0 more -> union_of all q -> union_all_of more = all.
Proof.
  intros all q q0 k more -> (_ & H & F). destruct more as [| [[k1 b] q1] more]; [now contradiction H |].
  cbn in F. now inversion F.
Qed.

(** ** C24 *)

(** The union of two or more statements of which the first is not itself a
    union has them as members in order, with the same keyword throughout. *)
Theorem C24_union : forall ks all q qs, qs <> [] -> is_union q = false ->
  exists u, union_impl ks all (map StOk (q :: qs)) = StOk u
            /\ members u = q :: qs /\ union_of all u.
Proof.
  intros ks all q qs N U.
  assert (L : 2 <= length (q :: qs)) by (destruct qs; [now contradiction N | cbn; lia]).
  destruct (union_create_ok ks all (q :: qs) L) as (u & E & M & I & K).
  exists u. split; [| split; [exact M |]].
  - unfold union_impl. rewrite map_length.
    replace (length (q :: qs) <? 2)%nat with false by (symmetry; apply Nat.ltb_ge; lia).
    rewrite nil_ok. cbn [map] in *. destruct q; try (exact E); discriminate U.
  - split; [exact I |]. rewrite K. split.
    + destruct qs; [now contradiction N | discriminate].
    + apply Forall_forall. intros b H. now apply repeat_spec in H.
Qed.
Print Assumptions C24_union.

(** A union of the same kind as first statement is extended by the others. *)
Theorem C24_union_extended : forall ks all u qs, qs <> [] -> union_of all u ->
  exists v, union_impl ks all (map StOk (u :: qs)) = StOk v
            /\ members v = members u ++ qs /\ union_of all v.
Proof.
  intros ks all u qs N U. pose proof U as (I & _ & _).
  destruct u as [| | | | | | | | | | | | | | | k q0 more]; try discriminate I.
  pose proof (all_of_union all _ q0 k more eq_refl U) as A.
  assert (L : 2 <= length (q0 :: map snd more ++ qs)).
  { cbn. rewrite app_length. destruct qs; [now contradiction N | cbn; lia]. }
  destruct (union_create_ok ks all _ L) as (v & E & M & I' & K).
  exists v. split; [| split; [exact M |]].
  - unfold union_impl. rewrite map_length.
    replace (length (QUnion k q0 more :: qs) <? 2)%nat with false
      by (symmetry; apply Nat.ltb_ge; destruct qs; [now contradiction N | cbn; lia]).
    cbn [map]. rewrite A, eqb_reflx. cbn [negb]. rewrite nil_ok.
    unfold add_additional_queries. rewrite A.
    replace (map (fun p : key * bool * query => StOk (snd p)) more) with (map StOk (map snd more)) by apply map_map.
    now rewrite <- map_app.
  - split; [exact I' |]. rewrite K. split.
    + cbn. rewrite app_length. destruct qs; [now contradiction N |]. cbn. rewrite Nat.add_succ_r. discriminate.
    + apply Forall_forall. intros b H. now apply repeat_spec in H.
Qed.
Print Assumptions C24_union_extended.

(** Fewer than two statements, nil, and a first union of the other kind. *)
Theorem C24_rejected : forall ks all l,
  length l < 2 \/ In StNil l \/ (exists u l', l = StOk u :: l' /\ union_of (negb all) u) ->
  exists b m, union_impl ks all l = StErr b m.
Proof.
  intros ks all l H. unfold union_impl.
  destruct (length l <? 2)%nat eqn:L; [eauto |]. apply Nat.ltb_ge in L.
  assert (X : forall rest k, In StNil rest ->
    (if existsb (fun s => match s with StNil => true | _ => false end) rest then StErr true "can only union single queries" else k)
    = StErr true "can only union single queries").
  { intros rest k I. replace (existsb _ rest) with true; [reflexivity |]. symmetry.
    apply existsb_exists. exists StNil. auto. }
  destruct H as [H | [H | (u & l' & -> & U)]]; [lia | |].
  - destruct l as [| s l]; [destruct H |].
    destruct s as [q | u m | b |]; [| | |].
    + destruct H as [H | H]; [discriminate H |].
      destruct q; try (rewrite X; [eauto | right; exact H]).
      destruct (negb _); [eauto |]. rewrite (X l _ H). eauto.
    + destruct H as [H | H]; [discriminate H |].
      destruct u; [| rewrite X; [eauto | right; exact H]].
      destruct (negb _); [eauto |]. rewrite (X l _ H). eauto.
    + rewrite X; [eauto | exact H].
    + rewrite X; [eauto | now left].
  - pose proof U as (I & _ & _). destruct u as [| | | | | | | | | | | | | | | k u more]; try discriminate I.
    rewrite (all_of_union (negb all) _ u k more eq_refl U).
    destruct all; cbn; eauto.
Qed.
Print Assumptions C24_rejected.

(** An erroneous member is reported, the first one, unless the first statement
    is a union that carries an error. *)
Theorem C24_error_reported_partial : forall ks all q l m,
  is_union q = false \/ union_of all q -> ~ In StNil l -> first_statement_error l = Some m ->
  union_impl ks all (StOk q :: l) = StErr true m.
Proof.
  intros ks all q l m U N E. unfold union_impl.
  destruct l as [| s l]; [discriminate E |].
  replace (length (StOk q :: s :: l) <? 2)%nat with false by (symmetry; apply Nat.ltb_ge; cbn; lia).
  assert (X : existsb (fun s => match s with StNil => true | _ => false end) (s :: l) = false).
  { destruct (existsb _ _) eqn:B; [| reflexivity]. apply existsb_exists in B.
    destruct B as (y & I & Y). destruct y; try discriminate. contradiction. }
  assert (Y : forall a, first_statement_error (map StOk a ++ s :: l) = Some m).
  { induction a; [exact E | exact IHa]. }
  assert (Z : forall b q' qs', union_query_create ks b (map StOk (q' :: qs') ++ s :: l) = StErr true m).
  { intros b q' qs'. unfold union_query_create. rewrite Y.
    replace (length _ <? 2)%nat with false; [reflexivity |].
    symmetry. apply Nat.ltb_ge. rewrite app_length. cbn. lia. }
  destruct U as [U | U].
  - destruct q; try discriminate U; (cbn [existsb] in *; rewrite X; exact (Z all _ [])).
  - pose proof U as (I & _ & _). destruct q; try discriminate I.
    pose proof (all_of_union all _ q k more eq_refl U) as A.
    rewrite A, eqb_reflx. cbn [negb]. rewrite X. unfold add_additional_queries. rewrite A.
    replace (map (fun p : key * bool * query => StOk (snd p)) more) with (map StOk (map snd more)) by apply map_map.
    exact (Z all q (map snd more)).
Qed.
Print Assumptions C24_error_reported_partial.

(** The same for a first statement that is an erroneous single query. *)
Theorem C24_first_error_reported : forall ks all m l, l <> [] -> ~ In StNil l ->
  union_impl ks all (StErr false m :: l) = StErr true m.
Proof.
  intros ks all m l L N. unfold union_impl.
  destruct l as [| s l]; [now contradiction L |].
  replace (length (StErr false m :: s :: l) <? 2)%nat with false by (symmetry; apply Nat.ltb_ge; cbn; lia).
  replace (existsb _ (StErr false m :: s :: l)) with false.
  - reflexivity.
  - symmetry. destruct (existsb _ _) eqn:B; [| reflexivity]. apply existsb_exists in B.
    destruct B as (y & I & Y). destruct y; try discriminate. destruct I as [I | I]; [discriminate | contradiction].
Qed.
Print Assumptions C24_first_error_reported.

(** Nothing else is accepted: an accepted union has two or more statements,
    none nil, and all of them sound, but for an erroneous union at the start. *)
Theorem C24_accepted_only_if : forall ks all l u, union_impl ks all l = StOk u ->
  2 <= length l /\
  (exists qs, l = map StOk qs \/ (exists m, l = StErr true m :: map StOk qs /\ 2 <= length qs)).
Proof.
  intros ks all l u. unfold union_impl.
  destruct (length l <? 2)%nat eqn:L; [discriminate |]. apply Nat.ltb_ge in L.
  assert (X : forall b l u, union_query_create ks b l = StOk u -> exists qs, l = map StOk qs).
  { clear. intros b l u. unfold union_query_create.
    destruct (length l <? 2)%nat; [discriminate |].
    destruct (first_statement_error l) eqn:F; [discriminate |].
    destruct (existsb is_broken_statement l) eqn:B; [discriminate |]. intros _. revert F B.
    induction l as [| s l IH]; intros; [now exists [] |].
    cbn in F, B. destruct s; try discriminate; cbn in F, B.
    destruct (IH F B) as (qs & ->). now exists (q :: qs). }
  assert (X2 : forall b l u, union_query_create ks b l = StOk u -> 2 <= length l).
  { clear. intros b l u. unfold union_query_create. destruct (length l <? 2)%nat eqn:L; [discriminate |].
    intros _. now apply Nat.ltb_ge in L. }
  intros H. split; [exact L |].
  destruct l as [| s l]; [cbn in L; lia |].
  destruct s as [q | [] m | b |].
  - destruct (is_union q) eqn:I.
    + destruct q; try discriminate I. destruct (negb _); [discriminate |].
      destruct (existsb _ l); [discriminate |]. apply X in H. destruct H as (qs & H).
      assert (Y : exists qs', l = map StOk qs').
      { exists (skipn (length (q :: map snd more)) qs).
        apply (f_equal (skipn (length (q :: map snd more)))) in H.
        rewrite skipn_map in H. rewrite <- H. cbn [length skipn].
        rewrite map_length, skipn_app, map_length, Nat.sub_diag.
        rewrite skipn_all2; [reflexivity | now rewrite map_length]. }
      destruct Y as (qs' & ->). exists (QUnion k q more :: qs'). now left.
    + destruct q; try discriminate I; (destruct (existsb _ _) in H; [discriminate |]; apply X in H; destruct H as (qs & ->); exists qs; now left).
  - destruct (negb _); [discriminate |]. destruct (existsb _ l); [discriminate |].
    pose proof (X2 _ _ _ H) as K. apply X in H. destruct H as (qs & ->).
    exists qs. right. exists m. rewrite map_length in K. auto.
  - destruct (existsb _ _) in H; [discriminate |]. apply X in H. destruct H as (qs & H).
    destruct qs; discriminate H.
  - destruct (existsb _ _) in H; [discriminate |]. apply X in H. destruct H as (qs & H).
    destruct qs; discriminate H.
  - destruct (existsb _ _) in H; [discriminate |]. apply X in H. destruct H as (qs & H).
    destruct qs; discriminate H.
Qed.
Print Assumptions C24_accepted_only_if.

(** False in general: a union of the other kind that is not first is joined, so
    that one statement has UNION and UNION ALL; *)
Definition q1 := QSingle [] (Some (QReturn "r1" false (Body (EExprs "x1" [ENum "n1" (num_of_Z 1)]) None None None))).
Definition q2 := QSingle [] (Some (QReturn "r2" false (Body (EExprs "x2" [ENum "n2" (num_of_Z 2)]) None None None))).
Definition q3 := QSingle [] (Some (QReturn "r3" false (Body (EExprs "x3" [ENum "n3" (num_of_Z 3)]) None None None))).
Definition key_from (s : string) (n : nat) : key := (s ++ String (ascii_of_nat (65 + n)) "")%string.
Definition env1 : env := Env (fun _ => false) (fun _ => false) "guid" (key_from "op") "dots".

Theorem C24_mixed_kinds_refuted :
  exists inner outer,
    union_impl (key_from "u") true [StOk q2; StOk q3] = StOk inner
    /\ union_impl (key_from "v") false [StOk q1; StOk inner] = StOk outer
    /\ statement_text env1 outer = "RETURN 1 UNION RETURN 2 UNION ALL RETURN 3".
Proof. eexists. eexists. split; [reflexivity |]. split; [reflexivity |]. vm_compute. reflexivity. Qed.
Print Assumptions C24_mixed_kinds_refuted.

(** and an erroneous union at the start is left out without error. *)
Theorem C24_erroneous_union_refuted :
  exists bad outer,
    union_impl (key_from "u") false [StOk q1] = StErr true bad
    /\ union_impl (key_from "v") false [StErr true bad; StOk q2; StOk q3] = StOk outer
    /\ statement_text env1 outer = "RETURN 2 UNION RETURN 3".
Proof. eexists. eexists. split; [reflexivity |]. split; [reflexivity |]. vm_compute. reflexivity. Qed.
Print Assumptions C24_erroneous_union_refuted.

(** A case that meets the hypotheses. *)
Example C24_example :
  exists u v, union_impl (key_from "u") true [StOk q1; StOk q2] = StOk u
    /\ union_of true u
    /\ union_impl (key_from "v") true [StOk u; StOk q3] = StOk v
    /\ members v = [q1; q2; q3]
    /\ statement_text env1 v = "RETURN 1 UNION ALL RETURN 2 UNION ALL RETURN 3".
Proof.
  eexists. eexists. split; [reflexivity |]. split; [| split; [reflexivity |]; split; [reflexivity | vm_compute; reflexivity]].
  split; [reflexivity |]. split; [discriminate |]. repeat constructor.
Qed.

(** ** C25 *)

(** There is something to execute: a RETURN, or a last clause that is no MATCH. *)
Definition executable (cs : list clause) (r : returning) : Prop :=
  r <> NoReturn \/ exists l c, cs = l ++ [c] /\ is_match_clause c = false.

Lemma last_clause_app : forall l c, last_clause (l ++ [c]) = Some c.
Proof. induction l as [| a [| b l] IH]; intros; [reflexivity | reflexivity |]. change (last_clause ((b :: l) ++ [c]) = Some c). apply IH. Qed.

Lemma executable_test : forall cs r,
  (match last_clause cs with Some c => is_match_clause c | None => true end && negb (return_not_nil r))%bool = false
  <-> executable cs r.
Proof.
  intros cs r. unfold executable. destruct r; cbn [return_not_nil negb]; rewrite ?andb_true_r, ?andb_false_r.
  - split.
    + intros H. right. destruct cs as [| c cs] using rev_ind; [discriminate H |].
      rewrite last_clause_app in H. eauto.
    + intros [H | (l & c & -> & H)]; [now contradiction H |]. now rewrite last_clause_app.
  - split; [left; discriminate | reflexivity].
  - split; [left; discriminate | reflexivity].
Qed.

Definition clause_error (c : clause) : option string := match c with CErr _ m => Some m | _ => None end.

Lemma first_clause_error_none : forall cs, first_clause_error cs = None <-> Forall (fun c => clause_error c = None) cs.
Proof.
  induction cs as [| c cs IH]; cbn; [split; constructor |].
  destruct c; cbn; rewrite ?IH; split; intros H; try (inversion H; subst; auto; discriminate); try discriminate;
    try (constructor; [reflexivity | exact H]).
Qed.

(** A query without RETURN that has no clause or ends in a MATCH is rejected. *)
Theorem C25_not_executable : forall cs r, ~ executable cs r ->
  single_part_create cs r = StErr false "required return clause".
Proof.
  intros cs r H. unfold single_part_create.
  destruct (_ && _)%bool eqn:E; [reflexivity |]. now apply executable_test in E.
Qed.
Print Assumptions C25_not_executable.

(** Otherwise the first error of a clause is the error of the query. *)
Theorem C25_first_error : forall cs r l b m l', executable cs r ->
  cs = l ++ CErr b m :: l' -> Forall (fun c => clause_error c = None) l ->
  single_part_create cs r = StErr false m.
Proof.
  intros cs r l b m l' X -> F. unfold single_part_create. apply executable_test in X. rewrite X.
  replace (first_clause_error (l ++ CErr b m :: l')) with (Some m); [reflexivity |].
  clear X. induction F as [| c l H F IH]; [reflexivity |]. destruct c; try discriminate H; exact IH.
Qed.
Print Assumptions C25_first_error.

Lemma sound_ok : forall qs, first_clause_error (map COk qs) = None /\ has_broken (map COk qs) = false
  /\ sound_clauses (map COk qs) = qs.
Proof. induction qs as [| q qs (A & B & C)]; cbn; [auto |]. repeat split; auto. now f_equal. Qed.

(** And without errors it carries none, and consists of the clauses in order
    and the RETURN. *)
Theorem C25_accepted : forall qs r, executable (map COk qs) r -> r <> BrokenReturn ->
  single_part_create (map COk qs) r
  = StOk (QSingle qs (match r with Return q => Some q | _ => None end)).
Proof.
  intros qs r X B. unfold single_part_create. apply executable_test in X. rewrite X.
  destruct (sound_ok qs) as (-> & -> & ->).
  destruct r; [reflexivity | reflexivity | now contradiction B].
Qed.
Print Assumptions C25_accepted.

Theorem C25_accepted_only_if : forall cs r q, single_part_create cs r = StOk q ->
  executable cs r /\ Forall (fun c => clause_error c = None) cs.
Proof.
  intros cs r q. unfold single_part_create.
  destruct (_ && _)%bool eqn:E; [discriminate |].
  destruct (first_clause_error cs) eqn:F; [discriminate |]. intros _.
  split; [now apply executable_test | now apply first_clause_error_none].
Qed.
Print Assumptions C25_accepted_only_if.

Definition m1 := QMatch "m1" false (EPattern "p1" [ENode "n1" None [] None]) None.
Definition d1 := QDelete "d1" false (EExprs "e1" [ESym "s1" "n"]).
Example C25_example :
  executable [COk m1; COk d1] NoReturn /\ ~ executable [COk d1; COk m1] NoReturn
  /\ single_part_create [COk m1; COk d1] NoReturn = StOk (QSingle [m1; d1] None)
  /\ single_part_create [COk m1; CErr false "x"; CErr true "y"; COk d1] NoReturn = StErr false "x".
Proof.
  split; [right; exists [COk m1], (COk d1); auto |]. split; [| split; reflexivity].
  intros [H | (l & c & H & M)]; [now contradiction H |].
  change [COk d1; COk m1] with ([COk d1] ++ [COk m1])%list in H.
  apply app_inj_tail in H. destruct H as (_ & <-). discriminate M.
Qed.

(** A query with WITH parts is accepted exactly when all parts and the rest are;
    otherwise the call does not return. *)
Theorem C25_multi_part : forall ps rest, 
  (forall q, multi_part_query_create ps rest = Returns (StOk q) <->
     exists l q', ps = map (fun p : key * list query * query => POk (fst (fst p)) (snd (fst p)) (snd p)) l
                  /\ rest = StOk q' /\ q = QMulti l q').
Proof.
  intros ps rest q. unfold multi_part_query_create. split.
  - destruct (first_part_error ps) eqn:F; [discriminate |].
    destruct rest as [q' | | |]; try discriminate.
    destruct (has_broken_part ps) eqn:B; [discriminate |]. intros H. injection H as <-.
    exists (sound_parts ps), q'. split; [| auto].
    clear q'. induction ps as [| p ps IH]; [reflexivity |].
    destruct p; cbn in F, B |- *; try discriminate. f_equal. now apply IH.
  - intros (l & q' & -> & -> & ->).
    assert (X : forall l, let ps := map (fun p : key * list query * query => POk (fst (fst p)) (snd (fst p)) (snd p)) l in
      first_part_error ps = None /\ has_broken_part ps = false /\ sound_parts ps = l).
    { clear. induction l as [| [[k cs] w] l (A & B & C)]; cbn in *; [auto |]. repeat split; auto. now f_equal. }
    destruct (X l) as (-> & -> & ->). reflexivity.
Qed.
Print Assumptions C25_multi_part.

(** With an error in a part there is no query that carries it. *)
Theorem C25_multi_part_error_refuted : forall ps before m after rest,
  ps = before ++ PErr m :: after -> forall s, multi_part_query_create ps rest <> Returns s.
Proof.
  intros ps before m after rest -> s. unfold multi_part_query_create.
  assert (X : exists m', first_part_error (before ++ PErr m :: after) = Some m').
  { induction before as [|[k cs w|m'|] before IH]; cbn; eauto. }
  destruct X as [m' ->]. discriminate.
Qed.
Print Assumptions C25_multi_part_error_refuted.
Example C25_multi_part_error_case : [POk "k" [m1] d1; PErr "x"] = [POk "k" [m1] d1] ++ PErr "x" :: [].
Proof. reflexivity. Qed.

(** Whichever clause of a part carries the error, or its WITH. *)
Theorem C25_part_with_error_refuted : forall k cs w before after rest,
  Exists (fun c => clause_error c <> None) (cs ++ [w]) ->
  forall s, multi_part_query_create (before ++ multi_part_element_create k cs w :: after) rest <> Returns s.
Proof.
  intros k cs w before after rest X s.
  assert (P : exists m, multi_part_element_create k cs w = PErr m).
  { unfold multi_part_element_create. destruct (first_clause_error cs) as [m|] eqn:F; [now exists m|].
    apply Exists_app in X. destruct X as [X|X].
    - exfalso. apply first_clause_error_none in F. apply Exists_exists in X as (c & I & N).
      rewrite Forall_forall in F. now apply N, F.
    - inversion X as [? ? N|? ? N]; subst; [|inversion N]. destruct w; cbn in N; try congruence. eauto. }
  destruct P as [m ->]. eapply C25_multi_part_error_refuted. reflexivity.
Qed.
Print Assumptions C25_part_with_error_refuted.
Example C25_part_with_error_case : Exists (fun c => clause_error c <> None) ([COk m1] ++ [CErr false "x"]).
Proof. right. left. discriminate. Qed.

(** Otherwise the part has its clauses in order and its WITH. *)
Theorem C25_part_accepted : forall k qs w, multi_part_element_create k (map COk qs) (COk w) = POk k qs w.
Proof. intros k qs w. unfold multi_part_element_create. now destruct (sound_ok qs) as (-> & -> & ->). Qed.
Print Assumptions C25_part_accepted.

(** ** C58: subqueries *)

(** The statement returns rows: it ends in RETURN (after all WITH parts), is a
    procedure call with YIELD, or is a union of such statements. *)
Inductive returns_rows : query -> Prop :=
| rows_return : forall cs r, returns_rows (QSingle cs (Some r))
| rows_with : forall ps q, returns_rows q -> returns_rows (QMulti ps q)
| rows_yield : forall k k' ns n args y w, returns_rows (QCall k k' ns n args (Some y) w)
| rows_union : forall k q more, returns_rows q -> Forall (fun p : key * bool * query => returns_rows (snd p)) more ->
    returns_rows (QUnion k q more).

(** Statements other than unions. *)
Inductive no_union : query -> Prop :=
| single_statement : forall cs r, no_union (QSingle cs r)
| with_statement : forall ps cs r, no_union (QMulti ps (QSingle cs r))
| call_statement : forall k k' ns n args y w, no_union (QCall k k' ns n args y w).

(** Call of a statement gives a subquery with that statement exactly if it
    returns rows; an error of the statement is kept.  Missing: unions, of which
    all are accepted. *)
Theorem C58_subquery_partial : forall k s,
  (forall m b, s = StErr b m -> subquery_call k s = CErr false m)
  /\ (forall q, s = StOk q -> returns_rows q -> subquery_call k s = COk (QSubquery k q))
  /\ (forall q, s = StOk q -> no_union q -> ~ returns_rows q -> exists m, subquery_call k s = CErr false m)
  /\ (s = StNil -> exists m, subquery_call k s = CErr false m)
  /\ (forall q, subquery_call k s = COk q -> exists q', s = StOk q' /\ q = QSubquery k q').
Proof.
  intros k s. split; [|split; [|split; [|split]]].
  - intros m b ->. reflexivity.
  - intros q -> R. cbn. enough (returns_elements q = true) as -> by reflexivity. induction R; cbn; auto.
  - intros q -> J N. cbn. destruct (returns_elements q) eqn:E; [exfalso|eauto].
    destruct J as [cs [r|]|ps cs [r|]|k0 k' ns n args [y|] w]; try discriminate E; apply N; repeat constructor.
  - intros ->. cbn. eauto.
  - intros q. destruct s as [q'| | |]; cbn; try discriminate. destruct (returns_elements q'); [|discriminate]. intros H. injection H as <-. eauto.
Qed.
Print Assumptions C58_subquery_partial.

(** A union of statements that return nothing is accepted. *)
Theorem C58_union_refuted : exists k q more, ~ returns_rows (QUnion k q more)
  /\ subquery_call "k" (StOk (QUnion k q more)) = COk (QSubquery "k" (QUnion k q more)).
Proof.
  exists "u", (QSingle [d1] None), [("v", false, QSingle [d1] None)]. split; [|reflexivity].
  intros H. inversion H as [| | |? ? ? R]; subst. inversion R.
Qed.
Print Assumptions C58_union_refuted.
Example C58_case : returns_rows (QMulti [("k", [m1], d1)] (QSingle [m1] (Some d1)))
  /\ no_union (QSingle [d1] None) /\ ~ returns_rows (QSingle [d1] None).
Proof. split; [repeat constructor|]. split; [constructor|]. intros H. inversion H. Qed.

(** ** C39 *)

Lemma multi_part_query_error_never : forall e v, ~ multi_part_query_error_returns e v.
Proof. intros e v H. induction H. exact IHmulti_part_query_error_returns. Qed.
Lemma string_literal_error_never : forall e v, ~ string_literal_error_returns e v.
Proof. intros e v H. induction H. exact IHstring_literal_error_returns. Qed.
Lemma raw_string_literal_error_never : forall e v, ~ raw_string_literal_error_returns e v.
Proof. intros e v H. induction H. exact IHraw_string_literal_error_returns. Qed.

(** The error constructors of queries with WITH, of string literals and of raw
    literals never return. *)
Theorem C39_error_constructors_refuted : forall e,
  (forall v, ~ multi_part_query_error_returns e v)
  /\ (forall v, ~ string_literal_error_returns e v)
  /\ (forall v, ~ raw_string_literal_error_returns e v).
Proof.
  intros e. split; [| split]; intros v;
    [apply multi_part_query_error_never | apply string_literal_error_never | apply raw_string_literal_error_never].
Qed.
Print Assumptions C39_error_constructors_refuted.

(** They are called: by LiteralOf with a value of an unsupported type, and by
    every query with WITH of which a part or the rest carries an error. *)
Theorem C39_reached_refuted : 
  (forall knull k, literal_of knull k AOther = Diverges)
  /\ (forall ps r m, first_part_error ps = Some m -> multi_part_query_create ps r = Diverges)
  /\ (forall ps b m, first_part_error ps = None -> multi_part_query_create ps (StErr b m) = Diverges).
Proof.
  split; [reflexivity |]. split; intros; unfold multi_part_query_create; now rewrite H.
Qed.
Print Assumptions C39_reached_refuted.

(** LiteralOf returns for every other argument. *)
Theorem C39_literal_of_returns : forall knull k v,
  match v with AExpr _ | ANamed _ | AOther => False | _ => True end ->
  exists g, literal_of knull k v = Returns g.
Proof. intros knull k v H. destruct v; try (now destruct H); eexists; reflexivity. Qed.
Print Assumptions C39_literal_of_returns.
