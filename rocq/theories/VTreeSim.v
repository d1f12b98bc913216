(** The renderer writes [pp]: simulation on well-keyed trees. *)

From Coq Require Import Ascii String List ZArith Bool Lia.
From Verif Require Import GoStr VTree WellKeyed EscapeProofs VTreeProofs.
Import ListNotations.
Open Scope string_scope.

Ltac sassoc := rewrite ?sapp_assoc, ?sapp_nil_r; cbn [append]; try reflexivity.

Lemma pp_none : (forall t s, snd (fst (pp t None s)) = None) /\ (forall l s, snd (fst (pps l None s)) = None).
Proof.
  apply vt_ind'; intros.
  - rewrite pp_V. destruct (pp_el h kids s). reflexivity.
  - rewrite pp_B. auto.
  - reflexivity.
  - reflexivity.
  - cbn [pps]. specialize (H s). destruct (pp t None s) as [[? o] s1]. cbn in H. subst o.
    specialize (H0 s1). destruct (pps l None s1) as [[? ?] ?]. exact H0.
Qed.

Definition pps_none := proj2 pp_none.

(** Content visited in normal mode: any element written in full. *)
Lemma leave_full : forall als anc open h kids r r2 x sep s1 nm out txt open',
  wk_el als anc open h kids -> ready als anc open r ->
  let ri := inside h r in
  let r1 := Rst (r_aliased ri) (r_seps ri) nm (r_stack ri) (r_alstack ri) (r_level ri) false out in
  ready als (h_key h :: anc) open' r1 ->
  wrote r1 r2 x sep s1 ->
  (h_sub h = false -> sep = None) ->
  assoc (h_key h) (s_al s1) = None ->
  r_skip (el_leave h r2) = false ->
  r_out (el_leave h r2) = r_out r ++ opt_text (get_sep (r_level r + 1)%Z (r_seps r)) ++ txt ->
  wrote r (leave h r2) (opt_text (get_sep (r_level r + 1)%Z (r_seps r)) ++ txt)
        (next_sep (get_sep (r_level r + 1)%Z (r_seps r)))
        (Seen (declare h (s_al s1)) (s_nm s1)).
Proof.
  intros als anc open h kids r r2 x sep s1 nm out txt open' W R ri r1 R1 WR Hsub Hu Hsk Htx.
  pose proof (leave_inside r h h r2) as L.
  rewrite (w_al _ _ _ _ _ WR), (w_nm _ _ _ _ _ WR) in L. apply L; auto.
  - unfold used. rewrite (w_al _ _ _ _ _ WR). now rewrite Hu.
  - rewrite (w_stack _ _ _ _ _ WR). reflexivity.
  - rewrite (w_alstack _ _ _ _ _ WR). cbn [r_alstack r1 ri inside].
    destruct (as_alias h) as [a|] eqn:E.
    + left. exists a. split; [reflexivity|]. unfold as_alias in E. destruct (h_kind h); inversion E; reflexivity.
    + pose proof (not_alias_left als anc open h kids r W R E) as N. now rewrite E in N.
  - rewrite (w_level _ _ _ _ _ WR). reflexivity.
  - apply (rd_seps _ _ _ _ R).
  - intros l Hl. rewrite (w_seps _ _ _ _ _ WR); [reflexivity|]. cbn [r_level r1 ri inside]. exact Hl.
  - intros S. change (r_level r + 1)%Z with (r_level r1). rewrite (w_sep _ _ _ _ _ WR). auto.
Qed.

(** Content skipped. *)
Lemma leave_skipped : forall als anc open h u r r2 m txt nm out sk,
  ready als anc open r -> h_sub u = false ->
  left_stack u (r_alstack r) (r_alstack (inside u r)) ->
  let ri := inside u r in
  r2 = Rst m (r_seps ri) nm (r_stack ri) (r_alstack ri) (r_level ri) sk out ->
  used r2 h = u ->
  r_skip (el_leave u r2) = false ->
  r_out (el_leave u r2) = r_out r ++ opt_text (get_sep (r_level r + 1)%Z (r_seps r)) ++ txt ->
  wrote r (leave h r2) (opt_text (get_sep (r_level r + 1)%Z (r_seps r)) ++ txt)
        (next_sep (get_sep (r_level r + 1)%Z (r_seps r)))
        (Seen (declare h m) nm).
Proof.
  intros als anc open h u r r2 m txt nm out sk R Hsub Hls ri E Hu Hsk Htx.
  subst r2.
  pose proof (leave_inside r h u (Rst m (r_seps ri) nm (r_stack ri) (r_alstack ri) (r_level ri) sk out)) as L.
  apply L; auto.
  - apply (rd_seps _ _ _ _ R).
  - intros _. change (get_sep (r_level r + 1 + 1) (r_seps (inside u r)) = None).
    rewrite get_sep_inside. rewrite Hsub. cbn [andb].
    destruct (Z.eqb_spec (r_level r + 1 + 1) (r_level r + 1)); [lia|].
    apply (rd_seps _ _ _ _ R). lia.
Qed.

Lemma rst_eta : forall r, r = Rst (r_aliased r) (r_seps r) (r_named r) (r_stack r) (r_alstack r) (r_level r) (r_skip r) (r_out r).
Proof. intros []. reflexivity. Qed.

(** An element standing for the alias [a], which is declared. *)
Lemma abbreviated : forall als anc open h kids r a,
  one_delegate als -> wk_el als anc open h kids -> incl (aliases_l kids) als ->
  ready als anc open r -> assoc (h_key h) (r_aliased r) = Some a ->
  wrote r (leave h (accepts kids (enter h r)))
        (opt_text (get_sep (r_level r + 1)%Z (r_seps r)) ++ (al_text a ++ leaks_l kids))
        (next_sep (get_sep (r_level r + 1)%Z (r_seps r)))
        (Seen (declare h (sets_l kids (r_aliased r))) (r_named r)).
Proof.
  intros als anc open h kids r a O W Hi R Ha.
  destruct (map_ok_assoc _ _ _ _ (rd_map _ _ _ _ R) Ha) as [Ed Ia].
  rewrite (enter_ready _ _ _ _ h R). unfold used. rewrite Ha.
  set (u := head_of a).
  set (ri := inside u r).
  assert (Ee : el_enter u ri = append_out (al_text a) ri).
  { unfold el_enter, u, head_of. cbn [h_kind]. unfold ri. cbn [r_aliased inside]. rewrite Ed, Ha. reflexivity. }
  rewrite Ee.
  assert (Sk : skipping (append_out (al_text a) ri)).
  { unfold skipping. rewrite orb_true_iff. right. unfold top_visited.
    cbn [r_alstack append_out ri inside u head_of as_alias h_kind r_aliased al_dkey]. now rewrite Ed, Ha. }
  destruct (proj2 (skip_run als) kids (append_out (al_text a) ri) Sk) as [E2 _].
  { exact (rd_map _ _ _ _ R). }
  { exact Hi. }
  { cbn [r_stack append_out ri inside peek u head_of h_key].
    eapply apart_delegate; eauto using (we_kids _ _ _ _ _ W). rewrite Ed. now left. }
  rewrite E2.
  pose proof (proj2 (wk_dkeys als) kids _ _ (h_key h) (we_kids _ _ _ _ _ W) (or_introl (or_introl eq_refl))) as Nk.
  apply (leave_skipped als anc open h u r _ (sets_l kids (r_aliased r)) (al_text a ++ leaks_l kids)
           (r_named r) (r_out ri ++ al_text a ++ leaks_l kids) (r_skip r)); auto.
  - left. exists a. split; [|reflexivity]. unfold u. destruct a; reflexivity.
  - unfold append_out, set_aliased, ri, inside. cbn. rewrite ?sapp_assoc. reflexivity.
  - unfold used. cbn [r_aliased append_out set_aliased ri inside].
    rewrite (proj2 (sets_frame (h_key h))) by exact Nk. rewrite Ha. reflexivity.
  - unfold el_leave, u, head_of. cbn [h_kind].
    match goal with |- context [if ?b then _ else _] => destruct b end; cbn; apply (rd_skip _ _ _ _ R).
  - unfold el_leave, u, head_of. cbn [h_kind].
    assert (X : is_some (assoc (al_dkey a) (r_aliased (append_out (leaks_l kids)
        (set_aliased (sets_l kids (r_aliased (append_out (al_text a) ri))) (append_out (al_text a) ri))))) = true).
    { cbn [r_aliased append_out set_aliased ri inside]. rewrite Ed.
      rewrite (proj2 (sets_frame (h_key h))) by exact Nk. now rewrite Ha. }
    rewrite X. cbn. sassoc.
Qed.

(** An aliased expression whose delegate is declared already. *)
Lemma realiased : forall als anc open h kids r dk tx,
  one_delegate als -> wk_el als anc open h kids -> incl (own_alias h) als -> incl (aliases_l kids) als ->
  ready als anc open r -> assoc (h_key h) (r_aliased r) = None ->
  h_kind h = KAlias dk tx -> is_some (assoc dk (r_aliased r)) = true ->
  wrote r (leave h (accepts kids (enter h r)))
        (opt_text (get_sep (r_level r + 1)%Z (r_seps r)) ++ (tx ++ leaks_l kids))
        (next_sep (get_sep (r_level r + 1)%Z (r_seps r)))
        (Seen (declare h (sets_l kids (r_aliased r))) (r_named r)).
Proof.
  intros als anc open h kids r dk tx O W Hio Hi R Hn K Hd.
  assert (Eal : as_alias h = Some (Alias (h_key h) dk tx)) by (unfold as_alias; now rewrite K).
  assert (Ia : In (Alias (h_key h) dk tx) als).
  { apply Hio. unfold own_alias. rewrite Eal. now left. }
  destruct (we_kalias _ _ _ _ _ W _ _ K) as [Kne [Kanc [Dkanc [Dkopen [Dkin [Shape Sub]]]]]].
  pose proof (we_kids _ _ _ _ _ W) as Wk. rewrite K in Wk.
  rewrite (enter_ready _ _ _ _ h R). unfold used. rewrite Hn.
  set (ri := inside h r).
  assert (Ee : el_enter h ri = append_out tx ri).
  { unfold el_enter. rewrite K. unfold ri. cbn [r_aliased inside]. now rewrite Hd. }
  rewrite Ee.
  assert (Sk : skipping (append_out tx ri)).
  { unfold skipping. rewrite orb_true_iff. right. unfold top_visited.
    cbn [r_alstack append_out ri inside r_aliased]. rewrite Eal. exact Hd. }
  assert (Ls : left_stack h (r_alstack r) (r_alstack (inside h r))).
  { left. exists (Alias (h_key h) dk tx). split; [|reflexivity]. cbn [r_alstack inside]. now rewrite Eal. }
  assert (NkK : ~ In (h_key h) (dkeys (aliases_l kids))).
  { apply (proj2 (wk_dkeys als) kids _ _ (h_key h) Wk). left. now left. }
  assert (NkD : ~ In dk (dkeys (aliases_l kids))).
  { apply (proj2 (wk_dkeys als) kids _ _ dk Wk). right. now left. }
  (* the state after the content, if nothing in it was taken for the alias *)
  assert (Usual : accepts kids (append_out tx ri) =
      append_out (leaks_l kids) (set_aliased (sets_l kids (r_aliased (append_out tx ri))) (append_out tx ri)) ->
    wrote r (leave h (accepts kids (append_out tx ri)))
        (opt_text (get_sep (r_level r + 1)%Z (r_seps r)) ++ (tx ++ leaks_l kids))
        (next_sep (get_sep (r_level r + 1)%Z (r_seps r)))
        (Seen (declare h (sets_l kids (r_aliased r))) (r_named r))).
  { intros E2. rewrite E2.
    apply (leave_skipped als anc open h h r _ (sets_l kids (r_aliased r)) (tx ++ leaks_l kids)
           (r_named r) (r_out ri ++ tx ++ leaks_l kids) (r_skip r)); auto.
    - unfold append_out, set_aliased, ri, inside. cbn. rewrite ?sapp_assoc. reflexivity.
    - unfold used. cbn [r_aliased append_out set_aliased ri inside].
      rewrite (proj2 (sets_frame (h_key h))) by exact NkK. now rewrite Hn.
    - unfold el_leave. rewrite K. match goal with |- context [if ?b then _ else _] => destruct b end; cbn; apply (rd_skip _ _ _ _ R).
    - unfold el_leave. rewrite K.
      assert (X : is_some (assoc dk (r_aliased (append_out (leaks_l kids)
        (set_aliased (sets_l kids (r_aliased (append_out tx ri))) (append_out tx ri))))) = true).
      { cbn [r_aliased append_out set_aliased ri inside].
        rewrite (proj2 (sets_frame dk)) by exact NkD. exact Hd. }
      rewrite X. cbn. sassoc. }
  assert (Bare : ~ In dk (keys_l kids) -> apart als (h_key h) (keys_l kids)).
  { intros Nk k Hk. split.
    - intros ->.
      assert (G : (forall t anc open, wk als anc open t = true -> In (h_key h) anc -> ~ In (h_key h) (keys t))
               /\ (forall l anc open, wk_l als anc open l = true -> In (h_key h) anc -> ~ In (h_key h) (keys_l l))).
      { apply vt_ind'.
        - intros h' kids' IH anc' open' H' Ha' Hin. apply wk_V_inv in H'. rewrite keys_V in Hin.
          destruct Hin as [E|Hin].
          + destruct (we_alias _ _ _ _ _ H' _ Ia (eq_sym E)) as [tx' K'].
            destruct (we_kalias _ _ _ _ _ H' _ _ K') as [_ [A2 _]]. rewrite E in A2. contradiction.
          + revert Hin. eapply IH; [exact (we_kids _ _ _ _ _ H')|now right].
        - intros kids' IH anc' open' H' Ha'. rewrite wk_B in H'. rewrite keys_B. eauto.
        - intros s anc' open' _ _ [].
        - intros anc' open' _ _ [].
        - intros t l IHt IHl anc' open' H' Ha'. cbn [wk_l keys_l] in *. apply andb_true_iff in H'.
          destruct H'. rewrite in_app_iff. intros [X|X]; [eapply IHt|eapply IHl]; eauto. }
      exact (proj2 G kids _ _ Wk (or_introl eq_refl) Hk).
    - intros b Hb E ->. pose proof (O b _ Hb Ia E) as Eb. cbn in Eb. rewrite Eb in Hk. contradiction. }
  assert (Nshape : memk dk (keys_l kids) = false ->
    wrote r (leave h (accepts kids (append_out tx ri)))
        (opt_text (get_sep (r_level r + 1)%Z (r_seps r)) ++ (tx ++ leaks_l kids))
        (next_sep (get_sep (r_level r + 1)%Z (r_seps r)))
        (Seen (declare h (sets_l kids (r_aliased r))) (r_named r))).
  { intros N. apply memk_notIn in N. apply Usual.
    apply (proj2 (skip_run als) kids (append_out tx ri) Sk); auto.
    exact (rd_map _ _ _ _ R). }
  destruct (memk dk (keys_l kids)) eqn:M; [|now apply Nshape].
  (* the delegate itself *)
  destruct kids as [|[hd kd| |] [|? ?]]; cbn [alias_shape] in Shape; try (rewrite M in Shape; discriminate).
  rewrite M, orb_false_r in Shape. apply String.eqb_eq in Shape.
  cbn [accepts]. rewrite accept_V.
  assert (E1 : enter hd (append_out tx ri) = append_out tx ri).
  { unfold enter, pre_enter. unfold skipping in Sk. now rewrite Sk. }
  rewrite E1.
  cbn [wk_l] in Wk. rewrite andb_true_r in Wk. apply wk_V_inv in Wk.
  pose proof (we_kids _ _ _ _ _ Wk) as Wkd.
  cbn [aliases_l] in Hi, NkK, NkD. rewrite app_nil_r, aliases_V in Hi, NkK, NkD.
  apply incl_app_inv in Hi. destruct Hi as [Hi1 Hi2].
  destruct (proj2 (skip_run als) kd (append_out tx ri) Sk) as [E2 _].
  { exact (rd_map _ _ _ _ R). }
  { exact Hi2. }
  { cbn [r_stack append_out ri inside peek].
    pose proof (apart_delegate als _ _ kd (Alias (h_key h) dk tx) O Wkd Ia) as X. cbn in X.
    apply X. left. exact Shape. }
  rewrite E2.
  set (r1 := append_out (leaks_l kd) (set_aliased (sets_l kd (r_aliased (append_out tx ri))) (append_out tx ri))).
  assert (Nd2 : ~ In dk (dkeys (aliases_l kd))).
  { intros X. apply NkD. unfold dkeys. rewrite map_app, in_app_iff. now right. }
  assert (Ndo : ~ In dk (dkeys (own_alias hd))).
  { intros X. apply NkD. unfold dkeys. rewrite map_app, in_app_iff. now left. }
  destruct (assoc dk (r_aliased r)) as [a0|] eqn:A0; [|discriminate].
  destruct (map_ok_assoc _ _ _ _ (rd_map _ _ _ _ R) A0) as [Ed0 Ia0].
  assert (Hu : used r1 hd = head_of a0).
  { unfold used, r1. cbn [r_aliased append_out set_aliased ri inside]. rewrite Shape.
    rewrite (proj2 (sets_frame dk)) by exact Nd2. now rewrite A0. }
  assert (Knone : assoc (h_key h) (declare hd (sets_l kd (r_aliased r))) = None).
  { rewrite <- Hn. rewrite <- sets_V. apply (proj1 (sets_frame (h_key h))). exact NkK. }
  destruct (String.eqb_spec (h_key h) (al_key a0)) as [Eq|Ne].
  - (* left together with the delegate *)
    assert (Wr : wrote r (leave hd r1)
        (opt_text (get_sep (r_level r + 1)%Z (r_seps r)) ++ (tx ++ leaks_l kd))
        (next_sep (get_sep (r_level r + 1)%Z (r_seps r)))
        (Seen (declare hd (sets_l kd (r_aliased r))) (r_named r))).
    { apply (leave_inside r hd (head_of a0) r1); auto.
      - unfold r1, ri. cbn. now rewrite Eq.
      - left. exists (Alias (h_key h) dk tx). split; [|exact Eq]. unfold r1, ri. cbn. now rewrite Eal.
      - apply (rd_seps _ _ _ _ R).
      - intros l Hl. change (r_seps r1) with (r_seps (inside h r)).
        rewrite !get_sep_inside. rewrite Sub. reflexivity.
      - intros _. change (r_seps r1) with (r_seps (inside h r)).
        rewrite get_sep_inside, Sub. cbn [andb].
        destruct (Z.eqb_spec (r_level r + 1 + 1) (r_level r + 1)); [lia|].
        apply (rd_seps _ _ _ _ R). lia.
      - unfold el_leave, head_of. cbn [h_kind]. match goal with |- context [if ?b then _ else _] => destruct b end; cbn; apply (rd_skip _ _ _ _ R).
      - unfold el_leave, head_of. cbn [h_kind].
        assert (X : is_some (assoc (al_dkey a0) (r_aliased r1)) = true).
        { unfold r1. cbn [r_aliased append_out set_aliased ri inside]. rewrite Ed0.
          rewrite (proj2 (sets_frame dk)) by exact Nd2. now rewrite A0. }
        rewrite X. unfold r1, ri. cbn. sassoc. }
    set (r3 := leave hd r1) in *. clearbody r3.
    assert (L : leave h r3 = set_aliased ((dk, Alias (h_key h) dk tx) :: r_aliased r3) r3).
    { unfold leave. rewrite Eal. unfold used. rewrite (w_al _ _ _ _ _ Wr). cbn [s_al]. rewrite Knone.
      rewrite (w_stack _ _ _ _ _ Wr).
      assert (N : String.eqb (peek (r_stack r)) (h_key h) = false).
      { apply String.eqb_neq. intros E. pose proof (rd_stack _ _ _ _ R) as St.
        destruct (r_stack r) as [|k st]; cbn in E; [congruence|].
        apply Kanc. rewrite <- E. apply St. now left. }
      rewrite N. cbn [al_dkey]. rewrite (w_al _ _ _ _ _ Wr). reflexivity. }
    rewrite L. cbn [leaks_l]. rewrite leaks_V, sapp_nil_r.
    constructor; cbn; try apply Wr.
    unfold declare. rewrite Eal. cbn. f_equal. rewrite (w_al _ _ _ _ _ Wr). reflexivity.
  - (* another alias of the same delegate was declared: nothing is left yet *)
    assert (L : leave hd r1 = set_aliased (declare hd (r_aliased r1)) r1).
    { unfold leave. rewrite Hu.
      assert (N : String.eqb (peek (r_stack r1)) (h_key (head_of a0)) = false).
      { apply String.eqb_neq. exact Ne. }
      rewrite N. unfold declare. destruct (as_alias hd); [reflexivity|]. destruct r1; reflexivity. }
    cbn [accepts] in Usual. rewrite accept_V, E1, E2 in Usual. fold r1 in Usual.
    apply Usual. rewrite L. cbn [leaks_l sets_l]. rewrite leaks_V, sapp_nil_r. reflexivity.
Qed.

(** ** The simulation *)

Lemma with_seen : forall r, (r_aliased r = s_al (seen_of r)) /\ (r_named r = s_nm (seen_of r)).
Proof. intros; split; reflexivity. Qed.

Theorem accept_pp : forall als, one_delegate als ->
  (forall t anc open r, wk als anc open t = true -> incl (aliases t) als -> ready als anc open r ->
     let '(txt, sep', s') := pp t (get_sep (r_level r + 1)%Z (r_seps r)) (seen_of r) in
     wrote r (accept t r) txt sep' s')
  /\ (forall l anc open r, wk_l als anc open l = true -> incl (aliases_l l) als -> ready als anc open r ->
     let '(txt, sep', s') := pps l (get_sep (r_level r + 1)%Z (r_seps r)) (seen_of r) in
     wrote r (accepts l r) txt sep' s').
Proof.
  intros als O. apply vt_ind'.
  - (* an element *)
    intros h kids IH anc open r W Hi R. apply wk_V_inv in W. rewrite aliases_V in Hi.
    apply incl_app_inv in Hi. destruct Hi as [Hi1 Hi2].
    rewrite pp_V, accept_V. unfold pp_el. cbn [seen_of s_al s_nm].
    destruct (assoc (h_key h) (r_aliased r)) as [a|] eqn:As.
    { exact (abbreviated als anc open h kids r a O W Hi2 R As). }
    pose proof (we_kids _ _ _ _ _ W) as Wk.
    assert (Nk : ~ In (h_key h) (dkeys (aliases_l kids))).
    { apply (proj2 (wk_dkeys als) kids _ _ (h_key h) Wk). left. now left. }
    pose proof (rd_skip _ _ _ _ R) as Hsk.
    destruct (h_kind h) as [b a|[n|]|dk tx] eqn:K.
    + (* fixed texts *)
      assert (Eal : as_alias h = None) by (unfold as_alias; now rewrite K).
      rewrite (enter_ready _ _ _ _ h R). unfold used. rewrite As.
      destruct (inside_ready als anc open r h (r_named r) (r_out (inside h r) ++ b) open R Hi1) as [RI SI].
      { apply (rd_fresh _ _ _ _ R). } { auto. } { intros ? X. congruence. }
      assert (Ee : el_enter h (inside h r) = Rst (r_aliased (inside h r)) (r_seps (inside h r)) (r_named r)
                (r_stack (inside h r)) (r_alstack (inside h r)) (r_level (inside h r)) false (r_out (inside h r) ++ b)).
      { unfold el_enter. rewrite K. unfold append_out. cbn [r_skip inside r_named]. now rewrite Hsk. }
      rewrite Ee. set (r1 := Rst _ _ _ _ _ _ _ _) in *.
      specialize (IH _ _ r1 Wk Hi2 RI).
      change (get_sep (r_level r1 + 1) (r_seps r1)) with (get_sep (r_level (inside h r) + 1) (r_seps (inside h r))) in IH.
      rewrite SI in IH. change (seen_of r1) with (seen_of r) in IH.
      pose proof (proj2 (pp_frame (h_key h)) kids (sub_sep h) (seen_of r) Nk) as Fr.
      assert (Sn : h_sub h = false -> snd (fst (pps kids (sub_sep h) (seen_of r))) = None).
      { intros S. unfold sub_sep. rewrite S. apply pps_none. }
      destruct (pps kids (sub_sep h) (seen_of r)) as [[x sep] s1]. cbn in Fr, Sn.
      pose proof (leave_full als anc open h kids r _ x sep s1 (r_named r) (r_out (inside h r) ++ b) (b ++ x ++ a) open
                    W R RI IH Sn) as LF.
      unfold declare in LF. rewrite Eal in LF. destruct s1 as [m1 n1]. apply LF.
      * rewrite Fr. exact As.
      * unfold el_leave. rewrite K. cbn. apply (w_skip _ _ _ _ _ IH).
      * unfold el_leave. rewrite K. cbn. rewrite (w_out _ _ _ _ _ IH). unfold r1. cbn. sassoc.
    + (* named node *)
      assert (Eal : as_alias h = None) by (unfold as_alias; now rewrite K).
      rewrite (enter_ready _ _ _ _ h R). unfold used. rewrite As.
      destruct (memk (h_key h) (r_named r)) eqn:Mn.
      * (* seen *)
        assert (Ee : el_enter h (inside h r) = Rst (r_aliased r) (r_seps (inside h r)) (h_key h :: r_named r)
                (r_stack (inside h r)) (r_alstack (inside h r)) (r_level (inside h r)) true
                ((r_out (inside h r) ++ "(") ++ n)).
        { unfold el_enter. rewrite K. unfold append_out. cbn [r_skip inside r_named set_named set_skip].
          rewrite Mn. reflexivity. }
        rewrite Ee. set (r1 := Rst _ _ _ _ _ _ _ _) in *.
        destruct (proj2 (skip_run als) kids r1) as [E2 _].
        { reflexivity. } { exact (rd_map _ _ _ _ R). } { exact Hi2. }
        { exact (apart_node als anc open h kids n W K). }
        rewrite E2.
        pose proof (leave_inside r h h (append_out (leaks_l kids) (set_aliased (sets_l kids (r_aliased r1)) r1))) as L.
        unfold declare in L. rewrite Eal in L.
        cbn [r_aliased r_named append_out set_aliased r1] in L. apply L.
        -- unfold used. cbn [r_aliased append_out set_aliased r1].
           rewrite (proj2 (sets_frame (h_key h))) by exact Nk. now rewrite As.
        -- reflexivity.
        -- exact (not_alias_left als anc open h kids r W R Eal).
        -- reflexivity.
        -- apply (rd_seps _ _ _ _ R).
        -- reflexivity.
        -- intros S. change (get_sep (r_level r + 1 + 1) (r_seps (inside h r)) = None).
           rewrite get_sep_inside, S. cbn [andb].
           destruct (Z.eqb_spec (r_level r + 1 + 1) (r_level r + 1)); [lia|].
           apply (rd_seps _ _ _ _ R). lia.
        -- unfold el_leave. rewrite K. reflexivity.
        -- unfold el_leave. rewrite K. cbn. sassoc.
      * destruct (inside_ready als anc open r h (h_key h :: r_named r) (r_out (inside h r) ++ "(") open R Hi1) as [RI SI].
        { apply (rd_fresh _ _ _ _ R). } { auto. } { intros ? X. congruence. }
        assert (Ee : el_enter h (inside h r) = Rst (r_aliased (inside h r)) (r_seps (inside h r)) (h_key h :: r_named r)
                (r_stack (inside h r)) (r_alstack (inside h r)) (r_level (inside h r)) false (r_out (inside h r) ++ "(")).
        { unfold el_enter. rewrite K. unfold append_out. cbn [r_skip inside r_named set_named set_skip].
          rewrite Mn. reflexivity. }
        rewrite Ee. set (r1 := Rst _ _ _ _ _ _ _ _) in *.
        specialize (IH _ _ r1 Wk Hi2 RI).
        change (get_sep (r_level r1 + 1) (r_seps r1)) with (get_sep (r_level (inside h r) + 1) (r_seps (inside h r))) in IH.
        rewrite SI in IH. change (seen_of r1) with (Seen (r_aliased r) (h_key h :: r_named r)) in IH.
        pose proof (proj2 (pp_frame (h_key h)) kids (sub_sep h) (Seen (r_aliased r) (h_key h :: r_named r)) Nk) as Fr.
        assert (Sn : h_sub h = false -> snd (fst (pps kids (sub_sep h) (Seen (r_aliased r) (h_key h :: r_named r)))) = None).
        { intros S. unfold sub_sep. rewrite S. apply pps_none. }
        destruct (pps kids (sub_sep h) _) as [[x sep] s1]. cbn in Fr, Sn.
        pose proof (leave_full als anc open h kids r _ x sep s1 (h_key h :: r_named r) (r_out (inside h r) ++ "(") ("(" ++ x ++ ")") open
                    W R RI IH Sn) as LF.
        unfold declare in LF. rewrite Eal in LF. destruct s1 as [m1 n1]. apply LF.
        -- rewrite Fr. exact As.
        -- unfold el_leave. rewrite K. reflexivity.
        -- unfold el_leave. rewrite K. cbn. rewrite (w_out _ _ _ _ _ IH). unfold r1. cbn. sassoc.
    + (* anonymous node *)
      assert (Eal : as_alias h = None) by (unfold as_alias; now rewrite K).
      rewrite (enter_ready _ _ _ _ h R). unfold used. rewrite As.
      destruct (inside_ready als anc open r h (r_named r) (r_out (inside h r) ++ "(") open R Hi1) as [RI SI].
      { apply (rd_fresh _ _ _ _ R). } { auto. } { intros ? X. congruence. }
      assert (Ee : el_enter h (inside h r) = Rst (r_aliased (inside h r)) (r_seps (inside h r)) (r_named r)
                (r_stack (inside h r)) (r_alstack (inside h r)) (r_level (inside h r)) false (r_out (inside h r) ++ "(")).
      { unfold el_enter. rewrite K. unfold append_out. cbn [r_skip inside r_named]. now rewrite Hsk. }
      rewrite Ee. set (r1 := Rst _ _ _ _ _ _ _ _) in *.
      specialize (IH _ _ r1 Wk Hi2 RI).
      change (get_sep (r_level r1 + 1) (r_seps r1)) with (get_sep (r_level (inside h r) + 1) (r_seps (inside h r))) in IH.
      rewrite SI in IH. change (seen_of r1) with (seen_of r) in IH.
      pose proof (proj2 (pp_frame (h_key h)) kids (sub_sep h) (seen_of r) Nk) as Fr.
      assert (Sn : h_sub h = false -> snd (fst (pps kids (sub_sep h) (seen_of r))) = None).
      { intros S. unfold sub_sep. rewrite S. apply pps_none. }
      destruct (pps kids (sub_sep h) (seen_of r)) as [[x sep] s1]. cbn in Fr, Sn.
      pose proof (leave_full als anc open h kids r _ x sep s1 (r_named r) (r_out (inside h r) ++ "(") ("(" ++ x ++ ")") open
                    W R RI IH Sn) as LF.
      unfold declare in LF. rewrite Eal in LF. destruct s1 as [m1 n1]. apply LF.
      * rewrite Fr. exact As.
      * unfold el_leave. rewrite K. reflexivity.
      * unfold el_leave. rewrite K. cbn. rewrite (w_out _ _ _ _ _ IH). unfold r1. cbn. sassoc.
    + (* aliased expression *)
      destruct (assoc dk (r_aliased r)) as [a0|] eqn:Ad.
      { apply (realiased als anc open h kids r dk tx O W Hi1 Hi2 R As K). now rewrite Ad. }
      assert (Eal : as_alias h = Some (Alias (h_key h) dk tx)) by (unfold as_alias; now rewrite K).
      rewrite (enter_ready _ _ _ _ h R). unfold used. rewrite As.
      destruct (inside_ready als anc open r h (r_named r) (r_out (inside h r)) (dk :: open) R Hi1) as [RI SI].
      { intros k [<-|Hk]; [exact Ad|]. now apply (rd_fresh _ _ _ _ R). }
      { intros k Hk. now right. }
      { intros a X. rewrite Eal in X. inversion X. now left. }
      assert (Ee : el_enter h (inside h r) = Rst (r_aliased (inside h r)) (r_seps (inside h r)) (r_named r)
                (r_stack (inside h r)) (r_alstack (inside h r)) (r_level (inside h r)) false (r_out (inside h r))).
      { unfold el_enter. rewrite K. cbn [r_aliased inside]. rewrite Ad. cbn [is_some].
        unfold inside. now rewrite Hsk. }
      rewrite Ee. set (r1 := Rst _ _ _ _ _ _ _ _) in *.
      specialize (IH _ _ r1 Wk Hi2 RI).
      change (get_sep (r_level r1 + 1) (r_seps r1)) with (get_sep (r_level (inside h r) + 1) (r_seps (inside h r))) in IH.
      rewrite SI in IH. change (seen_of r1) with (seen_of r) in IH.
      pose proof (proj2 (pp_frame (h_key h)) kids (sub_sep h) (seen_of r) Nk) as Fr.
      assert (NkD : ~ In dk (dkeys (aliases_l kids))).
      { apply (proj2 (wk_dkeys als) kids _ _ dk Wk). right. now left. }
      pose proof (proj2 (pp_frame dk) kids (sub_sep h) (seen_of r) NkD) as FrD.
      assert (Sn : h_sub h = false -> snd (fst (pps kids (sub_sep h) (seen_of r))) = None).
      { intros S. unfold sub_sep. rewrite S. apply pps_none. }
      destruct (pps kids (sub_sep h) (seen_of r)) as [[x sep] s1]. cbn in Fr, FrD, Sn.
      pose proof (leave_full als anc open h kids r _ x sep s1 (r_named r) (r_out (inside h r)) (x ++ " AS " ++ tx) (dk :: open)
                    W R RI IH Sn) as LF.
      apply LF.
      * rewrite Fr. exact As.
      * unfold el_leave. rewrite K. rewrite (w_al _ _ _ _ _ IH), FrD, Ad. cbn. apply (w_skip _ _ _ _ _ IH).
      * unfold el_leave. rewrite K. rewrite (w_al _ _ _ _ _ IH), FrD, Ad. cbn.
        rewrite (w_out _ _ _ _ _ IH). unfold r1. cbn. sassoc.
  - intros kids IH anc open r W Hi R. rewrite wk_B in W. rewrite aliases_B in Hi.
    rewrite pp_B, accept_B. exact (IH _ _ r W Hi R).
  - intros s anc open r W Hi R. cbn. pose proof (rd_skip _ _ _ _ R). constructor; auto.
  - intros anc open r W Hi R. cbn. pose proof (rd_skip _ _ _ _ R). constructor; auto. now rewrite sapp_nil_r.
  - intros t l IHt IHl anc open r W Hi R. cbn [wk_l aliases_l] in W, Hi.
    apply andb_true_iff in W. destruct W as [W1 W2]. apply incl_app_inv in Hi. destruct Hi as [Hi1 Hi2].
    specialize (IHt anc open r W1 Hi1 R). cbn [pps accepts].
    set (sep0 := get_sep _ _) in *.
    pose proof (proj1 (pp_ok als) t sep0 (seen_of r) Hi1 (rd_map _ _ _ _ R)) as Mo.
    assert (Fo : forall k, In k open -> assoc k (s_al (snd (pp t sep0 (seen_of r)))) = None).
    { intros k Hk. rewrite (proj1 (pp_frame k)).
      - now apply (rd_fresh _ _ _ _ R).
      - apply (proj1 (wk_dkeys als) t anc open k W1). now right. }
    destruct (pp t sep0 (seen_of r)) as [[x sep1] s1]. cbn in Mo, Fo.
    pose proof (wrote_ready als anc open r _ _ _ _ R IHt Mo Fo) as R2.
    specialize (IHl anc open (accept t r) W2 Hi2 R2).
    rewrite (w_level _ _ _ _ _ IHt), (w_sep _ _ _ _ _ IHt) in IHl.
    assert (Es : seen_of (accept t r) = s1).
    { unfold seen_of. rewrite (w_al _ _ _ _ _ IHt), (w_nm _ _ _ _ _ IHt). now destruct s1. }
    rewrite Es in IHl. destruct (pps l sep1 s1) as [[y sep2] s2].
    constructor.
    + rewrite (w_out _ _ _ _ _ IHl), (w_out _ _ _ _ _ IHt). now rewrite sapp_assoc.
    + apply (w_al _ _ _ _ _ IHl).
    + apply (w_nm _ _ _ _ _ IHl).
    + rewrite (w_stack _ _ _ _ _ IHl). apply (w_stack _ _ _ _ _ IHt).
    + rewrite (w_alstack _ _ _ _ _ IHl). apply (w_alstack _ _ _ _ _ IHt).
    + rewrite (w_level _ _ _ _ _ IHl). apply (w_level _ _ _ _ _ IHt).
    + apply (w_skip _ _ _ _ _ IHl).
    + rewrite <- (w_level _ _ _ _ _ IHt). apply (w_sep _ _ _ _ _ IHl).
    + intros k Hk. rewrite (w_seps _ _ _ _ _ IHl) by (rewrite (w_level _ _ _ _ _ IHt); exact Hk).
      now apply (w_seps _ _ _ _ _ IHt).
Qed.
