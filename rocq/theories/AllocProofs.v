(** Statements whose keys were never reused are well keyed. *)

From Coq Require Import Ascii String List ZArith Bool Lia.
From Verif Require Import GoStr VTree WellKeyed VTreeProofs Alloc.
Import ListNotations.
Open Scope string_scope.

Fixpoint size (t : vt) : nat :=
  match t with
  | V _ kids => S ((fix go l := match l with [] => 0 | x :: l' => size x + go l' end) kids)
  | B kids => S ((fix go l := match l with [] => 0 | x :: l' => size x + go l' end) kids)
  | T _ => 1
  end.
Fixpoint size_l (l : list vt) : nat := match l with [] => 0 | x :: l' => size x + size_l l' end.
Lemma size_V : forall h kids, size (V h kids) = S (size_l kids).
Proof. reflexivity. Qed.
Lemma size_B : forall kids, size (B kids) = S (size_l kids).
Proof. reflexivity. Qed.

Scheme over_ind' := Induction for over Sort Prop with overs_ind' := Induction for overs Sort Prop.
Combined Scheme over_mut from over_ind', overs_ind'.

Lemma over_mono : forall hp e, (forall t, over hp t -> over (e :: hp) t) /\ (forall l, overs hp l -> overs (e :: hp) l).
Proof.
  intros hp e. apply (over_mut hp (fun t _ => over (e :: hp) t) (fun l _ => overs (e :: hp) l)).
  - intros k t H. apply (over_elem _ k). now right.
  - constructor.
  - intros. now constructor.
  - constructor.
  - intros. now constructor.
Qed.

(** What is known of a heap without reuse. *)
Record inv (hp : list entry) : Prop := {
  inv_fun : forall k t t', k <> "" -> In (k, t) hp -> In (k, t') hp -> t = t';
  inv_V : forall k h kids, In (k, V h kids) hp ->
    h_key h = k /\ overs hp kids
    /\ match h_kind h with
       | KAlias dk _ => k <> "" /\ dk <> "" /\ h_sub h = false /\ exists d, kids = [d] /\ In (dk, d) hp
       | KNode (Some _) => k <> ""
       | _ => True
       end;
  inv_B : forall k kids, In (k, B kids) hp -> overs hp kids;
  inv_T : forall k s, ~ In (k, T s) hp
}.

Lemma built_inv : forall hp, built false hp -> inv hp.
Proof.
  induction 1 as [|hp k t Hb IH Hk Hm].
  - split; cbn; tauto.
  - assert (Ov : forall l, overs hp l -> overs ((k, t) :: hp) l) by (intros; now apply over_mono).
    destruct IH as [F IV IB IT]. split.
    + intros k0 t1 t2 Hne [E1|H1] [E2|H2].
      * congruence.
      * inversion E1; subst k0 t1. exfalso. destruct Hk as [?|[?|Hk]]; try congruence.
        apply Hk. apply (in_map fst) in H2. exact H2.
      * inversion E2; subst k0 t2. exfalso. destruct Hk as [?|[?|Hk]]; try congruence.
        apply Hk. apply (in_map fst) in H1. exact H1.
      * eapply F; eassumption.
    + intros k0 h kids [E1|H1].
      * inversion E1; subst k0 t. clear E1. inversion Hm; subst.
        -- cbn [h_key h_kind h_sub]. split; [reflexivity|]. split; [now apply Ov|].
           destruct kd as [| [|]|]; auto; contradiction.
        -- cbn [h_key h_kind h_sub]. split; [reflexivity|]. split; [apply overs_cons; [eapply over_elem; right; eassumption|apply overs_nil]|].
           split; [assumption|]. split; [assumption|]. split; [reflexivity|]. exists d. split; [reflexivity|now right].
      * destruct (IV _ _ _ H1) as [A [B0 C]]. split; [exact A|]. split; [now apply Ov|].
        destruct (h_kind h) as [| [|]|]; auto.
        destruct C as [C1 [C2 [C3 [d [C4 C5]]]]]. repeat (split; [assumption|]). exists d. split; [assumption|now right].
    + intros k0 kids [E1|H1]; [|apply Ov; eapply IB; eassumption].
      inversion E1; subst k0 t. apply Ov. now inversion Hm.
    + intros k0 s [E1|H1]; [|eapply IT; eassumption]. inversion E1; subst. inversion Hm.
Qed.

(** The parts of a tree over the heap. *)
Lemma over_V : forall hp h kids, inv hp -> over hp (V h kids) -> In (h_key h, V h kids) hp.
Proof.
  intros hp h kids I H. inversion H; subst. destruct (inv_V hp I _ _ _ H0) as [<- _]. assumption.
Qed.
Lemma over_B : forall hp kids, inv hp -> over hp (B kids) -> overs hp kids.
Proof. intros hp kids I H. inversion H; subst; [eapply inv_B; eassumption|assumption]. Qed.

(** Every key of a tree over the heap belongs to an element of the heap. *)
Lemma keys_over : forall hp, inv hp ->
  (forall t, over hp t -> forall k, In k (keys t) ->
     exists h kids, h_key h = k /\ In (k, V h kids) hp /\ size (V h kids) <= size t)
  /\ (forall l, overs hp l -> forall k, In k (keys_l l) ->
     exists h kids, h_key h = k /\ In (k, V h kids) hp /\ size (V h kids) <= size_l l).
Proof.
  intros hp I. apply vt_ind'.
  - intros h kids IH H k Hk. rewrite keys_V in Hk. pose proof (over_V hp h kids I H) as Hin.
    destruct Hk as [<-|Hk]; [exists h, kids; repeat split; auto|].
    destruct (inv_V hp I _ _ _ Hin) as [_ [O _]]. destruct (IH O k Hk) as [h' [kids' [A [B0 C]]]].
    exists h', kids'. repeat split; auto. rewrite (size_V h kids). lia.
  - intros kids IH H k Hk. rewrite keys_B in Hk. destruct (IH (over_B hp kids I H) k Hk) as [h' [kids' [A [B0 C]]]].
    exists h', kids'. repeat split; auto. rewrite size_B. lia.
  - intros s H k Hk. destruct Hk.
  - intros H k Hk. destruct Hk.
  - intros t l IHt IHl H k Hk. inversion H; subst. cbn [keys_l] in Hk. apply in_app_or in Hk. cbn [size_l].
    destruct Hk as [Hk|Hk].
    + destruct (IHt H2 k Hk) as [h' [kids' [A [B0 C]]]]. exists h', kids'. repeat split; auto. lia.
    + destruct (IHl H3 k Hk) as [h' [kids' [A [B0 C]]]]. exists h', kids'. repeat split; auto. lia.
Qed.

(** Every alias of a tree over the heap is an element of the heap. *)
Lemma aliases_over : forall hp, inv hp ->
  (forall t, over hp t -> forall a, In a (aliases t) ->
     exists h kids, as_alias h = Some a /\ In (al_key a, V h kids) hp)
  /\ (forall l, overs hp l -> forall a, In a (aliases_l l) ->
     exists h kids, as_alias h = Some a /\ In (al_key a, V h kids) hp).
Proof.
  intros hp I. apply vt_ind'.
  - intros h kids IH H a Ha. rewrite aliases_V in Ha. apply in_app_or in Ha.
    pose proof (over_V hp h kids I H) as Hin. destruct Ha as [Ha|Ha].
    + unfold own_alias in Ha. destruct (as_alias h) as [b|] eqn:E; [|destruct Ha]. destruct Ha as [<-|[]].
      exists h, kids. split; [exact E|]. replace (al_key b) with (h_key h); [exact Hin|].
      unfold as_alias in E. destruct (h_kind h); inversion E. reflexivity.
    + destruct (inv_V hp I _ _ _ Hin) as [_ [O _]]. exact (IH O a Ha).
  - intros kids IH H a Ha. rewrite aliases_B in Ha. exact (IH (over_B hp kids I H) a Ha).
  - intros s H a [].
  - intros H a [].
  - intros t l IHt IHl H a Ha. inversion H; subst. cbn [aliases_l] in Ha. apply in_app_or in Ha.
    destruct Ha as [Ha|Ha]; [exact (IHt H2 a Ha)|exact (IHl H3 a Ha)].
Qed.

Lemma as_alias_kind : forall h a, as_alias h = Some a -> h_kind h = KAlias (al_dkey a) (al_text a) /\ h_key h = al_key a.
Proof. intros h a H. unfold as_alias in H. destruct (h_kind h); inversion H. now split. Qed.

Lemma memk_false : forall k l, (In k l -> False) -> memk k l = false.
Proof. intros. now apply memk_notIn. Qed.

Lemma wk_over : forall hp als, inv hp ->
  (forall a, In a als -> exists h kids, as_alias h = Some a /\ In (al_key a, V h kids) hp) ->
  (forall t anc open, over hp t -> incl (aliases t) als ->
     (forall k, In k anc -> k <> "" -> exists x, In (k, x) hp /\ size t < size x) ->
     (forall k, In k open -> exists d, In (k, d) hp /\ size t <= size d) ->
     wk als anc open t = true)
  /\ (forall l anc open, overs hp l -> incl (aliases_l l) als ->
     (forall k, In k anc -> k <> "" -> exists x, In (k, x) hp /\ size_l l < size x) ->
     (forall k, In k open -> exists d, In (k, d) hp /\ size_l l <= size d) ->
     wk_l als anc open l = true).
Proof.
  intros hp als I HA. apply vt_ind'.
  - intros h kids IH anc open H Hal Hanc Hopen. rewrite wk_V. cbn zeta.
    pose proof (over_V hp h kids I H) as Hin.
    destruct (inv_V hp I _ _ _ Hin) as [_ [O K]].
    rewrite aliases_V in Hal. apply incl_app_inv in Hal. destruct Hal as [Hown Hal].
    (* the key of an alias or of a delegate *)
    assert (Dk : forall a, In a als -> al_key a <> "" /\ al_dkey a <> "").
    { intros a Ha. destruct (HA a Ha) as [h' [kids' [Ea Ia]]]. apply as_alias_kind in Ea. destruct Ea as [Ek _].
      destruct (inv_V hp I _ _ _ Ia) as [_ [_ C]]. rewrite Ek in C. destruct C as [C1 [C2 _]]. split; assumption. }
    assert (Anc : forall k, In k anc -> k <> "" -> k = h_key h -> False).
    { intros k Hk Hne ->. destruct (Hanc _ Hk Hne) as [x [Hx Hs]].
      rewrite (inv_fun hp I _ _ _ Hne Hx Hin) in Hs. lia. }
    assert (C1 : key_clash als h = false).
    { unfold key_clash. apply not_true_is_false. intros X. apply existsb_exists in X. destruct X as [a [Ha X]].
      apply andb_true_iff in X. destruct X as [X1 X2]. apply String.eqb_eq in X1.
      destruct (HA a Ha) as [h' [kids' [Ea Ia]]]. destruct (Dk a Ha) as [N _].
      rewrite X1 in Ia. rewrite X1 in N.
      pose proof (inv_fun hp I _ _ _ N Ia Hin) as E. inversion E; subst h' kids'.
      apply as_alias_kind in Ea. destruct Ea as [Ek _]. rewrite Ek, String.eqb_refl in X2. discriminate. }
    assert (C2 : (memk (h_key h) (dkeys als) && memk (h_key h) anc)%bool = false).
    { apply not_true_is_false. intros X. apply andb_true_iff in X. destruct X as [X1 X2].
      apply memk_In in X1, X2. unfold dkeys in X1. apply in_map_iff in X1. destruct X1 as [a [Ea Ha]].
      destruct (Dk a Ha) as [_ N]. rewrite Ea in N. exact (Anc _ X2 N eq_refl). }
    assert (C3 : named_ok h kids = true).
    { unfold named_ok. destruct (h_kind h) as [|[n|]|]; try reflexivity.
      rewrite memk_false; [reflexivity|]. intros X.
      destruct (proj2 (keys_over hp I) kids O _ X) as [h' [kids' [A [B0 C]]]].
      rewrite (inv_fun hp I _ _ _ K B0 Hin), size_V in C. lia. }
    rewrite C1, C2, C3. cbn [negb andb].
    destruct (h_kind h) as [b a|n|dk tx] eqn:EK.
    + rewrite andb_true_l. apply IH; [exact O|exact Hal| |].
      * intros k [<-|Hk] Hne; [exists (V h kids); split; [exact Hin|rewrite size_V; lia]|].
        destruct (Hanc k Hk Hne) as [x [Hx Hs]]. rewrite size_V in Hs. exists x. split; [exact Hx|lia].
      * intros k Hk. destruct (Hopen k Hk) as [x [Hx Hs]]. rewrite size_V in Hs. exists x. split; [exact Hx|lia].
    + rewrite andb_true_l. apply IH; [exact O|exact Hal| |].
      * intros k [<-|Hk] Hne; [exists (V h kids); split; [exact Hin|rewrite size_V; lia]|].
        destruct (Hanc k Hk Hne) as [x [Hx Hs]]. rewrite size_V in Hs. exists x. split; [exact Hx|lia].
      * intros k Hk. destruct (Hopen k Hk) as [x [Hx Hs]]. rewrite size_V in Hs. exists x. split; [exact Hx|lia].
    + destruct K as [K1 [K2 [K3 [d [K4 K5]]]]].
      assert (S1 : size d < size (V h kids)) by (rewrite size_V, K4; cbn; lia).
      assert (A1 : memk dk (dkeys als) = true).
      { apply memk_In. unfold own_alias, as_alias in Hown. rewrite EK in Hown.
        apply (in_map al_dkey _ (Alias (h_key h) dk tx)). apply Hown. now left. }
      assert (A2 : String.eqb (h_key h) "" = false) by now apply String.eqb_neq.
      assert (A3 : memk (h_key h) anc = false).
      { apply memk_false. intros X. exact (Anc _ X K1 eq_refl). }
      assert (A4 : memk dk (h_key h :: anc) = false).
      { apply memk_false. intros [X|X].
        - rewrite X in Hin. rewrite (inv_fun hp I _ _ _ K2 Hin K5) in S1. lia.
        - destruct (Hanc _ X K2) as [x [Hx Hs]]. rewrite (inv_fun hp I _ _ _ K2 Hx K5) in Hs. lia. }
      assert (A5 : memk dk open = false).
      { apply memk_false. intros X. destruct (Hopen _ X) as [x [Hx Hs]].
        rewrite (inv_fun hp I _ _ _ K2 Hx K5) in Hs. lia. }
      assert (A6 : alias_shape dk kids = true).
      { rewrite K4. unfold alias_shape.
        assert (Od : over hp d) by (eapply over_elem; exact K5).
        destruct d as [hd kd|kd|s].
        - destruct (inv_V hp I _ _ _ K5) as [-> _]. now rewrite String.eqb_refl.
        - rewrite memk_false; [reflexivity|]. intros X.
          assert (Os : overs hp [B kd]) by (apply overs_cons; [exact Od|apply overs_nil]).
          destruct (proj2 (keys_over hp I) [B kd] Os _ X) as [h' [kids' [A [B0 C]]]].
          pose proof (inv_fun hp I _ _ _ K2 B0 K5) as E. discriminate.
        - now destruct (inv_T hp I dk s). }
      rewrite A1, A2, A3, A4, A5, A6, K3. cbn [negb andb].
      apply IH; [exact O|exact Hal| |].
      * intros k [<-|Hk] Hne; [exists (V h kids); split; [exact Hin|rewrite size_V; lia]|].
        destruct (Hanc k Hk Hne) as [x [Hx Hs]]. rewrite size_V in Hs. exists x. split; [exact Hx|lia].
      * intros k [<-|Hk]; [exists d; split; [exact K5|rewrite K4; cbn; lia]|].
        destruct (Hopen k Hk) as [x [Hx Hs]]. rewrite size_V in Hs. exists x. split; [exact Hx|lia].
  - intros kids IH anc open H Hal Hanc Hopen. rewrite wk_B. apply IH.
    + exact (over_B hp kids I H).
    + exact Hal.
    + intros k Hk Hne. destruct (Hanc k Hk Hne) as [x [Hx Hs]]. rewrite size_B in Hs. exists x. split; [exact Hx|lia].
    + intros k Hk. destruct (Hopen k Hk) as [x [Hx Hs]]. rewrite size_B in Hs. exists x. split; [exact Hx|lia].
  - reflexivity.
  - reflexivity.
  - intros t l IHt IHl anc open H Hal Hanc Hopen. inversion H; subst. cbn [wk_l aliases_l size_l] in *.
    apply incl_app_inv in Hal. destruct Hal as [Hal1 Hal2]. apply andb_true_iff. split.
    + apply IHt; auto.
      * intros k Hk Hne. destruct (Hanc k Hk Hne) as [x [Hx Hs]]. exists x. split; [exact Hx|lia].
      * intros k Hk. destruct (Hopen k Hk) as [x [Hx Hs]]. exists x. split; [exact Hx|lia].
    + apply IHl; auto.
      * intros k Hk Hne. destruct (Hanc k Hk Hne) as [x [Hx Hs]]. exists x. split; [exact Hx|lia].
      * intros k Hk. destruct (Hopen k Hk) as [x [Hx Hs]]. exists x. split; [exact Hx|lia].
Qed.

Theorem built_well_keyed : forall hp t, built false hp -> over hp t -> well_keyed t = true.
Proof.
  intros hp t Hb Ht. pose proof (built_inv hp Hb) as I. unfold well_keyed.
  assert (HA : forall a, In a (aliases t) -> exists h kids, as_alias h = Some a /\ In (al_key a, V h kids) hp)
    by (exact (proj1 (aliases_over hp I) t Ht)).
  apply andb_true_iff. split.
  - unfold als_ok. apply forallb_forall. intros a Ha. apply forallb_forall. intros b Hb'.
    destruct (String.eqb_spec (al_key a) (al_key b)) as [E|]; [|reflexivity]. cbn [negb orb].
    destruct (HA a Ha) as [h [kids [Ea Ia]]]. destruct (HA b Hb') as [h' [kids' [Eb Ib]]].
    rewrite E in Ia. apply as_alias_kind in Ea, Eb.
    assert (N : al_key b <> "").
    { destruct (inv_V hp I _ _ _ Ib) as [_ [_ C]]. rewrite (proj1 Eb) in C. tauto. }
    pose proof (inv_fun hp I _ _ _ N Ia Ib) as X. inversion X; subst.
    destruct Ea as [Ea _], Eb as [Eb _]. rewrite Ea in Eb. inversion Eb. apply String.eqb_refl.
  - apply (proj1 (wk_over hp (aliases t) I HA)); [exact Ht|apply incl_refl| |]; intros k [].
Qed.
