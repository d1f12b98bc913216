(** Addresses that are used again: renamings of keys that keep apart the keys
    that matter. *)

From Coq Require Import Ascii String List ZArith Bool Lia.
From Verif Require Import GoStr VTree WellKeyed VTreeProofs VTreeSim Alloc AllocProofs RenderProofs.
Import ListNotations.
Open Scope string_scope.

Section Separating.
Context (f : key -> key) (rel dom : key -> Prop).
Context (RD : forall k, rel k -> dom k) (D0 : dom "") (F0 : f "" = "")
        (SEP : forall a b, rel a -> dom b -> f a = f b -> a = b).

Lemma eqb_sep : forall a b, rel a -> dom b -> String.eqb (f a) (f b) = String.eqb a b.
Proof.
  intros a b Ra Db. destruct (String.eqb_spec a b) as [->|N]; [apply String.eqb_refl|].
  apply String.eqb_neq. intros E. now apply N, SEP.
Qed.
Lemma eqb_sep' : forall a b, dom a -> rel b -> String.eqb (f a) (f b) = String.eqb a b.
Proof. intros a b Da Rb. rewrite (String.eqb_sym (f a)), (String.eqb_sym a). now apply eqb_sep. Qed.
Lemma memk_sep : forall k l, rel k -> (forall b, In b l -> dom b) -> memk (f k) (map f l) = memk k l.
Proof.
  intros k l R H. induction l as [|x l IH]; [reflexivity|]. unfold memk in *. cbn.
  rewrite eqb_sep by (auto; apply H; now left). rewrite IH; [reflexivity|]. intros b Hb. apply H. now right.
Qed.
Lemma memk_sep' : forall k l, dom k -> (forall b, In b l -> rel b) -> memk (f k) (map f l) = memk k l.
Proof.
  intros k l R H. induction l as [|x l IH]; [reflexivity|]. unfold memk in *. cbn.
  rewrite eqb_sep' by (auto; apply H; now left). rewrite IH; [reflexivity|]. intros b Hb. apply H. now right.
Qed.

Definition rename_map (m : list (key * alias)) := map (fun p => (f (fst p), rename_alias f (snd p))) m.
Definition map_rel (m : list (key * alias)) : Prop := forall k a, In (k, a) m -> rel k.
Lemma assoc_sep : forall k m, dom k -> map_rel m ->
  assoc (f k) (rename_map m) = option_map (rename_alias f) (assoc k m).
Proof.
  intros k m D M. unfold rename_map. induction m as [|[k' v] m IH]; [reflexivity|]. cbn [map fst snd assoc].
  rewrite eqb_sep' by (auto; apply (M k' v); now left). destruct (String.eqb k k'); [reflexivity|].
  apply IH. intros k0 a0 H. apply (M k0 a0). now right.
Qed.

(** The keys of a tree that matter, and all of them. *)
Definition fit_aliases (als : list alias) : Prop := forall a, In a als -> rel (al_key a) /\ rel (al_dkey a).
Definition fits (t : vt) : Prop :=
  (forall k, In k (keys t) -> dom k) /\ fit_aliases (aliases t) /\ (forall k, In k (named t) -> rel k).
Definition fits_l (l : list vt) : Prop :=
  (forall k, In k (keys_l l) -> dom k) /\ fit_aliases (aliases_l l) /\ (forall k, In k (named_l l) -> rel k).

Lemma fits_V : forall h kids, fits (V h kids) ->
  dom (h_key h) /\ fits_l kids
  /\ match h_kind h with KNode (Some _) => rel (h_key h) | KAlias dk _ => rel (h_key h) /\ rel dk | _ => True end.
Proof.
  intros h kids (K & A & N). rewrite keys_V in K. rewrite aliases_V in A. rewrite named_V in N.
  split; [apply K; now left|]. split; [split; [|split]|].
  - intros k Hk. apply K. now right.
  - intros a Ha. apply A, in_app_iff. now right.
  - intros k Hk. apply N, in_app_iff. now right.
  - unfold own_alias, as_alias in A. destruct (h_kind h) as [|[n|]|dk tx]; auto.
    + apply N. now left.
    + apply (A (Alias (h_key h) dk tx)). now left.
Qed.
Lemma fits_B : forall kids, fits (B kids) -> fits_l kids.
Proof. intros kids H. exact H. Qed.
Lemma fits_cons : forall t l, fits_l (t :: l) -> fits t /\ fits_l l.
Proof.
  intros t l (K & A & N). cbn [keys_l aliases_l named_l] in *. unfold fits, fits_l, fit_aliases in *.
  repeat split; intros; solve [apply K, in_app_iff; auto | apply N, in_app_iff; auto | apply A, in_app_iff; auto].
Qed.

Lemma keys_rename : (forall t, keys (rename f t) = map f (keys t)) /\ (forall l, keys_l (map (rename f) l) = map f (keys_l l)).
Proof.
  apply vt_ind'.
  - intros h kids IH. cbn [rename]. rewrite !keys_V, IH. reflexivity.
  - intros kids IH. cbn [rename]. rewrite !keys_B. exact IH.
  - reflexivity.
  - reflexivity.
  - intros t l IHt IHl. cbn [map keys_l]. now rewrite IHt, IHl, map_app.
Qed.
Lemma own_alias_rename : forall h, own_alias (rename_head f h) = map (rename_alias f) (own_alias h).
Proof. intros h. unfold own_alias. rewrite as_alias_rename. now destruct (as_alias h). Qed.
Lemma aliases_rename : (forall t, aliases (rename f t) = map (rename_alias f) (aliases t))
  /\ (forall l, aliases_l (map (rename f) l) = map (rename_alias f) (aliases_l l)).
Proof.
  apply vt_ind'.
  - intros h kids IH. cbn [rename]. rewrite !aliases_V, IH, own_alias_rename, map_app. reflexivity.
  - intros kids IH. cbn [rename]. rewrite !aliases_B. exact IH.
  - reflexivity.
  - reflexivity.
  - intros t l IHt IHl. cbn [map aliases_l]. now rewrite IHt, IHl, map_app.
Qed.
Lemma dkeys_rename : forall als, dkeys (map (rename_alias f) als) = map f (dkeys als).
Proof. intros als. unfold dkeys. rewrite !map_map. reflexivity. Qed.
Lemma dkeys_rel : forall als, fit_aliases als -> forall k, In k (dkeys als) -> rel k.
Proof. intros als A k H. unfold dkeys in H. apply in_map_iff in H. destruct H as (a & <- & H). now apply A. Qed.

Lemma key_clash_rename : forall als h, fit_aliases als -> dom (h_key h) ->
  match h_kind h with KAlias dk _ => rel dk | _ => True end ->
  key_clash (map (rename_alias f) als) (rename_head f h) = key_clash als h.
Proof.
  intros als h A D K. unfold key_clash. induction als as [|a als IH]; [reflexivity|]. cbn [map existsb].
  rewrite IH by (intros b Hb; apply A; now right). f_equal.
  destruct (A a (or_introl eq_refl)) as [R1 R2].
  cbn [al_key rename_alias h_key rename_head h_kind al_dkey]. rewrite eqb_sep by auto. f_equal.
  destruct (h_kind h); cbn [rename_kind]; auto. now rewrite eqb_sep by auto.
Qed.

Lemma alias_shape_rename : forall dk kids, rel dk -> fits_l kids -> alias_shape (f dk) (map (rename f) kids) = alias_shape dk kids.
Proof.
  intros dk kids R Fi.
  assert (M : memk (f dk) (keys_l (map (rename f) kids)) = memk dk (keys_l kids)).
  { rewrite (proj2 keys_rename). apply memk_sep; [exact R|apply Fi]. }
  unfold alias_shape. destruct kids as [|[h ks|ks|s] [|x l]]; cbn [map rename] in *; try now rewrite M.
  rewrite M. cbn [h_key rename_head]. rewrite eqb_sep'; auto. apply Fi. now left.
Qed.

Lemma wk_rename : forall als, fit_aliases als ->
  (forall t anc open, fits t -> (forall k, In k anc -> dom k) -> (forall k, In k open -> rel k) ->
     wk (map (rename_alias f) als) (map f anc) (map f open) (rename f t) = wk als anc open t)
  /\ (forall l anc open, fits_l l -> (forall k, In k anc -> dom k) -> (forall k, In k open -> rel k) ->
     wk_l (map (rename_alias f) als) (map f anc) (map f open) (map (rename f) l) = wk_l als anc open l).
Proof.
  intros als A. apply vt_ind'.
  - intros h kids IH anc open Fi HA HO. destruct (fits_V _ _ Fi) as (Dh & Fk & Rk). cbn [rename]. rewrite !wk_V. cbn zeta.
    rewrite key_clash_rename by (auto; destruct (h_kind h); tauto).
    rewrite dkeys_rename. cbn [h_key rename_head h_kind h_sub].
    assert (E2 : (memk (f (h_key h)) (map f (dkeys als)) && memk (f (h_key h)) (map f anc))%bool
                 = (memk (h_key h) (dkeys als) && memk (h_key h) anc)%bool).
    { rewrite (memk_sep' (h_key h) (dkeys als)) by (auto; now apply dkeys_rel).
      destruct (memk (h_key h) (dkeys als)) eqn:Em; [|reflexivity]. apply memk_In in Em.
      rewrite (memk_sep (h_key h) anc); auto. now apply (dkeys_rel als). }
    rewrite E2.
    assert (E3 : named_ok (rename_head f h) (map (rename f) kids) = named_ok h kids).
    { unfold named_ok. cbn [h_kind rename_head h_key]. destruct (h_kind h) as [|[n|]|]; cbn [rename_kind]; auto.
      rewrite (proj2 keys_rename), memk_sep; [reflexivity|exact Rk|apply Fk]. }
    rewrite E3.
    assert (HA' : forall k, In k (h_key h :: anc) -> dom k) by (intros k [<-|H]; auto).
    destruct (h_kind h) as [b a|n|dk tx] eqn:EK; cbn [rename_kind];
      try (rewrite <- (IH (h_key h :: anc) open Fk HA' HO); reflexivity).
    destruct Rk as [Rk Rd].
    rewrite <- (IH (h_key h :: anc) (dk :: open) Fk HA') by (intros k [<-|H]; auto).
    rewrite (memk_sep' dk (dkeys als)) by (auto; now apply dkeys_rel).
    replace (String.eqb (f (h_key h)) "") with (String.eqb (h_key h) "") by (rewrite <- F0 at 2; now rewrite eqb_sep by auto).
    rewrite (memk_sep (h_key h) anc) by auto.
    change (f (h_key h) :: map f anc) with (map f (h_key h :: anc)). rewrite (memk_sep dk (h_key h :: anc)) by auto.
    rewrite (memk_sep dk open) by auto. rewrite alias_shape_rename by auto. reflexivity.
  - intros kids IH anc open Fi HA HO. cbn [rename]. rewrite !wk_B. now apply IH.
  - reflexivity.
  - reflexivity.
  - intros t l IHt IHl anc open Fi HA HO. destruct (fits_cons _ _ Fi). cbn [map wk_l].
    rewrite IHt, IHl by auto. reflexivity.
Qed.

Lemma als_ok_rename : forall als, fit_aliases als -> als_ok (map (rename_alias f) als) = als_ok als.
Proof.
  intros als A. unfold als_ok.
  assert (G : forall a l, rel (al_key a) /\ rel (al_dkey a) -> fit_aliases l ->
    forallb (fun b => negb (String.eqb (al_key (rename_alias f a)) (al_key b))
                      || String.eqb (al_dkey (rename_alias f a)) (al_dkey b))%bool (map (rename_alias f) l)
    = forallb (fun b => negb (String.eqb (al_key a) (al_key b)) || String.eqb (al_dkey a) (al_dkey b))%bool l).
  { intros a l [R1 R2] Al. induction l as [|b l IH]; [reflexivity|]. cbn [map forallb].
    rewrite IH by (intros c Hc; apply Al; now right). destruct (Al b (or_introl eq_refl)).
    cbn [al_key al_dkey rename_alias]. now rewrite !eqb_sep by auto. }
  assert (H : forall l, incl l als ->
    forallb (fun a => forallb (fun b => negb (String.eqb (al_key a) (al_key b)) || String.eqb (al_dkey a) (al_dkey b))
                        (map (rename_alias f) als))%bool (map (rename_alias f) l)
    = forallb (fun a => forallb (fun b => negb (String.eqb (al_key a) (al_key b)) || String.eqb (al_dkey a) (al_dkey b)) als)%bool l).
  { induction l as [|a l IH]; intros I; [reflexivity|]. cbn [map forallb]. rewrite G, IH; auto.
    - intros x Hx. apply I. now right.
    - apply A, I. now left. }
  apply H, incl_refl.
Qed.

Lemma well_keyed_rename : forall t, fits t -> well_keyed (rename f t) = well_keyed t.
Proof.
  intros t Fi. unfold well_keyed. rewrite (proj1 aliases_rename), als_ok_rename by apply Fi. f_equal.
  apply (proj1 (wk_rename (aliases t) ltac:(apply Fi)) t [] [] Fi); intros k [].
Qed.

Definition rename_seen (s : seen) : seen := Seen (rename_map (s_al s)) (map f (s_nm s)).
Definition seen_rel (s : seen) : Prop := map_rel (s_al s) /\ forall k, In k (s_nm s) -> rel k.

Lemma leaks_rename : (forall t, leaks (rename f t) = leaks t) /\ (forall l, leaks_l (map (rename f) l) = leaks_l l).
Proof.
  apply vt_ind'.
  - intros h kids IH. cbn [rename]. now rewrite !leaks_V.
  - intros kids IH. cbn [rename]. now rewrite !leaks_B.
  - reflexivity.
  - reflexivity.
  - intros t l IHt IHl. cbn [map leaks_l]. now rewrite IHt, IHl.
Qed.
Lemma declare_rename : forall h m, declare (rename_head f h) (rename_map m) = rename_map (declare h m).
Proof. intros h m. unfold declare. rewrite as_alias_rename. now destruct (as_alias h). Qed.
Lemma sets_rename : (forall t m, sets (rename f t) (rename_map m) = rename_map (sets t m))
  /\ (forall l m, sets_l (map (rename f) l) (rename_map m) = rename_map (sets_l l m)).
Proof.
  apply vt_ind'.
  - intros h kids IH m. cbn [rename]. now rewrite !sets_V, IH, declare_rename.
  - intros kids IH m. cbn [rename]. rewrite !sets_B. apply IH.
  - reflexivity.
  - reflexivity.
  - intros t l IHt IHl m. cbn [map sets_l]. now rewrite IHt, IHl.
Qed.
Lemma declare_rel : forall h m, match h_kind h with KAlias dk _ => rel dk | _ => True end -> map_rel m -> map_rel (declare h m).
Proof.
  intros h m R M. unfold declare, as_alias. destruct (h_kind h) as [| |dk tx]; auto.
  intros k a [E|H]; [inversion E; subst; exact R|exact (M k a H)].
Qed.
Lemma sets_rel : (forall t m, fits t -> map_rel m -> map_rel (sets t m)) /\ (forall l m, fits_l l -> map_rel m -> map_rel (sets_l l m)).
Proof.
  apply vt_ind'.
  - intros h kids IH m Fi M. destruct (fits_V _ _ Fi) as (_ & Fk & Rk). rewrite sets_V. apply declare_rel; [destruct (h_kind h); tauto|now apply IH].
  - intros kids IH m Fi M. rewrite sets_B. now apply IH.
  - auto.
  - auto.
  - intros t l IHt IHl m Fi M. destruct (fits_cons _ _ Fi). cbn [sets_l]. apply IHl; auto.
Qed.

Lemma pp_rename :
  (forall t sep s, fits t -> seen_rel s ->
     pp (rename f t) sep (rename_seen s) = (let '(x, sep', s') := pp t sep s in (x, sep', rename_seen s'))
     /\ seen_rel (snd (pp t sep s)))
  /\ (forall l sep s, fits_l l -> seen_rel s ->
     pps (map (rename f) l) sep (rename_seen s) = (let '(x, sep', s') := pps l sep s in (x, sep', rename_seen s'))
     /\ seen_rel (snd (pps l sep s))).
Proof.
  apply vt_ind'.
  - intros h kids IH sep s Fi Hs. destruct (fits_V _ _ Fi) as (Dh & Fk & Rk). cbn [rename]. rewrite !pp_V.
    assert (G : pp_el (rename_head f h) (map (rename f) kids) (rename_seen s)
                = (let '(x, s') := pp_el h kids s in (x, rename_seen s')) /\ seen_rel (snd (pp_el h kids s))).
    { unfold pp_el. cbn [s_al s_nm rename_seen h_key rename_head]. destruct Hs as [Ms Ns].
      rewrite (assoc_sep (h_key h) (s_al s)) by auto.
      assert (Ab : forall txt, seen_rel (Seen (declare h (sets_l kids (s_al s))) (s_nm s))
        /\ (txt ++ leaks_l (map (rename f) kids),
             Seen (declare (rename_head f h) (sets_l (map (rename f) kids) (rename_map (s_al s)))) (map f (s_nm s)))
          = (txt ++ leaks_l kids, rename_seen (Seen (declare h (sets_l kids (s_al s))) (s_nm s)))).
      { intros txt. split.
        - split; [|exact Ns]. apply declare_rel; [destruct (h_kind h); tauto|]. now apply (proj2 sets_rel).
        - rewrite (proj2 leaks_rename), (proj2 sets_rename), declare_rename. reflexivity. }
      destruct (assoc (h_key h) (s_al s)) as [a|] eqn:Ea; cbn [option_map].
      { destruct (Ab (al_text a)) as [A1 A2]. split; [exact A2|exact A1]. }
      change (sub_sep (rename_head f h)) with (sub_sep h).
      destruct (h_kind h) as [b a|[n|]|dk tx] eqn:EK; cbn [h_kind rename_head rename_kind]; rewrite ?EK; cbn [rename_kind].
      - destruct (IH (sub_sep h) s Fk (conj Ms Ns)) as [I1 I2]. rewrite I1.
        destruct (pps kids (sub_sep h) s) as [[x y] s1]. now split.
      - rewrite (memk_sep (h_key h) (s_nm s)) by auto. destruct (memk (h_key h) (s_nm s)).
        + rewrite (proj2 leaks_rename), (proj2 sets_rename). split; [reflexivity|]. split; [now apply (proj2 sets_rel)|].
          intros k [<-|H]; auto.
        + assert (Hs' : seen_rel (Seen (s_al s) (h_key h :: s_nm s))) by (split; [exact Ms|intros k [<-|H]; auto]).
          destruct (IH (sub_sep h) _ Fk Hs') as [I1 I2]. unfold rename_seen in I1. cbn [s_al s_nm map] in I1. rewrite I1.
          destruct (pps kids (sub_sep h) _) as [[x y] s1]. now split.
      - destruct (IH (sub_sep h) s Fk (conj Ms Ns)) as [I1 I2]. rewrite I1.
        destruct (pps kids (sub_sep h) s) as [[x y] s1]. now split.
      - destruct Rk as [Rk Rd]. rewrite (assoc_sep dk (s_al s)) by auto.
        destruct (assoc dk (s_al s)); cbn [option_map].
        + destruct (Ab tx) as [A1 A2]. split; [exact A2|exact A1].
        + destruct (IH (sub_sep h) s Fk (conj Ms Ns)) as [I1 I2]. rewrite I1.
          destruct (pps kids (sub_sep h) s) as [[x y] s1]. cbn [s_al s_nm]. split.
          * unfold rename_seen. cbn [s_al s_nm]. rewrite declare_rename. reflexivity.
          * destruct I2 as [I2 I3]. cbn [snd] in *. split; [|exact I3]. cbn [s_al]. apply declare_rel; [now rewrite EK|exact I2]. }
    destruct G as [G1 G2]. rewrite G1. destruct (pp_el h kids s) as [txt s']. split; [reflexivity|exact G2].
  - intros kids IH sep s Fi Hs. cbn [rename]. rewrite !pp_B. now apply IH.
  - intros s sep s0 _ Hs. split; [reflexivity|exact Hs].
  - intros sep s _ Hs. split; [reflexivity|exact Hs].
  - intros t l IHt IHl sep s Fi Hs. destruct (fits_cons _ _ Fi) as [F1 F2]. cbn [map pps].
    destruct (IHt sep s F1 Hs) as [I1 I2]. rewrite I1. destruct (pp t sep s) as [[x sep1] s1]. cbn [snd] in I2.
    destruct (IHl sep1 s1 F2 I2) as [J1 J2]. rewrite J1. destruct (pps l sep1 s1) as [[y sep2] s2]. now split.
Qed.

Lemma render_rename : forall t, fits t -> well_keyed t = true ->
  r_out (accept (rename f t) new_renderer) = r_out (accept t new_renderer).
Proof.
  intros t Fi W. pose proof (accept_new t W) as A. pose proof W as W'. rewrite <- (well_keyed_rename t Fi) in W'.
  pose proof (accept_new _ W') as A'.
  destruct (proj1 pp_rename t None none_seen Fi) as [P _]; [split; [intros k a []|intros k []]|].
  change (rename_seen none_seen) with none_seen in P. rewrite P in A'.
  destruct (pp t None none_seen) as [[x y] s]. now rewrite (w_out _ _ _ _ _ A), (w_out _ _ _ _ _ A').
Qed.
End Separating.

(** ** Builds as programs *)

Definition move (f : key -> key) (e : entry) : entry := (f (fst e), rename f (snd e)).

Lemma part_ind' : forall (P : part -> Prop), (forall i, P (Built i)) -> (forall s, P (Text s)) ->
  (forall l, Forall P l -> P (Group l)) -> forall p, P p.
Proof.
  intros P H1 H2 H3. fix IH 1. intros [i|s|l]; [apply H1|apply H2|apply H3]. induction l as [|p l IHl]; constructor; [apply IH|exact IHl].
Qed.

Lemma tree_Group : forall hp l, tree hp (Group l) = option_map B (trees hp l).
Proof. reflexivity. Qed.
Lemma trees_cons : forall hp p l, trees hp (p :: l) =
  match tree hp p, trees hp l with Some t, Some ts => Some (t :: ts) | _, _ => None end.
Proof. reflexivity. Qed.

Lemma element_move : forall f hp i, element (map (move f) hp) i = option_map (move f) (element hp i).
Proof. intros f hp i. unfold element. rewrite <- map_rev. apply nth_error_map. Qed.

Lemma tree_move : forall f hp p, tree (map (move f) hp) p = option_map (rename f) (tree hp p).
Proof.
  intros f hp. apply part_ind'.
  - intros i. cbn [tree]. rewrite element_move. now destruct (element hp i).
  - reflexivity.
  - intros l H. rewrite !tree_Group.
    assert (E : trees (map (move f) hp) l = option_map (map (rename f)) (trees hp l)).
    { induction H as [|p l H1 H2 IH]; [reflexivity|]. rewrite !trees_cons, H1, IH.
      destruct (tree hp p), (trees hp l); reflexivity. }
    rewrite E. now destruct (trees hp l).
Qed.
Lemma trees_move : forall f hp l, trees (map (move f) hp) l = option_map (map (rename f)) (trees hp l).
Proof.
  intros f hp l. induction l as [|p l IH]; [reflexivity|]. rewrite !trees_cons, tree_move, IH.
  destruct (tree hp p), (trees hp l); reflexivity.
Qed.

Lemma construct_move : forall f, f "" = "" -> (forall k, f k = "" -> k = "") -> forall hp a c,
  construct (map (move f) hp) (f a) c = option_map (move f) (construct hp a c).
Proof.
  intros f F0 F1 hp a [keyed sb kd kids|i tx|keyed kids]; cbn [construct].
  - assert (G : forall k, rename_kind f kd = kd -> option_map (fun ts => (f k, V (Head (f k) sb kd) ts)) (trees (map (move f) hp) kids)
      = option_map (move f) (option_map (fun ts => (k, V (Head k sb kd) ts)) (trees hp kids))).
    { intros k E. rewrite trees_move. destruct (trees hp kids); [|reflexivity]. cbn [option_map]. unfold move. cbn [fst snd rename].
      unfold rename_head. cbn [h_key h_sub h_kind]. now rewrite E. }
    destruct kd as [b e|[n|]|dk tx], keyed; cbn [option_map]; try reflexivity;
      try exact (G a eq_refl); pose proof (G "" eq_refl) as G'; rewrite F0 in G'; exact G'.
  - rewrite element_move. destruct (element hp i) as [[dk d]|]; [|reflexivity]. cbn [option_map move fst snd].
    destruct (String.eqb_spec dk "") as [->|N]; [now rewrite F0|].
    destruct (String.eqb_spec (f dk) "") as [E|_]; [elim N; now apply F1|]. reflexivity.
  - rewrite trees_move. destruct (trees hp kids); [|reflexivity]. cbn [option_map]. unfold move. cbn [fst snd rename].
    destruct keyed; [reflexivity|now rewrite F0].
Qed.

Lemma construct_all_move : forall f, f "" = "" -> (forall k, f k = "" -> k = "") -> forall a b l hp,
  (forall i, i < length hp + length l -> f (a i) = b i) ->
  construct_all b (map (move f) hp) l = option_map (map (move f)) (construct_all a hp l).
Proof.
  intros f F0 F1 a b l. induction l as [|c l IH]; intros hp H; [reflexivity|]. cbn [construct_all].
  rewrite map_length. rewrite <- (H (length hp)) by (cbn; lia). rewrite construct_move by auto.
  destruct (construct hp (a (length hp)) c) as [e|]; [|reflexivity]. cbn [option_map].
  apply (IH (e :: hp)). intros i Hi. apply H. cbn in *. lia.
Qed.

(** *** What a program builds *)

Lemma element_In : forall hp i e, element hp i = Some e -> In e hp.
Proof. intros hp i e H. apply nth_error_In in H. now apply in_rev in H. Qed.
Lemma element_cons : forall hp e i, i < length hp -> element (e :: hp) i = element hp i.
Proof. intros hp e i H. unfold element. cbn [rev]. rewrite nth_error_app1; [reflexivity|]. now rewrite rev_length. Qed.
Lemma element_last : forall hp e, element (e :: hp) (length hp) = Some e.
Proof. intros hp e. unfold element. cbn [rev]. rewrite nth_error_app2; rewrite rev_length; [|lia]. now rewrite Nat.sub_diag. Qed.
Lemma element_len : forall hp i e, element hp i = Some e -> i < length hp.
Proof. intros hp i e H. unfold element in H. rewrite <- rev_length. apply nth_error_Some. congruence. Qed.

Lemma tree_over : forall hp p t, tree hp p = Some t -> over hp t.
Proof.
  intros hp. apply (part_ind' (fun p => forall t, tree hp p = Some t -> over hp t)).
  - intros i t H. cbn in H. destruct (element hp i) as [[k x]|] eqn:E; [|discriminate]. inversion H; subst.
    apply (over_elem hp k). now apply element_In in E.
  - intros s t H. inversion H; subst. constructor.
  - intros l Hl t H. rewrite tree_Group in H. destruct (trees hp l) as [ts|] eqn:E; [|discriminate]. inversion H; subst. constructor.
    clear H. revert ts E. induction Hl as [|p l H1 H2 IH]; intros ts E; [inversion E; constructor|].
    rewrite trees_cons in E. destruct (tree hp p) as [t|]; [|discriminate]. destruct (trees hp l) as [ts'|]; [|discriminate].
    inversion E; subst. constructor; auto.
Qed.
Lemma trees_over : forall hp l ts, trees hp l = Some ts -> overs hp ts.
Proof.
  intros hp l. induction l as [|p l IH]; intros ts E; [inversion E; constructor|].
  rewrite trees_cons in E. destruct (tree hp p) as [t|] eqn:Et; [|discriminate]. destruct (trees hp l) as [ts'|]; [|discriminate].
  inversion E; subst. constructor; auto. now apply (tree_over hp p).
Qed.

Record told (a : nat -> key) (all : list constructor) (hp : list entry) : Prop := {
  td_built : built false hp;
  td_key : forall i k t, element hp i = Some (k, t) -> k = "" \/ k = a i;
  td_head : forall k h kids, In (k, V h kids) hp ->
    match h_kind h with
    | KNode (Some _) => exists i, i < length hp /\ k = a i /\ identified all i
    | KAlias dk _ => exists i j, i < length hp /\ j < length hp /\ k = a i /\ dk = a j /\ identified all i /\ identified all j
    | _ => True
    end
}.

Lemma told_step : forall a done c todo hp e, (forall i, a i <> "") -> (forall i j, a i = a j -> i = j) ->
  length hp = length done -> told a (done ++ c :: todo) hp -> construct hp (a (length hp)) c = Some e ->
  told a (done ++ c :: todo) (e :: hp).
Proof.
  intros a done c todo hp [k t] A0 A1 L [TB TK TH] E.
  assert (Nth : nth_error (done ++ c :: todo) (length hp) = Some c).
  { rewrite L, nth_error_app2, Nat.sub_diag by lia. reflexivity. }
  assert (Kn : k = "" \/ k = a (length hp)).
  { destruct c as [keyed sb kd kids|i tx|keyed kids]; cbn [construct] in E.
    - destruct kd as [b e|[n|]|dk tx], keyed; try discriminate; destruct (trees hp kids); inversion E; subst; auto.
    - destruct (element hp i) as [[dk d]|]; [|discriminate]. destruct (String.eqb dk ""); [discriminate|]. inversion E; subst; auto.
    - destruct (trees hp kids); inversion E; subst. destruct keyed; auto. }
  assert (Fresh : k = "" \/ false = true \/ ~ In k (map fst hp)).
  { destruct Kn as [->| ->]; [now left|]. right. right. intros H. apply in_map_iff in H. destruct H as ([k' t'] & E' & H).
    cbn in E'. subst k'. apply in_rev, In_nth_error in H. destruct H as [i Hi]. fold (element hp i) in Hi.
    destruct (TK i _ _ Hi) as [X|X]; [now apply (A0 (length hp))|]. apply A1 in X. apply element_len in Hi. lia. }
  assert (Md : made hp k t /\ match t with V h _ => match h_kind h with
     | KNode (Some _) => k = a (length hp) /\ identified (done ++ c :: todo) (length hp)
     | KAlias dk _ => exists j, k = a (length hp) /\ j < length hp /\ dk = a j
                      /\ identified (done ++ c :: todo) (length hp) /\ identified (done ++ c :: todo) j
     | _ => True end | _ => True end).
  { destruct c as [keyed sb kd kids|i tx|keyed kids]; cbn [construct] in E.
    - destruct (trees hp kids) as [ts|] eqn:Et; [|destruct kd as [b e|[n|]|dk tx], keyed; discriminate].
      apply trees_over in Et.
      destruct kd as [b e|[n|]|dk tx], keyed; try discriminate; inversion E; subst; cbn [h_kind]; split; auto; try (constructor; auto).
      left. repeat eexists. exact Nth.
    - destruct (element hp i) as [[dk d]|] eqn:Ei; [|discriminate]. destruct (String.eqb_spec dk "") as [|N]; [discriminate|].
      inversion E; subst. cbn [h_kind]. split; [apply made_alias; auto; now apply element_In in Ei|].
      destruct (TK i _ _ Ei) as [X|X]; [contradiction|].
      exists i. split; [reflexivity|]. split; [now apply element_len in Ei|]. split; [exact X|].
      split; [right; left|right; right]; eauto.
    - destruct (trees hp kids) as [ts|] eqn:Et; [|discriminate]. inversion E; subst. split; [|exact Logic.I].
      constructor. now apply trees_over in Et. }
  destruct Md as [Md Hd]. split.
  - now constructor.
  - intros i k0 t0 H. pose proof (element_len _ _ _ H) as Hl. cbn [length] in Hl.
    destruct (Nat.eq_dec i (length hp)) as [->|Ni].
    + rewrite element_last in H. inversion H; subst. exact Kn.
    + rewrite element_cons in H by lia. exact (TK i k0 t0 H).
  - intros k0 h kids [H|H].
    + inversion H; subst. destruct (h_kind h) as [|[n|]|dk tx]; auto.
      * destruct Hd. exists (length hp). cbn [length]. auto.
      * destruct Hd as (j & H1 & H2 & H3 & H4 & H5). exists (length hp), j. cbn [length]. repeat split; auto.
    + specialize (TH k0 h kids H). cbn [length]. destruct (h_kind h) as [|[n|]|dk tx]; auto.
      * destruct TH as (i & H1 & H2 & H3). exists i. auto.
      * destruct TH as (i & j & H1 & H2 & H3). exists i, j. auto.
Qed.

Lemma told_all : forall a, (forall i, a i <> "") -> (forall i j, a i = a j -> i = j) -> forall todo done hp hp',
  length hp = length done -> told a (done ++ todo) hp -> construct_all a hp todo = Some hp' ->
  told a (done ++ todo) hp' /\ length hp' = length (done ++ todo).
Proof.
  intros a A0 A1 todo. induction todo as [|c todo IH]; intros done hp hp' L T E; cbn [construct_all] in E.
  - inversion E; subst. split; [exact T|]. now rewrite app_nil_r.
  - destruct (construct hp (a (length hp)) c) as [e|] eqn:Ec; [|discriminate].
    pose proof (told_step a done c todo hp e A0 A1 L T Ec) as T'.
    replace (done ++ c :: todo)%list with ((done ++ [c]) ++ todo)%list in * by now rewrite <- app_assoc.
    apply (IH (done ++ [c])%list (e :: hp)); auto. rewrite app_length. cbn. lia.
Qed.

Lemma told_program : forall a calls hp, (forall i, a i <> "") -> (forall i j, a i = a j -> i = j) ->
  construct_all a [] calls = Some hp -> told a calls hp /\ length hp = length calls.
Proof.
  intros a calls hp A0 A1 E. apply (told_all a A0 A1 calls [] [] hp); auto. cbn [app]. split.
  - constructor.
  - intros [|i] k t H; discriminate.
  - intros k h kids [].
Qed.

(** *** Moving to other addresses *)

Fixpoint send (a b : nat -> key) (n : nat) (k : key) : key :=
  match n with
  | O => k
  | Datatypes.S m => if String.eqb k (a m) then b m else send a b m k
  end.
Lemma send_at : forall a b n i, (forall i j, a i = a j -> i = j) -> i < n -> send a b n (a i) = b i.
Proof.
  intros a b n i A. induction n as [|n IH]; intros H; [lia|]. cbn [send].
  destruct (String.eqb_spec (a i) (a n)) as [E|N]; [now rewrite (A _ _ E)|].
  apply IH. destruct (Nat.eq_dec i n) as [->|]; [congruence|lia].
Qed.
Lemma send_empty : forall a b n, (forall i, a i <> "") -> send a b n "" = "".
Proof.
  intros a b n A. induction n as [|n IH]; [reflexivity|]. cbn [send].
  destruct (String.eqb_spec "" (a n)) as [E|]; [now elim (A n)|exact IH].
Qed.
Lemma send_to_empty : forall a b n k, (forall i, b i <> "") -> send a b n k = "" -> k = "".
Proof.
  intros a b n k B0. induction n as [|n IH]; [auto|]. cbn [send].
  destruct (String.eqb k (a n)); [intros E; now elim (B0 n)|exact IH].
Qed.

Lemma named_over : forall hp, inv hp ->
  (forall t, over hp t -> forall k, In k (named t) -> exists h kids n, In (k, V h kids) hp /\ h_kind h = KNode (Some n))
  /\ (forall l, overs hp l -> forall k, In k (named_l l) -> exists h kids n, In (k, V h kids) hp /\ h_kind h = KNode (Some n)).
Proof.
  intros hp I. apply vt_ind'.
  - intros h kids IH H k Hk. rewrite named_V, in_app_iff in Hk. pose proof (over_V hp h kids I H) as Hin.
    destruct Hk as [Hk|Hk].
    + destruct (h_kind h) as [|[n|]|] eqn:EK; try contradiction. destruct Hk as [<-|[]]. exists h, kids, n. auto.
    + destruct (inv_V hp I _ _ _ Hin) as [_ [O _]]. exact (IH O k Hk).
  - intros kids IH H k Hk. exact (IH (over_B hp kids I H) k Hk).
  - intros s H k [].
  - intros H k [].
  - intros t l IHt IHl H k Hk. inversion H; subst. cbn [named_l] in Hk. apply in_app_or in Hk.
    destruct Hk as [Hk|Hk]; [exact (IHt H2 k Hk)|exact (IHl H3 k Hk)].
Qed.

Theorem reuse_harmless : forall a b calls, (forall i, a i <> "") -> (forall i j, a i = a j -> i = j) ->
  (forall i, b i <> "") ->
  (forall i j, i < length calls -> j < length calls -> identified calls i -> b i = b j -> i = j) ->
  match construct_all a [] calls with
  | Some hp => exists hp', construct_all b [] calls = Some hp' /\ length hp' = length hp
      /\ forall i e, element hp i = Some e -> exists e', element hp' i = Some e'
         /\ r_out (accept (snd e') new_renderer) = r_out (accept (snd e) new_renderer)
  | None => construct_all b [] calls = None
  end.
Proof.
  intros a b calls A0 A1 B0 B1.
  pose proof (construct_all_move (send a b (length calls)) (send_empty a b _ A0) (fun k => send_to_empty a b _ k B0) a b calls []) as M.
  specialize (M (fun i Hi => send_at a b (length calls) i A1 Hi)). cbn [map] in M. rewrite M.
  destruct (construct_all a [] calls) as [hp|] eqn:E; [|reflexivity]. cbn [option_map]. eexists. split; [reflexivity|].
  split; [apply map_length|]. intros i [k t] Hi. rewrite element_move, Hi. eexists. split; [reflexivity|]. cbn [snd move].
  destruct (told_program a calls hp A0 A1 E) as [[TB TK TH] L].
  pose proof (built_inv hp TB) as Iv. assert (Ov : over hp t) by (apply (over_elem hp k); now apply element_In in Hi).
  apply (render_rename _ (fun x => exists i, i < length calls /\ x = a i /\ identified calls i)
                         (fun x => x = "" \/ exists i, i < length calls /\ x = a i)).
  - intros x (j & H1 & H2 & _). right. eauto.
  - now left.
  - now apply send_empty.
  - intros x y (j & H1 & -> & H2) [->|(j' & H3 & ->)] H.
    + rewrite send_at, send_empty in H by auto. now elim (B0 j).
    + rewrite !send_at in H by auto. f_equal. now apply B1.
  - split; [|split].
    + intros x Hx. destruct (proj1 (keys_over hp Iv) t Ov x Hx) as (h & kids & _ & Hin & _).
      apply in_rev, In_nth_error in Hin. destruct Hin as [j Hj]. fold (element hp j) in Hj.
      destruct (TK j _ _ Hj) as [->| ->]; [now left|]. right. exists j. split; [|reflexivity]. rewrite <- L. now apply element_len in Hj.
    + intros al Ha. destruct (proj1 (aliases_over hp Iv) t Ov al Ha) as (h & kids & Ea & Hin).
      apply as_alias_kind in Ea. destruct Ea as [Ek _]. specialize (TH _ _ _ Hin). rewrite Ek, L in TH.
      destruct TH as (j & j' & H1 & H2 & H3 & H4 & H5 & H6). split; [exists j|exists j']; auto.
    + intros x Hx. destruct (proj1 (named_over hp Iv) t Ov x Hx) as (h & kids & n & Hin & Ek).
      specialize (TH _ _ _ Hin). rewrite Ek, L in TH. exact TH.
  - now apply (built_well_keyed hp).
Qed.

(** *** Arbitrary coincidences *)

Definition swap (x y k : key) : key := if String.eqb k x then y else if String.eqb k y then x else k.
Lemma swap_inj : forall x y, injective (swap x y).
Proof.
  intros x y a b. unfold swap. destruct (String.eqb_spec a x), (String.eqb_spec b x), (String.eqb_spec a y), (String.eqb_spec b y); subst; congruence.
Qed.

Lemma injective_extension : forall (a b : nat -> key), (forall i, a i <> "") -> (forall i, b i <> "") ->
  (forall i j, a i = a j <-> b i = b j) -> forall n,
  exists f, injective f /\ f "" = "" /\ forall i, i < n -> f (a i) = b i.
Proof.
  intros a b A0 B0 AB. induction n as [|n (f & Fi & F0 & Fa)].
  - exists (fun k => k). split; [|split]; [intros x y E; exact E|reflexivity|intros; lia].
  - destruct (in_dec string_dec (a n) (map a (List.seq 0 n))) as [H|H].
    + apply in_map_iff in H. destruct H as (j & Ej & Hj). apply in_seq in Hj.
      exists f. repeat split; auto. intros i Hi. destruct (Nat.eq_dec i n) as [->|]; [|apply Fa; lia].
      rewrite <- Ej, Fa by lia. now apply AB.
    + exists (fun k => swap (f (a n)) (b n) (f k)). split; [|split].
      * intros x y E. now apply Fi, (swap_inj _ _ _ _ E).
      * rewrite F0. unfold swap. destruct (String.eqb_spec "" (f (a n))) as [E|_].
        { rewrite <- F0 in E. apply Fi in E. now elim (A0 n). }
        destruct (String.eqb_spec "" (b n)) as [E|_]; [now elim (B0 n)|reflexivity].
      * intros i Hi. destruct (Nat.eq_dec i n) as [->|Ni]; [unfold swap; now rewrite String.eqb_refl|].
        assert (Hin : a i <> a n).
        { intros E. apply H. rewrite <- E. apply in_map, in_seq. lia. }
        rewrite (Fa i) by lia. unfold swap. destruct (String.eqb_spec (b i) (f (a n))) as [E|_].
        { rewrite <- (Fa i) in E by lia. apply Fi in E. now elim Hin. }
        destruct (String.eqb_spec (b i) (b n)) as [E|_]; [|reflexivity]. elim Hin. now apply AB.
Qed.

Theorem same_coincidences : forall a b calls, (forall i, a i <> "") -> (forall i, b i <> "") ->
  (forall i j, a i = a j <-> b i = b j) ->
  exists f, injective f /\ f "" = "" /\ construct_all b [] calls = option_map (map (move f)) (construct_all a [] calls).
Proof.
  intros a b calls A0 B0 AB. destruct (injective_extension a b A0 B0 AB (length calls)) as (f & Fi & F0 & Fa).
  exists f. split; [exact Fi|]. split; [exact F0|].
  assert (F1 : forall k, f k = "" -> k = "") by (intros k E; rewrite <- F0 in E; now apply Fi).
  exact (construct_all_move f F0 F1 a b calls [] Fa).
Qed.
