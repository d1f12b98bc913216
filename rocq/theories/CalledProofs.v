(** Proofs: the clauses made by a builder from readable phrases are readable,
    and a clause read from one of them is what the phrase asks for. *)

From Coq Require Import Ascii String List ZArith Bool Lia.
From Verif Require Import GoStr Escape Num VTree Ast SpecDoc SpecPrint SpecTokens SpecShape SpecOutline SpecGrammar SpecReading GoVal SpecCond Cond Queries
  Builder BuilderText SpecBuilder SpecPhrases BuilderProofs PrintProofs BuilderOutline SpecCalled ReadingStatements.
Import ListNotations.
Open Scope string_scope.
Open Scope list_scope.

Section Called.
Context (E : env) (A : register).
Notation K := (fun k => exists a, A k a).
Notation agrees := (SpecReading.agrees E A).
Notation readable := (readable E A).
Notation unaliased := (unaliased A).

Definition free_of (l : list key) : Prop := forall k, List.In k l -> unaliased k.
Lemma free_app : forall a b, free_of (a ++ b) -> free_of a /\ free_of b.
Proof. intros a b H. split; intros k I; apply H, in_or_app; auto. Qed.
Lemma free_cons : forall k b, free_of (k :: b) -> unaliased k /\ free_of b.
Proof. intros k b H. split; [apply H; now left|intros j I; apply H; now right]. Qed.

Ltac free := repeat match goal with
  | H : free_of (_ ++ _) |- _ => apply free_app in H; destruct H
  | H : free_of (_ :: _) |- _ => apply free_cons in H; destruct H
  end.

(** ** What can be read *)

Lemma where_readable : forall c w, says_where c w -> readable_conditions E A c -> free_of (part_keys_of w) -> Forall (readable WhereP) (opt_list w).
Proof.
  intros [[x l]|] w S R F; cbn [says_where readable_conditions] in *; [|subst; constructor].
  destruct S as (z & Hz & [[_ ->]|[N (k & ->)]]); [constructor|]. cbn in F. free. constructor; [|constructor]. constructor; auto.
Qed.
Lemma pattern_readable : forall k ps, ps <> [] -> Forall (readable PartP) ps -> free_of (list_keys (EPattern k ps)) -> readable PartsP (EPattern k ps).
Proof. intros k ps N R F. cbn in F. free. now constructor. Qed.

Lemma labels_free : forall ls : list (key * string), free_of (map fst ls) -> Forall (fun l => l <> "") (map snd ls) -> labels_ok A ls.
Proof.
  intros ls F N. unfold labels_ok. induction ls as [|[k l] ls IH]; [constructor|]. cbn [map fst snd] in *. free. inversion N; subst. constructor; auto.
Qed.
Lemma labels_item : forall e n ls, item_of e = Labels n ls ->
  exists k kn o kl l, e = EOperation k (ESym kn n) o (ELabels kl l) /\ labelling o /\ map snd l = ls.
Proof.
  intros e n ls H. destruct e; try discriminate H. destruct e1; destruct o; try discriminate H; destruct e2; try discriminate H; cbn [item_of] in H;
    injection H as -> <-; do 5 eexists; (split; [reflexivity|]); (split; [|reflexivity]); [now left|now right].
Qed.
Lemma assign_item : forall e a b, item_of e = Assign a b -> exists k, e = EOperation k a SetProp b.
Proof.
  intros e a b H. destruct e; try discriminate H. destruct e1; destruct o; try discriminate H; cbn [item_of] in H; try (injection H as <- <-; eauto; fail); destruct e2; discriminate H.
Qed.
Lemma plain_item : forall e d, item_of e = Plain d -> d = e.
Proof.
  intros e d H. destruct e; try (cbn [item_of] in H; congruence). destruct e1; destruct o; try discriminate H; try (cbn [item_of] in H; congruence); destruct e2; try discriminate H; cbn [item_of] in H; congruence.
Qed.

Lemma labels_operation : forall k kn n o kl l, readable_labels n (map snd l) -> free_of (item_keys (EOperation k (ESym kn n) o (ELabels kl l))) ->
  unaliased kl /\ readable (At 10) (ESym kn n) /\ l <> [] /\ labels_ok A l.
Proof.
  intros k kn n o kl l (V & NE & N) F. cbn [item_keys] in F. free. split; [assumption|]. split; [now constructor|]. split; [now intros ->; apply NE|].
  now apply labels_free.
Qed.
Lemma setting_readable : forall e, readable_setting E A (item_of e) -> free_of (item_keys e) -> free_of (operation_key e) -> readable_set E A e.
Proof.
  intros e R F G. destruct (item_of e) as [a b|n ls|d] eqn:H; cbn [readable_setting] in R.
  - destruct (assign_item e a b H) as (k & ->). cbn [operation_key] in G. free. destruct R. now constructor.
  - destruct (labels_item e n ls H) as (k & kn & o & kl & l & -> & L & <-). destruct (labels_operation _ _ _ _ _ _ R F) as (? & ? & ? & ?). cbn [operation_key] in G. free. now constructor.
  - now rewrite <- (plain_item e d H).
Qed.
Lemma removing_readable : forall e, readable_removing E A (item_of e) -> free_of (item_keys e) -> free_of (operation_key e) -> readable_removal E A e.
Proof.
  intros e R F G. destruct (item_of e) as [a b|n ls|d] eqn:H; cbn [readable_removing] in R.
  - destruct R.
  - destruct (labels_item e n ls H) as (k & kn & o & kl & l & -> & L & <-). destruct (labels_operation _ _ _ _ _ _ R F) as (? & ? & ? & ?). cbn [operation_key] in G. free. now constructor.
  - now rewrite <- (plain_item e d H).
Qed.
Lemma settings_readable : forall l e, says_items l e -> l <> [] -> Forall (readable_setting E A) l -> free_of (list_keys e) -> free_of (operation_keys e) ->
  exists k es, e = EExprs k es /\ unaliased k /\ es <> [] /\ Forall (readable_set E A) es.
Proof.
  intros l e (k & es & -> & <-) N R F G. cbn [list_keys operation_keys] in *. free. exists k, es. split; [reflexivity|]. split; [assumption|]. split; [now intros ->; apply N|].
  clear N. induction es as [|e es IH]; [constructor|]. cbn [map flat_map] in *. free. inversion R; subst. constructor; [now apply setting_readable|auto].
Qed.
Lemma removals_readable : forall l e, says_items l e -> l <> [] -> Forall (readable_removing E A) l -> free_of (list_keys e) -> free_of (operation_keys e) ->
  exists k es, e = EExprs k es /\ unaliased k /\ es <> [] /\ Forall (readable_removal E A) es.
Proof.
  intros l e (k & es & -> & <-) N R F G. cbn [list_keys operation_keys] in *. free. exists k, es. split; [reflexivity|]. split; [assumption|]. split; [now intros ->; apply N|].
  clear N. induction es as [|e es IH]; [constructor|]. cbn [map flat_map] in *. free. inversion R; subst. constructor; [now apply removing_readable|auto].
Qed.

Lemma sorts_readable : forall l es, Forall2 says_sort l es -> Forall (fun i => readable (At 0) (fst i)) l -> free_of (flat_map sort_key es) -> Forall (readable_sort E A) es.
Proof.
  intros l es F. induction F as [|i e l es (k & ->) F IH]; intros R G; [constructor|]. inversion R; subst. cbn [flat_map sort_key app] in G. free. constructor; [now constructor|auto].
Qed.
Lemma body_readable : forall l s b, says_body l s b -> l <> [] -> Forall (readable_item E A) l -> readable_sorting E A s -> free_of (body_keys b) -> free_of (body_inner_keys b) ->
  readable_body E A b.
Proof.
  intros l s [it o sk li] ((k & Hi) & Ho & Hs & Hl) N R Rs F G. unfold body_keys, body_inner_keys in *. cbn [b_items b_order b_skip b_limit] in *. subst it. cbn [list_keys] in F. free.
  split; [exists k, l; auto|]. split; [|split]; cbn [b_items b_order b_skip b_limit].
  - destruct (s_items s) as [|i is'] eqn:Q; [subst o; constructor|]. destruct Ho as (ko & es & -> & F2). unfold readable_sorting in Rs. rewrite Q in Rs. cbn [opt_list].
    constructor; [|constructor]. exists ko, es. cbn in *. free. split; [reflexivity|]. split; [assumption|].
    split; [intros ->; inversion F2|]. now apply (sorts_readable (i :: is')).
  - destruct (s_skip s); [|subst sk; constructor]. destruct Hs as (k1 & k2 & ->). cbn [opt_list]. constructor; [|constructor]. cbn in *. free. do 2 eexists. split; [reflexivity|]. split; [assumption|]. constructor; [apply num_fine|lia].
  - destruct (s_limit s); [|subst li; constructor]. destruct Hl as (k1 & k2 & ->). cbn [opt_list]. constructor; [|constructor]. cbn in *. free. do 2 eexists. split; [reflexivity|]. split; [assumption|]. constructor; [apply num_fine|lia].
Qed.

Lemma actions_readable : forall actions evs, Forall2 says_action actions evs -> Forall (fun a : bool * list item => snd a <> [] /\ Forall (readable_setting E A) (snd a)) actions ->
  free_of (flat_map clause_keys evs) -> free_of (flat_map inner_clause_keys evs) -> Forall (readable_action E A) evs.
Proof.
  intros actions evs H. induction H as [|a ev actions evs (k & ks & e & -> & Si) H IH]; intros R F G; [constructor|]. inversion R as [|? ? (NE & Rs) R']; subst.
  cbn [flat_map clause_keys inner_clause_keys app] in *. free. constructor; [|auto].
  destruct (settings_readable _ _ Si NE Rs) as (ke & es & -> & ? & ? & ?); [assumption|assumption|]. do 5 eexists. split; [reflexivity|]. auto.
Qed.
Lemma says_readable : forall p q, SpecBuilder.says p q -> readable_phrase E A p -> free_of (clause_keys q) -> free_of (inner_clause_keys q) -> readable_c E A q.
Proof.
  intros p q S R F G. destruct p, q; cbn [SpecBuilder.says] in S; try contradiction; cbn [clause_keys inner_clause_keys readable_phrase] in *; free.
  - destruct S as (-> & (kp & ->) & W). destruct R as (N & Rp & Rc). constructor; [assumption|now apply pattern_readable|]. now apply (where_readable c).
  - destruct S as (kp & ->). destruct R as (N & Rp). constructor; [assumption|now apply pattern_readable].
  - destruct S as ((kp & ->) & kb & evs' & -> & Fa). destruct R as (N & Rp & Ra). cbn [flat_map clause_keys] in *. free. constructor; [assumption|assumption|now apply pattern_readable|].
    now apply (actions_readable actions).
  - destruct S as (-> & (ke & ->)). destruct R. cbn [list_keys] in *. free. now constructor.
  - destruct R as (N & R). destruct (settings_readable _ _ S N R) as (ke & es & -> & ? & ? & ?); auto. now constructor.
  - destruct R as (N & R). destruct (removals_readable _ _ S N R) as (ke & es & -> & ? & ? & ?); auto. now constructor.
  - destruct S as (-> & S). destruct R as (R & I). constructor; [assumption| |assumption]. destruct e; try (now subst). destruct S as (kn & ->). now constructor.
  - subst. now constructor.
  - destruct S as (Q & S1 & (ka & ->) & Sy & W). destruct R as ((x & w0 & l & -> & T) & Ra & Ry & Rc). rewrite (S1 eq_refl) in *. cbn [qualified] in Q. cbn [String.concat] in Q. subst.
    cbn in *. free. constructor; auto.
    + intros ks x0 X. discriminate X.
    + exists (w0 :: l). split; [discriminate|]. exists [], (spelling (w0 :: l)). auto.
    + constructor; [|constructor]. do 2 eexists. split; [reflexivity|]. auto.
    + destruct yields as [|y0 ys]; [subst; constructor|]. destruct Sy as (ky & ->). cbn [opt_list]. cbn in *. free. constructor; [|constructor]. do 2 eexists. split; [reflexivity|]. split; [assumption|]. split; [discriminate|assumption].
    + now apply (where_readable c).
  - destruct S as (-> & Sb & W). destruct R as (N & R1 & R2 & R3). constructor; [assumption|now apply (body_readable items s)|]. now apply (where_readable c).
  - destruct S as (-> & Sb). destruct R as (N & R1 & R2). constructor; [assumption|]. now apply (body_readable items s).
Qed.

(** ** What is asked for *)

Lemma where_asks : forall c w t, says_where c w -> agrees_where E A t w -> asks_where E A c t.
Proof.
  intros [[x l]|] w t S G; cbn [says_where asks_where] in *; [|subst; now inversion G].
  destruct S as (z & Hz & [[N ->]|[N (k & ->)]]); exists z; (split; [exact Hz|]).
  - left. split; [exact N|now inversion G].
  - right. split; [exact N|]. inversion G; subst. eauto.
Qed.
Lemma operation_agrees : forall k l o r t, unaliased k -> binop_of o = None -> ~ agrees t (EOperation k l o r).
Proof.
  intros k l o r t U B H. inversion H; subst; try congruence.
  - match goal with Q : key_of _ = Some _, G : aliases A _ _ |- _ => cbn in Q; injection Q as <-; exact (U _ G) end.
  - match goal with G : agrees_chain _ _ _ _ _ |- _ => inversion G; subst end. match goal with G : agrees_node _ _ _ _ |- _ => inversion G end.
Qed.
Lemma set_asks : forall e s, agrees_set E A s e -> asks_set E A (item_of e) s.
Proof.
  intros e s H. inversion H as [k l r t u H1 H2|k l r t u H1 H2|k l o kl ls t L H1]; subst.
  - replace (item_of (EOperation k l SetProp r)) with (Assign l r) by (destruct l; reflexivity). cbn [asks_set]. auto.
  - replace (item_of (EOperation k l Mutate r)) with (Plain (EOperation k l Mutate r)) by (destruct l; reflexivity). exact H.
  - destruct l; try (destruct L as [-> | ->]; cbn [item_of asks_set]; exact H). destruct L as [-> | ->]; cbn [item_of asks_set]; (split; [eexists; exact H1|reflexivity]).
Qed.
Lemma removal_asks : forall e t, readable_removal E A e -> free_of (operation_key e) -> agrees_removal E A t e -> asks_removal E A (item_of e) t.
Proof.
  intros e t R F H. destruct (item_of e) as [a b|n ls|d] eqn:Q; cbn [asks_removal].
  - destruct (assign_item e a b Q) as (k & ->). cbn [operation_key] in F. free. inversion R as [? Re|? ? ? ? ? L]; subst; [|destruct L; discriminate].
    inversion Re; subst; discriminate.
  - destruct (labels_item e n ls Q) as (k & kn & o & kl & l & -> & L & <-). cbn [operation_key] in F. free. inversion H as [? ? Hp|? ? ? ? ? u L' Hu]; subst.
    + exfalso. apply operation_agrees in Hp; [exact Hp|assumption|destruct L; subst; reflexivity].
    + split; [now exists kn|reflexivity].
  - now rewrite (plain_item e d Q).
Qed.
Lemma sets_ask : forall es l, Forall2 (agrees_set E A) l es -> Forall2 (asks_set E A) (map item_of es) l.
Proof. intros es l H. induction H; constructor; auto. now apply set_asks. Qed.

Lemma number_asks : forall k z t, unaliased k -> agrees t (ENum k (num_of_Z z)) -> t = number z.
Proof.
  intros k z t U H. inversion H; subst.
  - match goal with Q : key_of _ = Some _, G : aliases A _ _ |- _ => cbn in Q; injection Q as <-; destruct (U _ G) end.
  - match goal with N : n_neg _ = _ |- _ => change (n_neg (num_of_Z z)) with (z <? 0)%Z in N; unfold number; now rewrite N end.
  - match goal with N : n_neg _ = _ |- _ => change (n_neg (num_of_Z z)) with (z <? 0)%Z in N; unfold number; now rewrite N end.
  - match goal with G : agrees_chain _ _ _ _ _ |- _ => inversion G; subst end. match goal with G : agrees_node _ _ _ _ |- _ => inversion G end.
Qed.
Lemma sorts_ask : forall l es ol, Forall2 says_sort l es -> Forall2 (agrees_sort E A) ol es -> Forall2 (fun i o => agrees (fst o) (fst i) /\ snd o = snd i) l ol.
Proof.
  intros l es ol F. revert ol. induction F as [|i e l es (k & ->) F IH]; intros ol G; inversion G as [|o ? ? ? Ho G']; subst; constructor; [|auto]. inversion Ho; subst. cbn [fst snd]. auto.
Qed.
Lemma body_asks : forall l s b d d' ts ol sl nl, says_body l s b -> free_of (body_inner_keys b) -> agrees_body E A (CBody d' ts ol sl nl) d b ->
  d' = d /\ Forall2 (agrees_item E A) ts l /\ asks_sorting E A s ol sl nl.
Proof.
  intros l s b d d' ts ol sl nl ((k & Hi) & Ho & Hs & Hl) F H. inversion H as [? ke es o sk n ? ? ? ? H1 H2 H3 H4]; subst. cbn [b_items b_order b_skip b_limit] in *. injection Hi as -> ->.
  unfold body_inner_keys in F. cbn [b_items b_order b_skip b_limit] in F. free. split; [reflexivity|]. split; [exact H1|]. split; [|split].
  - destruct (s_items s) as [|i is']; [subst o; inversion H2; constructor|]. destruct Ho as (ko & es' & -> & F2). inversion H2 as [|? ? ? F3]; subst. eapply sorts_ask; eassumption.
  - destruct (s_skip s); cbn [option_map]; [|subst sk; now inversion H3]. destruct Hs as (k1 & k2 & ->). inversion H3; subst. cbn in *. free. f_equal. eapply number_asks; eassumption.
  - destruct (s_limit s); cbn [option_map]; [|subst n; now inversion H4]. destruct Hl as (k1 & k2 & ->). inversion H4; subst. cbn in *. free. f_equal. eapply number_asks; eassumption.
Qed.

Lemma says_asks : forall p q c, SpecBuilder.says p q -> readable_phrase E A p -> free_of (clause_keys q) -> free_of (inner_clause_keys q) -> agrees_c E A c q -> asks E A p c.
Proof.
  intros p q c S R F G H. pose proof (says_readable p q S R F G) as RC. destruct p, q; cbn [SpecBuilder.says] in S; try contradiction; cbn [clause_keys inner_clause_keys readable_phrase] in *; free; inversion H; subst; cbn [asks].
  - destruct S as (-> & (kp' & X) & W). injection X as <- <-. split; [reflexivity|]. split; [assumption|]. eapply where_asks; eassumption.
  - destruct S as (kp' & X). now injection X as <- <-.
  - destruct S as ((kp' & X) & kb & evs' & -> & Fa). injection X as <- <-. split; [assumption|]. match goal with H : agrees_actions _ _ _ _ |- _ => inversion H; subst; rename H into Q end.
    match goal with H : Forall2 (agrees_action _ _) _ _ |- _ => revert H; generalize l end. clear - Fa. induction Fa as [|a ev acts evs (k & ks & e & -> & (ke & es & -> & Si)) Fa IH]; intros l F; inversion F as [|x ? l' ? Hx F']; subst; constructor; [|auto].
    inversion Hx; subst. split; [reflexivity|]. cbn [snd]. rewrite <- Si. now apply sets_ask.
  - destruct S as (-> & (ke' & X)). injection X as <- <-. auto.
  - destruct S as (ke' & es' & X & <-). injection X as <- <-. now apply sets_ask.
  - destruct S as (ke' & es' & X & <-). injection X as <- <-. inversion RC as [| | | | | |? ? ? ? ? ? Rr| | | | |]; subst. cbn [operation_keys] in G.
    match goal with H : Forall2 (agrees_removal _ _) _ _ |- _ => revert H; generalize l end. clear - Rr G. induction Rr as [|e es Re Rr IH]; intros l F; inversion F; subst; cbn [map flat_map] in *; constructor; free; [now apply removal_asks|auto].
  - destruct S as (-> & S). split; [reflexivity|]. destruct e; try (now subst). destruct S as (kn & ->). now exists kn.
  - assumption.
  - destruct S as (Q & S1 & (ka & ->) & Sy & W). destruct R as ((x & w0 & l0 & -> & T) & Ra & Ry & Rc). rewrite (S1 eq_refl) in *. cbn [qualified String.concat] in *. subst.
    match goal with H : procedure _ _ _ _ |- _ => destruct H as (_ & tx & tn & T1 & T2 & T3) end. split; [|split; [|split]].
    + vm_compute in T1. injection T1 as <-. cbn [app] in T3. now rewrite T3.
    + match goal with H : agrees_args _ _ _ _ |- _ => inversion H; subst end. eauto.
    + destruct yields as [|y0 ys]; [subst; match goal with H : agrees_yield _ _ _ _ |- _ => now inversion H end|]. destruct Sy as (ky & ->). match goal with H : agrees_yield _ _ _ _ |- _ => inversion H; subst end. eauto.
    + eapply where_asks; eassumption.
  - destruct S as (-> & Sb & W). match goal with |- match ?b with CBody _ _ _ _ _ => _ end => destruct b end.
    match goal with H : agrees_body _ _ _ _ _ |- _ => destruct (body_asks _ _ _ _ _ _ _ _ _ Sb G H) as (? & ? & ?) end. split; [assumption|]. split; [assumption|]. split; [assumption|]. eapply where_asks; eassumption.
  - destruct S as (-> & Sb). match goal with |- match ?b with CBody _ _ _ _ _ => _ end => destruct b end. now apply (body_asks items s b).
Qed.

(** ** Aliases *)

Notation covers := (covers A).

Lemma covers_by_children : forall e, (forall k dk x a, e <> EAlias k dk x a) -> Forall covers (children e) -> covers e.
Proof.
  intros e N F k a G. inversion G as [ka x|? d I G']; subst; [destruct (N _ _ _ _ eq_refl)|]. rewrite Forall_forall in F. now apply (F d).
Qed.
Lemma covers_comp : forall k o cs n, covers (cond_expr (Comp k o cs n)) <-> Forall covers (map cond_expr cs).
Proof.
  intros k o cs n. cbn [cond_expr]. split; [apply (covers_children A)|]. intros F. now apply covers_by_children.
Qed.
Definition covers_list (cs : list cnd) : Prop := Forall covers (map cond_expr cs).
Lemma covers_join : forall a b, covers_list a -> covers_list b -> covers_list (a ++ b).
Proof. intros a b HA HB. unfold covers_list. rewrite map_app. now apply Forall_app. Qed.
Lemma covers_one : forall c, covers (cond_expr c) -> covers_list [c].
Proof. intros c H. constructor; [exact H|constructor]. Qed.
Lemma covers_added : forall ki b cs ch x cs', covers_list cs -> sound_cnd x = true -> covers (cond_expr x) -> add_conditions ki b cs ch x = Some cs' -> covers_list cs'.
Proof.
  intros ki b cs ch x cs' S So F H. unfold add_conditions in H. destruct (compound_conditions x) as [inner|] eqn:Ex.
  - destruct inner as [|i inner]; [inversion H; now subst|]. destruct x as [| | | | |k o l n|]; try discriminate. cbn in Ex. inversion Ex; subst l. clear Ex. pose proof (proj1 (covers_comp k o _ n) F) as Si.
    destruct (b && has_op ch (Comp k o (i :: inner) n))%bool.
    + destruct (can_be_flattened ch (i :: inner)); inversion H; subst; [now apply covers_join|]. apply covers_join; [assumption|now apply covers_one].
    + inversion H; subst. apply covers_join; [assumption|]. apply covers_one. apply covers_comp. now apply covers_one.
  - destruct b; [|discriminate]. inversion H; subst. apply covers_join; [assumption|now apply covers_one].
Qed.
Lemma covers_added' : forall ki cs ch x, covers_list cs -> sound_cnd x = true -> covers (cond_expr x) -> covers_list (added ki cs ch x).
Proof. intros ki cs ch x S So F. unfold added. destruct (add_conditions ki true cs ch x) as [cs'|] eqn:H; [|auto]. eapply covers_added; eassumption. Qed.
Lemma covers_create : forall ks l o r, sound_cnd l = true -> sound_cnd r = true -> covers (cond_expr l) -> covers (cond_expr r) -> covers (cond_expr (create ks l o r)).
Proof.
  intros ks l o r Sl Sr Fl Fr. unfold create. rewrite (sound_no_err _ Sl), (sound_no_err _ Sr).
  assert (G : covers (cond_expr (Comp (ks 0) o (added (ks 2) (added (ks 1) [] o l) o r) (length (added (ks 2) (added (ks 1) [] o l) o r))))).
  { apply covers_comp. apply covers_added'; auto. apply covers_added'; auto; constructor. }
  destruct l; try discriminate; destruct r; try discriminate; exact G.
Qed.
Lemma covers_chain : forall ks o x y z, sound_cnd x = true -> sound_cnd y = true -> covers (cond_expr x) -> covers (cond_expr y) ->
  condition_chain ks o x y = Val z -> covers (cond_expr z).
Proof.
  intros ks o x y z Sx Sy Fx Fy H. destruct x; try discriminate; cbn [condition_chain container_chain embedded add] in H; inversion H; subst; clear H.
  - now apply covers_create.
  - now apply covers_create.
  - apply covers_comp. apply covers_added'; auto; constructor.
  - pose proof (proj1 (covers_comp k o0 cs snap) Fx) as S. destruct (add_conditions (ks 3) (bop_eqb o0 o) cs o y) as [cs'|] eqn:H.
    + apply covers_comp. eapply covers_added; eassumption.
    + apply covers_create; auto.
Qed.
Lemma chained_covers : forall x l z, chained x l z -> sound_cnd x = true -> Forall (fun c => sound_cnd c = true) (map snd l) ->
  covers (cond_expr x) -> Forall covers (map cond_expr (map snd l)) -> covers (cond_expr z).
Proof.
  intros x l z H. induction H as [x|ks o x y z l C z' H IH]; intros Sx Sl Fx Fl; [exact Fx|]. cbn [map snd] in *. inversion Sl; subst. inversion Fl; subst.
  apply IH; auto; [|eapply (covers_chain ks _ x y z); eassumption]. eapply sound_chain; [| |exact C]; assumption.
Qed.

Lemma where_covers : forall c w, says_where c w -> in_place_conditions E A c -> Forall covers (condition_exprs c) -> Forall covers (opt_list w).
Proof.
  intros [[x l]|] w S Fi F; cbn [says_where condition_exprs in_place_conditions] in *; [|subst; constructor]. destruct S as (z & Hz & [[_ ->]|[N (k & ->)]]); [constructor|].
  constructor; [|constructor]. apply covers_by_children; [congruence|]. cbn [children]. constructor; [|constructor]. inversion F; subst. inversion Fi as [|? ? [Sx _] Fl]; subst.
  eapply chained_covers; eauto. eapply Forall_impl; [|exact Fl]. now intros c [Hc _].
Qed.
Lemma item_covers : forall e, Forall covers (item_exprs (item_of e)) -> covers e.
Proof.
  intros e F. destruct (item_of e) as [a b|n ls|d] eqn:H; cbn [item_exprs] in F.
  - destruct (assign_item e a b H) as (k & ->). now apply covers_by_children.
  - destruct (labels_item e n ls H) as (k & kn & o & kl & l & -> & _). apply covers_by_children; [congruence|]. cbn [children].
    repeat (constructor; [apply covers_by_children; [congruence|constructor]|]). constructor.
  - rewrite (plain_item e d H) in F. now inversion F.
Qed.
Lemma exprs_covers : forall k es, Forall covers es -> covers (EExprs k es).
Proof. intros k es F. now apply covers_by_children. Qed.
Lemma items_covers : forall l e, says_items l e -> Forall covers (flat_map item_exprs l) -> covers e.
Proof.
  intros l e (k & es & -> & <-) F. apply exprs_covers. induction es as [|e es IH]; [constructor|]. cbn [map flat_map] in F. apply Forall_app in F as [F1 F2]. constructor; [now apply item_covers|auto].
Qed.
Lemma body_covers : forall l s b, says_body l s b -> Forall covers l -> Forall covers (sorting_exprs s) -> Forall covers (body_exprs b).
Proof.
  intros l s [it o sk li] ((k & Hi) & Ho & Hs & Hl) F G. unfold body_exprs. cbn [b_items b_order b_skip b_limit] in *. subst it. constructor; [now apply exprs_covers|]. apply Forall_app. split; [|apply Forall_app; split].
  - unfold sorting_exprs in G. destruct (s_items s) as [|i is'] eqn:Q; [subst o; constructor|]. destruct Ho as (ko & es & -> & F2). constructor; [|constructor]. apply covers_by_children; [congruence|]. cbn [children].
    clear Q. revert es F2 G. generalize (i :: is'). clear. induction l as [|j l IH]; intros es F2 G; inversion F2 as [|? e ? es' (kj & ->) F4]; subst; constructor; inversion G; subst; [|now apply IH].
    apply covers_by_children; [congruence|]. cbn [children]. auto.
  - destruct (s_skip s); [|subst sk; constructor]. destruct Hs as (k1 & k2 & ->). repeat constructor. apply covers_by_children; [congruence|]. cbn [children]. constructor; [|constructor]. apply covers_by_children; [congruence|constructor].
  - destruct (s_limit s); [|subst li; constructor]. destruct Hl as (k1 & k2 & ->). repeat constructor. apply covers_by_children; [congruence|]. cbn [children]. constructor; [|constructor]. apply covers_by_children; [congruence|constructor].
Qed.

Lemma covers_q_by : forall q, Forall covers (exprs_of q) -> Forall (covers_q A) (queries_of q) -> covers_q A q.
Proof.
  intros q F G k a H. rewrite Forall_forall in *. inversion H as [? e I H'|? s I H']; subst; [now apply (F e)|now apply (G s)].
Qed.
Lemma says_covers : forall p q, SpecBuilder.says p q -> in_place_phrase E A p -> (forall k a, phrase_gives k a p -> A k a) -> covers_q A q.
Proof.
  intros p q S Fi H. assert (C : Forall covers (phrase_exprs p)) by (apply Forall_forall; intros e I k a G; apply H; left; eauto).
  destruct p, q; cbn [SpecBuilder.says] in S; try contradiction; cbn [phrase_exprs in_place_phrase] in *.
  - destruct S as (-> & (kp & ->) & W). apply Forall_app in C as [C1 C2]. destruct Fi as [_ Fi]. apply covers_q_by; [|constructor]. cbn [exprs_of]. constructor; [now apply covers_by_children|]. now apply (where_covers c).
  - destruct S as (kp & ->). apply covers_q_by; [|constructor]. constructor; [now apply covers_by_children|constructor].
  - destruct S as ((kp & ->) & kb & evs' & -> & Fa). apply Forall_app in C as [C1 C2]. apply covers_q_by; [constructor; [now apply covers_by_children|constructor]|]. cbn [queries_of].
    constructor; [apply covers_q_by; constructor|]. clear - Fa C2. revert C2. induction Fa as [|a ev acts evs (k & ks & e & -> & Si) Fa IH]; intros C; [constructor|]. cbn [flat_map] in C. apply Forall_app in C as [C1 C2].
    constructor; [|auto]. apply covers_q_by; [constructor|]. cbn [queries_of]. constructor; [|constructor]. apply covers_q_by; [|constructor]. cbn [exprs_of]. constructor; [|constructor]. now apply (items_covers (snd a)).
  - destruct S as (-> & (ke & ->)). apply covers_q_by; [|constructor]. constructor; [now apply exprs_covers|constructor].
  - apply covers_q_by; [|constructor]. constructor; [|constructor]. now apply (items_covers items).
  - apply covers_q_by; [|constructor]. constructor; [|constructor]. now apply (items_covers items).
  - destruct S as (-> & S). apply covers_q_by; [|constructor]. cbn [exprs_of]. constructor; [|constructor]. destruct e; try (subst; now inversion C). destruct S as (kn & ->). apply covers_by_children; [congruence|constructor].
  - subst. apply covers_q_by; [constructor|]. cbn [queries_of]. constructor; [|constructor]. intros k' a G. apply H. right. exact G.
  - destruct S as (Q & S1 & (ka & ->) & Sy & W). apply Forall_app in C as [C1 C]. apply Forall_app in C as [C2 C3]. destruct Fi as (_ & _ & _ & Fi). apply covers_q_by; [|constructor]. cbn [exprs_of opt_list app].
    constructor; [now apply covers_by_children|]. apply Forall_app. split; [|now apply (where_covers c)]. destruct yields as [|y0 ys]; [subst; constructor|]. destruct Sy as (ky & ->). constructor; [now apply covers_by_children|constructor].
  - destruct S as (-> & Sb & W). apply Forall_app in C as [C1 C]. apply Forall_app in C as [C2 C3]. destruct Fi as (_ & _ & Fi). apply covers_q_by; [|constructor]. cbn [exprs_of]. apply Forall_app. split; [now apply (body_covers items s)|now apply (where_covers c)].
  - destruct S as (-> & Sb). apply Forall_app in C as [C1 C2]. apply covers_q_by; [|constructor]. cbn [exprs_of]. now apply (body_covers items s).
Qed.

Lemma clauses_ask : forall ph qs l, Forall2 SpecBuilder.says ph qs -> Forall (readable_phrase E A) ph -> free_of (flat_map clause_keys qs) -> free_of (flat_map inner_clause_keys qs) ->
  Forall2 (agrees_c E A) l qs -> Forall2 (asks E A) ph l.
Proof.
  intros ph qs l S. revert l. induction S as [|p q ph qs Sp S IH]; intros l R F G H; inversion H; subst; constructor; inversion R; subst; cbn [flat_map] in *; free; [now apply (says_asks p q)|auto].
Qed.
Lemma clauses_readable : forall ph qs, Forall2 SpecBuilder.says ph qs -> Forall (readable_phrase E A) ph -> free_of (flat_map clause_keys qs) -> free_of (flat_map inner_clause_keys qs) ->
  Forall (readable_c E A) qs.
Proof.
  intros ph qs S R. induction S as [|p q ph qs Sp S IH]; intros F G; constructor; inversion R; subst; cbn [flat_map] in *; free; [now apply (says_readable p)|auto].
Qed.
End Called.
