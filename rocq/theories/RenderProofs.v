(** Consequences of the simulation: what [render] returns, what it leaves
    behind, and how it depends on keys. *)

From Coq Require Import Ascii String List ZArith Bool Lia.
From Verif Require Import GoStr EscapeProofs VTree WellKeyed VTreeProofs VTreeSim Ast SpecDoc SpecPrint DocProofs PrintProofs.
Import ListNotations.
Open Scope string_scope.

Definition none_seen : seen := Seen [] [].

Lemma new_ready : forall als, ready als [] [] new_renderer.
Proof.
  intros als. split; cbn; try reflexivity.
  - intros x [].
  - intros x [].
  - intros x [].
  - intros k a [].
Qed.

Lemma well_keyed_spec : forall t, well_keyed t = true -> one_delegate (aliases t) /\ wk (aliases t) [] [] t = true.
Proof. intros t H. unfold well_keyed in H. apply andb_true_iff in H. destruct H. split; [now apply als_ok_spec|assumption]. Qed.

(** A run from the start. *)
Lemma accept_new : forall t, well_keyed t = true ->
  let '(txt, _, s) := pp t None none_seen in wrote new_renderer (accept t new_renderer) txt None s.
Proof.
  intros t H. destruct (well_keyed_spec t H) as [O W].
  pose proof (proj1 (accept_pp (aliases t) O) t [] [] new_renderer W (incl_refl _) (new_ready _)) as P.
  change (get_sep (r_level new_renderer + 1)%Z (r_seps new_renderer)) with (@None string) in P.
  change (seen_of new_renderer) with none_seen in P.
  pose proof (proj1 pp_none t none_seen) as N.
  destruct (pp t None none_seen) as [[txt sep] s]. cbn in N. subst sep. exact P.
Qed.

Theorem render_statement : forall E q,
  well_keyed (to_vtq E q) = true -> well_quiet (to_vtq E q) = true ->
  r_out (accept (to_vtq E q) new_renderer) = text (print_query E q).
Proof.
  intros E q H Q. pose proof (accept_new _ H) as A. unfold well_quiet in Q.
  destruct (print_goodq E (aliases (to_vtq E q)) q) as [_ G].
  specialize (G ltac:(cbn [quiet_l]; now rewrite Q) ltac:(cbn [aliases_l]; rewrite app_nil_r; apply incl_refl) none_seen).
  destruct G as [s' [G _]]; [intros k a []|].
  cbn [pps] in G. destruct (pp (to_vtq E q) None none_seen) as [[txt sep] s].
  inversion G as [[G1 G2 G3]]. destruct A as [A _ _ _ _ _ _ _ _]. rewrite A. cbn [r_out new_renderer append].
  unfold text. rewrite sapp_nil_r in G1. rewrite G1. cbn [wcat]. 
  change (mem none_seen) with nothing_written. destruct (write (print_query E q) nothing_written). cbn. now rewrite sapp_nil_r.
Qed.

(** ** Renaming keys *)

Definition rename_kind (f : key -> key) (k : kind) : kind :=
  match k with KAlias dk tx => KAlias (f dk) tx | k => k end.
Definition rename_head (f : key -> key) (h : head) : head := Head (f (h_key h)) (h_sub h) (rename_kind f (h_kind h)).

(** The same tree with elements at other addresses. *)
Fixpoint rename (f : key -> key) (t : vt) : vt :=
  match t with
  | V h kids => V (rename_head f h) (map (rename f) kids)
  | B kids => B (map (rename f) kids)
  | T s => T s
  end.

Definition rename_alias (f : key -> key) (a : alias) : alias := Alias (f (al_key a)) (f (al_dkey a)) (al_text a).
Definition rename_rst (f : key -> key) (r : rst) : rst :=
  Rst (map (fun p => (f (fst p), rename_alias f (snd p))) (r_aliased r)) (r_seps r) (map f (r_named r))
      (map f (r_stack r)) (map (rename_alias f) (r_alstack r)) (r_level r) (r_skip r) (r_out r).

Definition injective (f : key -> key) : Prop := forall a b, f a = f b -> a = b.

Lemma eqb_inj : forall f, injective f -> forall a b, String.eqb (f a) (f b) = String.eqb a b.
Proof.
  intros f F a b. destruct (String.eqb_spec a b) as [->|N]; [apply String.eqb_refl|].
  apply String.eqb_neq. intros E. now apply N, F.
Qed.

Lemma assoc_rename : forall f, injective f -> forall k m,
  assoc (f k) (map (fun p : key * alias => (f (fst p), rename_alias f (snd p))) m) = option_map (rename_alias f) (assoc k m).
Proof.
  intros f F k m. induction m as [|[k' v] m IH]; [reflexivity|]. cbn [map fst snd assoc].
  rewrite (eqb_inj f F). destruct (String.eqb k k'); [reflexivity|exact IH].
Qed.
Lemma memk_rename : forall f, injective f -> forall k l, memk (f k) (map f l) = memk k l.
Proof.
  intros f F k l. induction l as [|x l IH]; [reflexivity|]. unfold memk in *. cbn. now rewrite (eqb_inj f F), IH.
Qed.
Lemma is_some_map : forall A B (g : A -> B) o, is_some (option_map g o) = is_some o.
Proof. now destruct o. Qed.

Lemma used_rename : forall f, injective f -> forall r h,
  used (rename_rst f r) (rename_head f h) = rename_head f (used r h).
Proof.
  intros f F r h. unfold used. cbn [r_aliased rename_rst]. cbn [h_key rename_head].
  rewrite (assoc_rename f F). destruct (assoc (h_key h) (r_aliased r)); reflexivity.
Qed.
Lemma as_alias_rename : forall f h, as_alias (rename_head f h) = option_map (rename_alias f) (as_alias h).
Proof. intros f [k sb kd]. destruct kd; reflexivity. Qed.
Lemma top_visited_rename : forall f, injective f -> forall r, top_visited (rename_rst f r) = top_visited r.
Proof.
  intros f F r. unfold top_visited. cbn [r_alstack r_aliased rename_rst]. destruct (r_alstack r) as [|a l]; [reflexivity|].
  cbn [map]. cbn [al_dkey rename_alias]. now rewrite (assoc_rename f F), is_some_map.
Qed.

Lemma pre_enter_rename : forall f, injective f -> forall h r,
  pre_enter (rename_head f h) (rename_rst f r) = (rename_rst f (fst (pre_enter h r)), snd (pre_enter h r)).
Proof.
  intros f F h r. unfold pre_enter. rewrite (top_visited_rename f F), as_alias_rename.
  cbn [r_skip rename_rst]. destruct (r_skip r || top_visited r)%bool; [reflexivity|].
  destruct r as [al se na st as_ lv sk ou], h as [k sb kd]. unfold enable_separator.
  destruct kd; cbn; destruct sb; cbn;
    try (match goal with |- context [get_sep ?a ?b] => destruct (get_sep a b) end; reflexivity);
    try (match goal with |- context [if ?c then Some _ else _] => destruct c end; try reflexivity;
         match goal with |- context [get_sep ?a ?b] => destruct (get_sep a b) end; reflexivity).
Qed.

Lemma el_enter_rename : forall f, injective f -> forall h r,
  el_enter (rename_head f h) (rename_rst f r) = rename_rst f (el_enter h r).
Proof.
  intros f F h r. destruct h as [k sb kd], r as [al se na st as_ lv sk ou]. unfold el_enter.
  destruct kd as [b a|[n|]|dk tx]; cbn; try reflexivity.
  - pose proof (memk_rename f F k na) as M. unfold memk in *. rewrite M. destruct (existsb (String.eqb k) na); reflexivity.
  - rewrite (assoc_rename f F), is_some_map. destruct (is_some (assoc dk al)); reflexivity.
Qed.
Lemma el_leave_rename : forall f, injective f -> forall h r,
  el_leave (rename_head f h) (rename_rst f r) = rename_rst f (el_leave h r).
Proof.
  intros f F h r. destruct h as [k sb kd], r as [al se na st as_ lv sk ou]. unfold el_leave.
  destruct kd as [b a|[n|]|dk tx]; cbn; try reflexivity.
  rewrite (assoc_rename f F), is_some_map. destruct (is_some (assoc dk al)); reflexivity.
Qed.
Lemma post_leave_rename : forall f, injective f -> forall h r,
  post_leave (rename_head f h) (rename_rst f r) = rename_rst f (post_leave h r).
Proof.
  intros f F h r. destruct h as [k sb kd], r as [al se na st as_ lv sk ou]. unfold post_leave, enable_separator. cbn.
  destruct (get_sep lv se), sb; cbn; (destruct as_ as [|a as_]; cbn; [reflexivity|]);
    rewrite (eqb_inj f F); destruct (String.eqb (al_key a) k); reflexivity.
Qed.

Lemma peek_rename : forall f, f "" = "" -> forall l, peek (map f l) = f (peek l).
Proof. intros f F0 [|x l]; [symmetry; exact F0|reflexivity]. Qed.
Lemma pop_rename : forall f l, pop (map f l) = map f (pop l).
Proof. now intros f [|x l]. Qed.

Lemma enter_rename : forall f, injective f -> forall h r,
  enter (rename_head f h) (rename_rst f r) = rename_rst f (enter h r).
Proof.
  intros f F h r. unfold enter. rewrite (used_rename f F), (pre_enter_rename f F).
  destruct (pre_enter (used r h) r) as [r1 go]. cbn [fst snd]. destruct go; [|reflexivity].
  rewrite <- (el_enter_rename f F). reflexivity.
Qed.
Lemma leave_rename : forall f, injective f -> f "" = "" -> forall h r,
  leave (rename_head f h) (rename_rst f r) = rename_rst f (leave h r).
Proof.
  intros f F F0 h r. unfold leave. rewrite (used_rename f F), as_alias_rename.
  change (r_stack (rename_rst f r)) with (map f (r_stack r)). rewrite (peek_rename f F0).
  change (h_key (rename_head f (used r h))) with (f (h_key (used r h))). rewrite (eqb_inj f F).
  rewrite (el_leave_rename f F), (post_leave_rename f F).
  destruct (String.eqb (peek (r_stack r)) (h_key (used r h))).
  - change (r_stack (rename_rst f (post_leave (used r h) (el_leave (used r h) r))))
      with (map f (r_stack (post_leave (used r h) (el_leave (used r h) r)))).
    rewrite pop_rename. destruct (as_alias h); reflexivity.
  - destruct (as_alias h); reflexivity.
Qed.

Lemma accept_V : forall h kids r, accept (V h kids) r = leave h (accepts kids (enter h r)).
Proof. reflexivity. Qed.
Lemma accept_B : forall kids r, accept (B kids) r = accepts kids r.
Proof. reflexivity. Qed.

Theorem accept_rename : forall f, injective f -> f "" = "" ->
  (forall t r, accept (rename f t) (rename_rst f r) = rename_rst f (accept t r))
  /\ (forall l r, accepts (map (rename f) l) (rename_rst f r) = rename_rst f (accepts l r)).
Proof.
  intros f F F0. apply vt_ind'.
  - intros h kids IH r. cbn [rename]. rewrite !accept_V, (enter_rename f F), IH. now apply leave_rename.
  - intros kids IH r. cbn [rename]. rewrite !accept_B. apply IH.
  - reflexivity.
  - reflexivity.
  - intros t l IHt IHl r. cbn [map accepts]. rewrite IHt. apply IHl.
Qed.

(** ** Reusing a renderer *)

(** Two histories that agree on the keys [ks]. *)
Definition agree (ks : list key) (s s' : seen) : Prop :=
  forall k, In k ks -> assoc k (s_al s) = assoc k (s_al s') /\ memk k (s_nm s) = memk k (s_nm s').

Lemma agree_sub : forall ks ks' s s', incl ks' ks -> agree ks s s' -> agree ks' s s'.
Proof. intros ks ks' s s' I H k Hk. apply H, I, Hk. Qed.

Lemma agree_declare : forall ks h m m' nm nm', agree ks (Seen m nm) (Seen m' nm') ->
  agree ks (Seen (declare h m) nm) (Seen (declare h m') nm').
Proof.
  intros ks h m m' nm nm' H k Hk. destruct (H k Hk) as [H1 H2]. split; [|exact H2]. cbn [s_al] in *.
  unfold declare. destruct (as_alias h) as [a|]; [|exact H1]. cbn. now destruct (String.eqb k (al_dkey a)).
Qed.

Lemma agree_sets : forall ks,
  (forall t m m' nm nm', agree ks (Seen m nm) (Seen m' nm') -> agree ks (Seen (sets t m) nm) (Seen (sets t m') nm'))
  /\ (forall l m m' nm nm', agree ks (Seen m nm) (Seen m' nm') -> agree ks (Seen (sets_l l m) nm) (Seen (sets_l l m') nm')).
Proof.
  intros ks. apply vt_ind'.
  - intros h kids IH m m' nm nm' H. rewrite !sets_V. now apply agree_declare, IH.
  - intros kids IH m m' nm nm' H. rewrite !sets_B. now apply IH.
  - auto.
  - auto.
  - intros t l IHt IHl m m' nm nm' H. cbn [sets_l]. now apply IHl, IHt.
Qed.

Lemma agree_mark : forall ks s s' k0, agree ks s s' ->
  agree ks (Seen (s_al s) (k0 :: s_nm s)) (Seen (s_al s') (k0 :: s_nm s')).
Proof.
  intros ks s s' k0 H k Hk. destruct (H k Hk) as [H1 H2]. split; [exact H1|].
  unfold memk in *. cbn. now rewrite H2.
Qed.

Definition mentions (t : vt) : list key := (keys t ++ dkeys (aliases t))%list.
Definition mentions_l (l : list vt) : list key := (keys_l l ++ dkeys (aliases_l l))%list.

Lemma agree_pp : forall ks,
  (forall t sep s s', incl (mentions t) ks -> agree ks s s' ->
     fst (pp t sep s) = fst (pp t sep s') /\ agree ks (snd (pp t sep s)) (snd (pp t sep s')))
  /\ (forall l sep s s', incl (mentions_l l) ks -> agree ks s s' ->
     fst (pps l sep s) = fst (pps l sep s') /\ agree ks (snd (pps l sep s)) (snd (pps l sep s'))).
Proof.
  intros ks. apply vt_ind'.
  - intros h kids IH sep s s' I A. rewrite !pp_V. unfold pp_el.
    assert (Ik : In (h_key h) ks) by (apply I; unfold mentions; rewrite keys_V; now left).
    assert (Im : incl (mentions_l kids) ks).
    { intros k Hk. apply I. unfold mentions, mentions_l in *. rewrite keys_V, aliases_V. unfold dkeys in *.
      rewrite map_app. apply in_app_or in Hk. apply in_or_app. destruct Hk as [Hk|Hk]; [left; now right|right].
      apply in_or_app. now right. }
    destruct (A _ Ik) as [A1 A2]. rewrite <- A1, <- A2.
    assert (Ab : agree ks (Seen (declare h (sets_l kids (s_al s))) (s_nm s))
                          (Seen (declare h (sets_l kids (s_al s'))) (s_nm s'))).
    { apply agree_declare. apply (proj2 (agree_sets ks)). exact A. }
    destruct (assoc (h_key h) (s_al s)) as [a|]; [split; [reflexivity|exact Ab]|].
    destruct (h_kind h) as [b a|[n|]|dk tx] eqn:EK.
    + destruct (IH (sub_sep h) s s' Im A) as [B1 B2].
      destruct (pps kids (sub_sep h) s) as [[x y] s1], (pps kids (sub_sep h) s') as [[x' y'] s1'].
      cbn in *. inversion B1; subst. now split.
    + destruct (memk (h_key h) (s_nm s)).
      * split; [reflexivity|]. cbn [snd]. 
        apply (agree_mark ks (Seen (sets_l kids (s_al s)) (s_nm s)) (Seen (sets_l kids (s_al s')) (s_nm s'))).
        apply (proj2 (agree_sets ks)). exact A.
      * destruct (IH (sub_sep h) _ _ Im (agree_mark ks s s' (h_key h) A)) as [B1 B2].
        destruct (pps kids (sub_sep h) (Seen (s_al s) _)) as [[x y] s1], (pps kids (sub_sep h) (Seen (s_al s') _)) as [[x' y'] s1'].
        cbn in *. inversion B1; subst. now split.
    + destruct (IH (sub_sep h) s s' Im A) as [B1 B2].
      destruct (pps kids (sub_sep h) s) as [[x y] s1], (pps kids (sub_sep h) s') as [[x' y'] s1'].
      cbn in *. inversion B1; subst. now split.
    + assert (Id : In dk ks).
      { apply I. unfold mentions. rewrite aliases_V. unfold own_alias, as_alias. rewrite EK. unfold dkeys. rewrite map_app.
        apply in_or_app. right. now left. }
      destruct (A _ Id) as [A3 _]. rewrite <- A3. destruct (assoc dk (s_al s)); [split; [reflexivity|exact Ab]|].
      destruct (IH (sub_sep h) s s' Im A) as [B1 B2].
      destruct (pps kids (sub_sep h) s) as [[x y] s1], (pps kids (sub_sep h) s') as [[x' y'] s1'].
      cbn in *. inversion B1; subst. split; [reflexivity|]. apply agree_declare. exact B2.
  - intros kids IH sep s s' I A. rewrite !pp_B. now apply IH.
  - intros x sep s s' I A. now split.
  - intros sep s s' I A. now split.
  - intros t l IHt IHl sep s s' I A. cbn [pps].
    assert (It : incl (mentions t) ks).
    { intros k Hk. apply I. unfold mentions, mentions_l, dkeys in *. cbn [keys_l aliases_l]. rewrite map_app.
      rewrite !in_app_iff in *. tauto. }
    assert (Il : incl (mentions_l l) ks).
    { intros k Hk. apply I. unfold mentions, mentions_l, dkeys in *. cbn [keys_l aliases_l]. rewrite map_app.
      rewrite !in_app_iff in *. tauto. }
    destruct (IHt sep s s' It A) as [B1 B2].
    destruct (pp t sep s) as [[x sep1] s1], (pp t sep s') as [[x' sep1'] s1']. cbn in B1, B2. inversion B1; subst.
    destruct (IHl sep1' s1 s1' Il B2) as [C1 C2].
    destruct (pps l sep1' s1) as [[y sep2] s2], (pps l sep1' s1') as [[y' sep2'] s2']. cbn in *. inversion C1; subst. now split.
Qed.

(** The named nodes of a tree. *)
Fixpoint named (t : vt) : list key :=
  match t with
  | V h kids =>
      (match h_kind h with KNode (Some _) => [h_key h] | _ => [] end
       ++ (fix go l := match l with [] => [] | x :: l' => named x ++ go l' end) kids)%list
  | B kids => (fix go l := match l with [] => [] | x :: l' => (named x ++ go l')%list end) kids
  | T _ => []
  end.
Fixpoint named_l (l : list vt) : list key := match l with [] => [] | x :: l' => (named x ++ named_l l')%list end.

Lemma named_V : forall h kids, named (V h kids) =
  (match h_kind h with KNode (Some _) => [h_key h] | _ => [] end ++ named_l kids)%list.
Proof. reflexivity. Qed.
Lemma named_B : forall kids, named (B kids) = named_l kids.
Proof. reflexivity. Qed.

Lemma pp_named : forall k,
  (forall t sep s, ~ In k (named t) -> memk k (s_nm (snd (pp t sep s))) = memk k (s_nm s))
  /\ (forall l sep s, ~ In k (named_l l) -> memk k (s_nm (snd (pps l sep s))) = memk k (s_nm s)).
Proof.
  intros k. apply vt_ind'.
  - intros h kids IH sep s H. rewrite pp_V. rewrite named_V, in_app_iff in H. unfold pp_el.
    destruct (assoc (h_key h) (s_al s)); [reflexivity|].
    destruct (h_kind h) as [b a|[n|]|dk tx].
    + specialize (IH (sub_sep h) s ltac:(tauto)). destruct (pps kids (sub_sep h) s) as [[x y] s1]. exact IH.
    + assert (Hk : String.eqb k (h_key h) = false) by (apply String.eqb_neq; intros ->; apply H; left; now left).
      destruct (memk (h_key h) (s_nm s)); [cbn; now rewrite Hk|].
      specialize (IH (sub_sep h) (Seen (s_al s) (h_key h :: s_nm s)) ltac:(tauto)).
      destruct (pps kids (sub_sep h) _) as [[x y] s1]. cbn in IH |- *. now rewrite Hk in IH.
    + specialize (IH (sub_sep h) s ltac:(tauto)). destruct (pps kids (sub_sep h) s) as [[x y] s1]. exact IH.
    + destruct (assoc dk (s_al s)); [reflexivity|].
      specialize (IH (sub_sep h) s ltac:(tauto)). destruct (pps kids (sub_sep h) s) as [[x y] s1]. exact IH.
  - intros kids IH sep s H. rewrite pp_B. now apply IH.
  - reflexivity.
  - reflexivity.
  - intros t l IHt IHl sep s H. cbn [pps named_l] in *. rewrite in_app_iff in H.
    specialize (IHt sep s ltac:(tauto)). destruct (pp t sep s) as [[x sep1] s1].
    specialize (IHl sep1 s1 ltac:(tauto)). destruct (pps l sep1 s1) as [[y sep2] s2]. cbn in *. congruence.
Qed.

(** The renderer a caller is left with after rendering [ts] in turn. *)
Definition after {err} (ts : list vt) : rst :=
  fold_left (fun r t => snd (render (err:=err) (SOk t) r)) ts new_renderer.

Lemma wk_l_app : forall als anc open a b, wk_l als anc open (a ++ b) = (wk_l als anc open a && wk_l als anc open b)%bool.
Proof. intros. induction a as [|x a IH]; [reflexivity|]. cbn. now rewrite IH, andb_assoc. Qed.

(** One more render by a renderer between two statements. *)
Lemma render_next : forall als t r, one_delegate als -> wk als [] [] t = true -> incl (aliases t) als ->
  ready als [] [] r -> r_level r = 0%Z -> r_alstack r = [] -> r_stack r = [] -> r_out r = "" ->
  (forall l, get_sep l (r_seps r) = None) ->
  let '(txt, _, s) := pp t None (seen_of r) in
  r_out (accept t r) = txt
  /\ let r' := snd (render (err:=unit) (SOk t) r) in
     ready als [] [] r' /\ r_level r' = 0%Z /\ r_alstack r' = [] /\ r_stack r' = [] /\ r_out r' = ""
     /\ (forall l, get_sep l (r_seps r') = None) /\ seen_of r' = s.
Proof.
  intros als t r O W I R L0 A0 S0 Out0 Sep0.
  pose proof (proj1 (accept_pp als O) t [] [] r W I R) as P. rewrite L0 in P. rewrite Sep0 in P.
  pose proof (proj1 pp_none t (seen_of r)) as N.
  destruct (pp t None (seen_of r)) as [[txt sep] s] eqn:E. cbn in N. subst sep.
  destruct P as [P1 P2 P3 P4 P5 P6 P7 P8 P9]. split; [rewrite P1, Out0; reflexivity|].
  cbn [render snd]. rewrite L0 in *.
  assert (SN : forall l, get_sep l (r_seps (accept t r)) = None).
  { intros l. destruct (Z.eq_dec l (0 + 1)%Z) as [->|D]; [exact P8|]. rewrite P9 by exact D. apply Sep0. }
  split; [split; cbn|].
  - apply R.
  - apply R.
  - apply R.
  - intros k [].
  - apply R.
  - rewrite P2. refine (pp_map_ok als t None (seen_of r) txt None s I _ E). exact (rd_map _ _ _ _ R).
  - intros l _. apply SN.
  - cbn. rewrite A0, S0. repeat split; auto. unfold seen_of. cbn. rewrite P2, P3. now destruct s.
Qed.

Lemma after_pps : forall als, one_delegate als -> forall ts r, wk_l als [] [] ts = true -> incl (aliases_l ts) als ->
  ready als [] [] r -> r_level r = 0%Z -> r_alstack r = [] -> r_stack r = [] -> r_out r = "" ->
  (forall l, get_sep l (r_seps r) = None) ->
  let r' := fold_left (fun r t => snd (render (err:=unit) (SOk t) r)) ts r in
     ready als [] [] r' /\ r_level r' = 0%Z /\ r_alstack r' = [] /\ r_stack r' = [] /\ r_out r' = ""
     /\ (forall l, get_sep l (r_seps r') = None) /\ seen_of r' = snd (pps ts None (seen_of r)).
Proof.
  intros als O ts. induction ts as [|t ts IH]; intros r W I R L0 A0 S0 Out0 Sep0.
  - cbn. repeat (split; [assumption|]). reflexivity.
  - cbn [wk_l aliases_l] in *. apply andb_true_iff in W. destruct W as [W1 W2].
    apply incl_app_inv in I. destruct I as [I1 I2].
    pose proof (render_next als t r O W1 I1 R L0 A0 S0 Out0 Sep0) as P.
    pose proof (proj1 pp_none t (seen_of r)) as N.
    cbn [pps fold_left]. destruct (pp t None (seen_of r)) as [[txt sep] s] eqn:E. cbn in N. subst sep.
    destruct P as [_ [R' [L' [A' [S' [O' [Sep' Seen']]]]]]].
    specialize (IH _ W2 I2 R' L' A' S' O' Sep'). cbn zeta in IH. rewrite Seen' in IH.
    destruct (pps ts None s) as [[y sep2] s2]. exact IH.
Qed.

(** ** One more element after a sequence *)

Lemma wk_mono : forall als,
  (forall t anc open anc' open', wk als anc open t = true -> incl anc' anc -> incl open' open -> wk als anc' open' t = true)
  /\ (forall l anc open anc' open', wk_l als anc open l = true -> incl anc' anc -> incl open' open ->
        wk_l als anc' open' l = true).
Proof.
  intros als.
  assert (M : forall k a b, incl b a -> memk k a = false -> memk k b = false).
  { intros k a b I H. apply memk_notIn. apply memk_notIn in H. intros X. apply H, I, X. }
  apply vt_ind'.
  - intros h kids IH anc open anc' open' H I J. rewrite wk_V in *.
    repeat rewrite andb_true_iff in H. destruct H as [[[[H1 H2] H3] H4] H5].
    rewrite H1, H3. cbn [andb].
    assert (H2' : negb (memk (h_key h) (dkeys als) && memk (h_key h) anc') = true).
    { apply negb_true_iff. apply negb_true_iff in H2. apply andb_false_iff in H2. apply andb_false_iff.
      destruct H2 as [H2|H2]; [now left|right; now apply (M _ anc)]. }
    rewrite H2'. cbn [andb].
    assert (Ia : incl (h_key h :: anc') (h_key h :: anc)).
    { intros x [<-|Hx]; [now left|right; now apply I]. }
    destruct (h_kind h) as [b a|n|dk tx].
    + cbn [andb]. eapply IH; eassumption.
    + cbn [andb]. eapply IH; eassumption.
    + repeat rewrite andb_true_iff in H4. destruct H4 as [[[[[[A1 A2] A3] A4] A5] A6] A7].
      apply negb_true_iff in A3, A4, A5.
      rewrite A1, A2, A6, A7, (M _ anc anc' I A3), (M _ _ _ Ia A4), (M _ _ _ J A5). cbn [negb andb].
      eapply IH; [eassumption|exact Ia|]. intros x [<-|Hx]; [now left|right; now apply J].
  - intros kids IH anc open anc' open' H I J. rewrite wk_B in *. eapply IH; eassumption.
  - reflexivity.
  - reflexivity.
  - intros t l IHt IHl anc open anc' open' H I J. cbn [wk_l] in *. apply andb_true_iff in H. destruct H as [H1 H2].
    apply andb_true_iff. split; [eapply IHt|eapply IHl]; eassumption.
Qed.

(** The text after a sequence [ts] of elements, and what one more adds. *)
Lemma accepts_app : forall a b r, accepts (a ++ b) r = accepts b (accepts a r).
Proof. induction a as [|x a IH]; intros; [reflexivity|]. cbn. apply IH. Qed.

Lemma next_element : forall ts us, well_keyed (B (ts ++ us)) = true ->
  let s := snd (pps ts None none_seen) in
  let r := accept (B ts) new_renderer in
  map_ok (aliases_l (ts ++ us)) (s_al s) /\ seen_of r = s
  /\ (forall vs, wk_l (aliases_l (ts ++ us)) [] [] vs = true -> incl (aliases_l vs) (aliases_l (ts ++ us)) ->
        r_out (accept (B vs) r) = r_out r ++ fst (fst (pps vs None s))).
Proof.
  intros ts us H. destruct (well_keyed_spec _ H) as [O W]. rewrite wk_B, wk_l_app in W. rewrite aliases_B in O, W.
  apply andb_true_iff in W. destruct W as [W1 W2]. cbn zeta. set (als := aliases_l (ts ++ us)) in *.
  assert (I1 : incl (aliases_l ts) als) by (unfold als; rewrite aliases_app; now apply incl_appl).
  rewrite accept_B.
  pose proof (proj2 (accept_pp als O) ts [] [] new_renderer W1 I1 (new_ready als)) as P.
  change (get_sep (r_level new_renderer + 1)%Z (r_seps new_renderer)) with (@None string) in P.
  change (seen_of new_renderer) with none_seen in P.
  pose proof (proj2 (pp_ok als) ts None none_seen I1 ltac:(intros k a [])) as MO.
  pose proof (pps_none ts none_seen) as N.
  destruct (pps ts None none_seen) as [[txt sep] s]. cbn [fst snd] in *. subst sep.
  destruct P as [P1 P2 P3 P4 P5 P6 P7 P8 P9]. cbn [r_level r_out r_stack r_alstack new_renderer] in *.
  assert (SO : seen_of (accepts ts new_renderer) = s) by (unfold seen_of; rewrite P2, P3; now destruct s).
  split; [exact MO|]. split; [exact SO|].
  intros vs Wv Iv. rewrite accept_B.
  assert (R : ready als [] [] (accepts ts new_renderer)).
  { split.
    - exact P7.
    - rewrite P4. apply incl_nil_l.
    - rewrite P5. intros a [].
    - intros k [].
    - rewrite P5. apply incl_nil_l.
    - rewrite P2. exact MO.
    - rewrite P6. intros l Hl. rewrite P9 by lia. reflexivity. }
  pose proof (proj2 (accept_pp als O) vs [] [] _ Wv Iv R) as Q. rewrite P6, P8, SO in Q.
  destruct (pps vs None s) as [[x sep] s1]. apply Q.
Qed.

(** ** Named nodes and aliased expressions in a sequence *)

Definition node (k : key) (n : string) (kids : list vt) : vt := V (Head k false (KNode (Some n))) kids.
Definition aliased (k dk : key) (a : string) (t : vt) : vt := V (Head k false (KAlias dk a)) [t].

(** [t] writes the named node [k] in full: it contains it, not inside another
    named node. *)
Fixpoint shows (k : key) (t : vt) : bool :=
  match t with
  | V h kids =>
      match h_kind h with
      | KNode (Some _) => String.eqb k (h_key h)
      | _ => (fix go l := match l with [] => false | x :: l' => shows k x || go l' end) kids
      end
  | B kids => (fix go l := match l with [] => false | x :: l' => shows k x || go l' end) kids
  | T _ => false
  end.
Fixpoint shows_l (k : key) (l : list vt) : bool :=
  match l with [] => false | x :: l' => (shows k x || shows_l k l')%bool end.

Lemma shows_V : forall k h kids, shows k (V h kids) =
  match h_kind h with KNode (Some _) => String.eqb k (h_key h) | _ => shows_l k kids end.
Proof.
  intros. cbn [shows]. destruct (h_kind h) as [|[|]|]; try reflexivity;
    (induction kids as [|x l IH]; [reflexivity|]; cbn [shows_l]; now rewrite IH).
Qed.
Lemma shows_B : forall k kids, shows k (B kids) = shows_l k kids.
Proof. intros. cbn [shows]. induction kids as [|x l IH]; [reflexivity|]; cbn [shows_l]; now rewrite IH. Qed.

Lemma pp_mono : forall k,
  (forall t sep s, memk k (s_nm s) = true -> memk k (s_nm (snd (pp t sep s))) = true)
  /\ (forall l sep s, memk k (s_nm s) = true -> memk k (s_nm (snd (pps l sep s))) = true).
Proof.
  intros k. apply vt_ind'.
  - intros h kids IH sep s H. rewrite pp_V. unfold pp_el.
    destruct (assoc (h_key h) (s_al s)); [exact H|].
    destruct (h_kind h) as [b a|[n|]|dk tx].
    + specialize (IH (sub_sep h) s H). destruct (pps kids (sub_sep h) s) as [[x y] s1]. exact IH.
    + assert (H' : memk k (h_key h :: s_nm s) = true) by (unfold memk in *; cbn; rewrite H; apply orb_true_r).
      destruct (memk (h_key h) (s_nm s)); [exact H'|].
      specialize (IH (sub_sep h) (Seen (s_al s) (h_key h :: s_nm s)) H').
      destruct (pps kids (sub_sep h) _) as [[x y] s1]. exact IH.
    + specialize (IH (sub_sep h) s H). destruct (pps kids (sub_sep h) s) as [[x y] s1]. exact IH.
    + destruct (assoc dk (s_al s)); [exact H|].
      specialize (IH (sub_sep h) s H). destruct (pps kids (sub_sep h) s) as [[x y] s1]. exact IH.
  - intros kids IH sep s H. rewrite pp_B. now apply IH.
  - auto.
  - auto.
  - intros t l IHt IHl sep s H. cbn [pps].
    specialize (IHt sep s H). destruct (pp t sep s) as [[x sep1] s1].
    specialize (IHl sep1 s1 IHt). destruct (pps l sep1 s1) as [[y sep2] s2]. exact IHl.
Qed.

Lemma pp_shows : forall k,
  (forall t sep s, aliases t = [] -> s_al s = [] -> shows k t = true ->
     memk k (s_nm (snd (pp t sep s))) = true)
  /\ (forall l sep s, aliases_l l = [] -> s_al s = [] -> shows_l k l = true ->
     memk k (s_nm (snd (pps l sep s))) = true).
Proof.
  intros k. apply vt_ind'.
  - intros h kids IH sep s HA HS H. rewrite pp_V. rewrite aliases_V in HA. apply app_eq_nil in HA. destruct HA as [HA0 HA].
    rewrite shows_V in H. unfold pp_el. rewrite HS. cbn [assoc].
    destruct (h_kind h) as [b a|[n|]|dk tx] eqn:EK.
    + specialize (IH (sub_sep h) s HA HS H). destruct (pps kids (sub_sep h) s) as [[x y] s1]. exact IH.
    + assert (H' : memk k (h_key h :: s_nm s) = true) by (unfold memk; cbn; rewrite H; reflexivity).
      destruct (memk (h_key h) (s_nm s)); [exact H'|].
      pose proof (proj2 (pp_mono k) kids (sub_sep h) (Seen [] (h_key h :: s_nm s)) H') as P.
      destruct (pps kids (sub_sep h) _) as [[x y] s1]. exact P.
    + specialize (IH (sub_sep h) s HA HS H). destruct (pps kids (sub_sep h) s) as [[x y] s1]. exact IH.
    + unfold own_alias, as_alias in HA0. rewrite EK in HA0. discriminate.
  - intros kids IH sep s HA HS H. rewrite pp_B. rewrite shows_B in H. now apply IH.
  - intros x sep s HA HS H. discriminate.
  - intros sep s HA HS H. discriminate.
  - intros t l IHt IHl sep s HA HS H. cbn [pps aliases_l shows_l] in *. apply app_eq_nil in HA. destruct HA as [HA1 HA2].
    assert (HS1 : s_al (snd (pp t sep s)) = []).
    { pose proof (proj1 (pp_ok []) t sep s) as P. rewrite HA1, HS in P.
      specialize (P (incl_refl _) ltac:(intros x y [])).
      destruct (s_al (snd (pp t sep s))) as [|[x y] m]; [reflexivity|]. destruct (P x y (or_introl eq_refl)) as [_ []]. }
    pose proof (proj1 (pp_mono k) t sep s) as _.
    destruct (shows k t) eqn:Et.
    + specialize (IHt sep s HA1 HS eq_refl). destruct (pp t sep s) as [[x sep1] s1].
      pose proof (proj2 (pp_mono k) l sep1 s1 IHt) as P. destruct (pps l sep1 s1) as [[y sep2] s2]. exact P.
    + destruct (pp t sep s) as [[x sep1] s1]. specialize (IHl sep1 s1 HA2 HS1 H).
      destruct (pps l sep1 s1) as [[y sep2] s2]. exact IHl.
Qed.

Lemma last_wk : forall ts t, well_keyed (B (ts ++ [t])) = true ->
  wk (aliases_l (ts ++ [t])) [] [] t = true /\ incl (aliases t) (aliases_l (ts ++ [t])).
Proof.
  intros ts t H. destruct (well_keyed_spec _ H) as [O W]. rewrite wk_B, wk_l_app in W.
  rewrite aliases_B in W. apply andb_true_iff in W. destruct W as [_ W]. cbn [wk_l] in W. rewrite andb_true_r in W.
  split; [exact W|]. rewrite aliases_app. cbn [aliases_l]. rewrite app_nil_r. apply incl_appr, incl_refl.
Qed.

Lemma append_one : forall ts t, well_keyed (B (ts ++ [t])) = true ->
  r_out (accept (B (ts ++ [t])) new_renderer) =
  r_out (accept (B ts) new_renderer) ++ fst (fst (pp t None (snd (pps ts None none_seen)))).
Proof.
  intros ts t H. destruct (next_element ts [t] H) as [_ [_ N]]. destruct (last_wk ts t H) as [W I].
  specialize (N [t]). cbn [wk_l aliases_l] in N. rewrite W, app_nil_r in N. specialize (N eq_refl I).
  rewrite !accept_B, accepts_app in *. rewrite N. cbn [pps].
  destruct (pp t None (snd (pps ts None none_seen))) as [[x sep] s]. cbn. now rewrite sapp_nil_r.
Qed.

Lemma s_al_frame : forall ts k, ~ In k (dkeys (aliases_l ts)) ->
  assoc k (s_al (snd (pps ts None none_seen))) = None.
Proof. intros ts k H. rewrite (proj2 (pp_frame k) ts None none_seen H). reflexivity. Qed.

Theorem named_node_first : forall ts k n kids,
  well_keyed (B (ts ++ [node k n kids])) = true ->
  ~ In k (named_l ts) -> ~ In k (dkeys (aliases_l (ts ++ [node k n kids]))) ->
  exists inner,
    r_out (accept (B (ts ++ [node k n kids])) new_renderer) = r_out (accept (B ts) new_renderer) ++ "(" ++ inner ++ ")"
    /\ r_out (accept (B kids) (accept (B ts) new_renderer)) = r_out (accept (B ts) new_renderer) ++ inner.
Proof.
  intros ts k n kids H Hn Hd. rewrite (append_one ts _ H). set (s := snd (pps ts None none_seen)).
  assert (Hd2 : forall l, incl l (aliases_l (ts ++ [node k n kids])) -> ~ In k (dkeys l)).
  { intros l I X. apply Hd. unfold dkeys in *. apply in_map_iff in X. destruct X as [a [<- Ha]].
    apply in_map. now apply I. }
  assert (Ia : incl (aliases_l ts) (aliases_l (ts ++ [node k n kids]))) by (rewrite aliases_app; apply incl_appl, incl_refl).
  assert (Ik : incl (aliases_l kids) (aliases_l (ts ++ [node k n kids]))).
  { rewrite aliases_app. apply incl_appr. cbn [aliases_l]. rewrite app_nil_r. unfold node. rewrite aliases_V. apply incl_refl. }
  assert (Ek : assoc k (s_al s) = None) by (apply s_al_frame; apply Hd2, Ia).
  assert (En : memk k (s_nm s) = false) by (unfold s; rewrite (proj2 (pp_named k) ts None none_seen Hn); reflexivity).
  destruct (last_wk ts _ H) as [W _]. unfold node in W at 2. rewrite wk_V in W. cbn [h_key h_kind] in W.
  repeat rewrite andb_true_iff in W. destruct W as [[[[_ _] W3] _] W5].
  destruct (next_element ts _ H) as [_ [_ N]].
  specialize (N kids (proj2 (wk_mono _) kids _ _ [] [] W5 (incl_nil_l _) (incl_refl _)) Ik). fold s in N.
  unfold named_ok in W3. cbn [h_kind h_key] in W3. apply negb_true_iff, memk_notIn in W3.
  assert (A : agree (mentions_l kids) (Seen (s_al s) (k :: s_nm s)) s).
  { intros x Hx. split; [reflexivity|]. unfold memk. cbn. destruct (String.eqb_spec x k) as [->|]; [|reflexivity].
    exfalso. unfold mentions_l in Hx. apply in_app_or in Hx. destruct Hx as [Hx|Hx]; [contradiction|]. exact (Hd2 _ Ik Hx). }
  destruct (proj2 (agree_pp (mentions_l kids)) kids None _ _ (incl_refl _) A) as [B1 _].
  exists (fst (fst (pps kids None s))). split; [|exact N].
  f_equal. unfold node. rewrite pp_V. unfold pp_el. cbn [h_key h_kind sub_sep h_sub]. rewrite Ek, En.
  change (sub_sep (Head k false (KNode (Some n)))) with (@None string).
  destruct (pps kids None (Seen (s_al s) (k :: s_nm s))) as [[x y] s1], (pps kids None s) as [[x' y'] s1'].
  cbn in *. inversion B1. reflexivity.
Qed.

Theorem named_node_again : forall ts k n kids,
  well_keyed (B (ts ++ [node k n kids])) = true ->
  aliases_l ts = [] -> shows_l k ts = true -> has_append (B kids) = false ->
  r_out (accept (B (ts ++ [node k n kids])) new_renderer) = r_out (accept (B ts) new_renderer) ++ "(" ++ n ++ ")".
Proof.
  intros ts k n kids H HA HS HL. rewrite (append_one ts _ H). set (s := snd (pps ts None none_seen)).
  assert (Ek : assoc k (s_al s) = None) by (apply s_al_frame; rewrite HA; intros []).
  assert (En : memk k (s_nm s) = true) by (exact (proj2 (pp_shows k) ts None none_seen HA eq_refl HS)).
  f_equal. unfold node. rewrite pp_V. unfold pp_el. cbn [h_key h_kind]. rewrite Ek, En.
  pose proof (proj1 no_append_leaks (B kids) HL) as L. rewrite leaks_B in L. rewrite L. reflexivity.
Qed.

Theorem alias_first : forall ts k dk a t,
  well_keyed (B (ts ++ [aliased k dk a t])) = true ->
  ~ In dk (dkeys (aliases_l ts)) -> ~ In k (dkeys (aliases_l ts)) ->
  exists inner,
    r_out (accept (B (ts ++ [aliased k dk a t])) new_renderer)
      = r_out (accept (B ts) new_renderer) ++ inner ++ " AS " ++ a
    /\ r_out (accept t (accept (B ts) new_renderer)) = r_out (accept (B ts) new_renderer) ++ inner.
Proof.
  intros ts k dk a t H Hd Hk. rewrite (append_one ts _ H). set (s := snd (pps ts None none_seen)).
  assert (Ek : assoc k (s_al s) = None) by (now apply s_al_frame).
  assert (Ed : assoc dk (s_al s) = None) by (now apply s_al_frame).
  destruct (last_wk ts _ H) as [W I]. unfold aliased in W at 2. rewrite wk_V in W. cbn [h_key h_kind] in W.
  repeat rewrite andb_true_iff in W. destruct W as [_ W5].
  unfold aliased in I at 1. rewrite aliases_V in I. apply incl_app_inv in I. destruct I as [_ I].
  destruct (next_element ts _ H) as [_ [_ N]].
  specialize (N [t] (proj2 (wk_mono _) [t] _ _ [] [] W5 (incl_nil_l _) (incl_nil_l _)) I). fold s in N.
  exists (fst (fst (pps [t] None s))). split; [|exact N].
  f_equal. unfold aliased. rewrite pp_V. unfold pp_el. cbn [h_key h_kind]. rewrite Ek, Ed.
  change (sub_sep (Head k false (KAlias dk a))) with (@None string).
  destruct (pps [t] None s) as [[x y] s1]. reflexivity.
Qed.

(** After an aliased expression has been written its alias is known. *)
Lemma alias_known : forall ts k dk a t us, ~ In dk (dkeys (aliases_l us)) ->
  assoc dk (s_al (snd (pps (ts ++ aliased k dk a t :: us) None none_seen))) = Some (Alias k dk a).
Proof.
  intros ts k dk a t us Hu. rewrite pps_app. pose proof (pps_none ts none_seen) as N.
  destruct (pps ts None none_seen) as [[x sep] s1]. cbn in N. subst sep. cbn [pps].
  assert (K : assoc dk (s_al (snd (pp (aliased k dk a t) None s1))) = Some (Alias k dk a)).
  { unfold aliased. rewrite pp_V. unfold pp_el. cbn [h_key h_kind].
    assert (D : forall m, assoc dk (declare (Head k false (KAlias dk a)) m) = Some (Alias k dk a))
      by (intros m; unfold declare; cbn; now rewrite String.eqb_refl).
    destruct (assoc k (s_al s1)); [apply D|]. destruct (assoc dk (s_al s1)); [apply D|].
    destruct (pps [t] _ s1) as [[y z] s2]. apply D. }
  pose proof (proj1 pp_none (aliased k dk a t) s1) as N.
  destruct (pp (aliased k dk a t) None s1) as [[y sep] s2]. cbn in N, K. subst sep.
  pose proof (proj2 (pp_frame dk) us None s2 Hu) as F. destruct (pps us None s2) as [[z sep] s3]. cbn in *. congruence.
Qed.

Theorem alias_for_expression : forall ts k dk a t us h kids,
  let pre := (ts ++ aliased k dk a t :: us)%list in
  well_keyed (B (pre ++ [V h kids])) = true -> ~ In dk (dkeys (aliases_l us)) ->
  h_key h = dk -> has_append (B kids) = false ->
  r_out (accept (B (pre ++ [V h kids])) new_renderer) = r_out (accept (B pre) new_renderer) ++ a.
Proof.
  intros ts k dk a t us h kids pre H Hu Hk HL. rewrite (append_one pre _ H). f_equal.
  pose proof (alias_known ts k dk a t us Hu) as K. fold pre in K.
  rewrite pp_V. unfold pp_el. rewrite Hk, K. cbn.
  pose proof (proj1 no_append_leaks (B kids) HL) as L. rewrite leaks_B in L. rewrite L. apply sapp_nil_r.
Qed.

Theorem alias_for_alias : forall ts k dk a t us b t',
  let pre := (ts ++ aliased k dk a t :: us)%list in
  well_keyed (B (pre ++ [aliased k dk b t'])) = true -> ~ In dk (dkeys (aliases_l us)) ->
  ~ In k (dkeys (aliases_l pre)) -> has_append t' = false ->
  r_out (accept (B (pre ++ [aliased k dk b t'])) new_renderer) = r_out (accept (B pre) new_renderer) ++ b.
Proof.
  intros ts k dk a t us b t' pre H Hu Hk HL. rewrite (append_one pre _ H). f_equal.
  pose proof (alias_known ts k dk a t us Hu) as K. fold pre in K.
  unfold aliased. rewrite pp_V. unfold pp_el. cbn [h_key h_kind]. rewrite (s_al_frame pre k Hk), K. cbn.
  rewrite (proj1 no_append_leaks t' HL). cbn. apply sapp_nil_r.
Qed.

(** ** Reuse *)

Theorem render_reused : forall ts t, well_keyed (B (ts ++ [t])) = true ->
  (forall k, In k (mentions t) -> ~ In k (named_l ts) /\ ~ In k (dkeys (aliases_l ts))) ->
  r_out (accept t (after (err:=unit) ts)) = r_out (accept t new_renderer).
Proof.
  intros ts t H D. destruct (well_keyed_spec _ H) as [O W]. rewrite wk_B, wk_l_app, aliases_B in W. rewrite aliases_B in O.
  apply andb_true_iff in W. destruct W as [W1 W2]. cbn [wk_l] in W2. rewrite andb_true_r in W2.
  set (als := aliases_l (ts ++ [t])) in *.
  assert (I1 : incl (aliases_l ts) als) by (unfold als; rewrite aliases_app; apply incl_appl, incl_refl).
  assert (I2 : incl (aliases t) als) by (unfold als; rewrite aliases_app; apply incl_appr; cbn; rewrite app_nil_r; apply incl_refl).
  pose proof (after_pps als O ts new_renderer W1 I1 (new_ready als) eq_refl eq_refl eq_refl eq_refl (fun _ => eq_refl)) as A.
  cbn zeta in A. fold (after (err:=unit) ts) in A. destruct A as [R [L0 [A0 [S0 [O0 [Sep0 Se]]]]]].
  pose proof (render_next als t _ O W2 I2 R L0 A0 S0 O0 Sep0) as X.
  pose proof (render_next als t new_renderer O W2 I2 (new_ready als) eq_refl eq_refl eq_refl eq_refl (fun _ => eq_refl)) as Y.
  change (seen_of new_renderer) with none_seen in *. rewrite Se in X.
  assert (G : agree (mentions t) (snd (pps ts None none_seen)) none_seen).
  { intros k Hk. destruct (D k Hk) as [D1 D2]. split; [now apply s_al_frame|]. apply (proj2 (pp_named k)). exact D1. }
  destruct (proj1 (agree_pp (mentions t)) t None _ _ (incl_refl _) G) as [B1 _].
  destruct (pp t None (snd (pps ts None none_seen))) as [[x y] s1], (pp t None none_seen) as [[x' y'] s1'].
  destruct X as [X _], Y as [Y _]. rewrite X, Y. cbn in B1. congruence.
Qed.

(** ** Documents *)

Section DocInd.
  Context (P : doc -> Prop) (Q : list doc -> Prop).
  Context (H1 : forall s, P (Txt s)) (H2 : forall l, Q l -> P (Cat l)) (H3 : forall l, Q l -> P (Commas l))
    (H4 : forall k d, P d -> P (Shared k d)) (H5 : forall k n d, P d -> P (Once k n d))
    (H6 : forall k n d, P d -> P (Aliased k n d)) (H7 : Q []) (H8 : forall d l, P d -> Q l -> Q (d :: l)).
  Fixpoint doc_ind' (d : doc) : P d :=
    let go := fix go l : Q l := match l with [] => H7 | x :: l' => H8 x l' (doc_ind' x) (go l') end in
    match d with
    | Txt s => H1 s
    | Cat l => H2 l (go l)
    | Commas l => H3 l (go l)
    | Shared k d => H4 k d (doc_ind' d)
    | Once k n d => H5 k n d (doc_ind' d)
    | Aliased k n d => H6 k n d (doc_ind' d)
    end.
End DocInd.

Lemma introduce_all_written : forall d m, written (introduce_all d m) = written m.
Proof.
  apply (doc_ind' (fun d => forall m, written (introduce_all d m) = written m)
                  (fun l => forall m, written (intros_l l m) = written m)); try reflexivity.
  - intros l IH m. rewrite intro_Cat. apply IH.
  - intros l IH m. rewrite intro_Commas. apply IH.
  - intros k d IH m. apply IH.
  - intros k n d IH m. apply IH.
  - intros k n d IH m. cbn. apply IH.
  - intros d l IH IHl m. cbn [intros_l]. now rewrite IHl.
Qed.

Lemma write_keeps_written : forall k d m, existsb (String.eqb k) (written m) = true ->
  existsb (String.eqb k) (written (snd (write d m))) = true.
Proof.
  intros k.
  apply (doc_ind' (fun d => forall m, existsb (String.eqb k) (written m) = true -> existsb (String.eqb k) (written (snd (write d m))) = true)
                  (fun l => forall m, existsb (String.eqb k) (written m) = true ->
                     existsb (String.eqb k) (written (snd (wcat l m))) = true
                     /\ existsb (String.eqb k) (written (snd (wrest l m))) = true)).
  - auto.
  - intros l IH m H. rewrite write_Cat. now apply IH.
  - intros l IH m H. destruct l as [|d l]; [exact H|]. rewrite write_Commas.
    destruct (IH m H) as [_ I]. cbn [wrest] in I. destruct (write d m) as [x m1]. destruct (wrest l m1) as [y m2]. exact I.
  - intros k0 d IH m H. rewrite write_Shared. destruct (alias_of k0 (introduced m)).
    + cbn [snd]. now rewrite introduce_all_written.
    + now apply IH.
  - intros k0 n d IH m H.
    assert (H' : existsb (String.eqb k) (written (mark k0 m)) = true) by (cbn; rewrite H; apply orb_true_r).
    change (write (Once k0 n d) m) with
      (if existsb (String.eqb k0) (written m)
       then ("(" ++ n ++ ")", introduce_all d (mark k0 m))
       else let (x, m1) := write d (mark k0 m) in ("(" ++ x ++ ")", m1)).
    destruct (existsb (String.eqb k0) (written m)).
    + cbn [snd]. now rewrite introduce_all_written.
    + specialize (IH (mark k0 m) H'). destruct (write d (mark k0 m)). exact IH.
  - intros k0 n d IH m H.
    change (write (Aliased k0 n d) m) with
      (match alias_of k0 (introduced m) with
       | Some _ => (n, introduce k0 n (introduce_all d m))
       | None => let (x, m1) := write d m in (x ++ " AS " ++ n, introduce k0 n m1)
       end).
    destruct (alias_of k0 (introduced m)).
    + cbn [snd introduce written]. now rewrite introduce_all_written.
    + specialize (IH m H). destruct (write d m). exact IH.
  - intros m H. now split.
  - intros d l IHd IHl m H. cbn [wcat wrest]. specialize (IHd m H). destruct (write d m) as [x m1].
    destruct (IHl m1 IHd) as [A B0]. destruct (wcat l m1), (wrest l m1). now split.
Qed.
