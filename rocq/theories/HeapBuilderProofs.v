(** Builder methods on shared memory do what they do on values, as long as they
    append only at the tips of arrays. *)

From Coq Require Import Ascii String List ZArith Bool Arith Lia.
From Verif Require Import GoStr Escape Num VTree Ast GoVal Cond Queries Builder Slices SliceProofs HeapBuilder SpecPersist.
Import ListNotations.
Open Scope list_scope.

Record tips := Tips { gc : list nat; gp : list nat; ga : list nat; gs : list nat }.

Definition okpart (T : list nat) (p : hpart) : Prop := match p with HPart s _ => okslice T s end.

Definition okstore (st : store) (g : tips) : Prop :=
  okheap (s_clauses st) (gc g) /\ okheap (s_parts st) (gp g) /\ okheap (s_actions st) (ga g) /\ okheap (s_sorts st) (gs g)
  /\ below (okpart (gs g)) (s_parts st) (gp g).

Definition extends (st : store) (g : tips) (st' : store) (g' : tips) : Prop :=
  ext (s_clauses st) (gc g) (s_clauses st') (gc g') /\ ext (s_parts st) (gp g) (s_parts st') (gp g')
  /\ ext (s_actions st) (ga g) (s_actions st') (ga g') /\ ext (s_sorts st) (gs g) (s_sorts st') (gs g').

(** The array of actions of an ongoing MERGE. *)
Definition actions (d : hdb) : slice := match h_update d with Some (HMerge _ s) => s | _ => NoCells end.

Definition okdb (g : tips) (d : hdb) : Prop :=
  okslice (gc g) (h_elements d) /\ okslice (gp g) (h_parts d) /\ okslice (ga g) (actions d).
Definition tipdb (g : tips) (d : hdb) : Prop :=
  attip (gc g) (h_elements d) /\ attip (gp g) (h_parts d) /\ attip (ga g) (actions d).
Definition framedb (d : hdb) (g g' : tips) : Prop :=
  frame (h_elements d) (gc g) (gc g') /\ frame (h_parts d) (gp g) (gp g') /\ frame (actions d) (ga g) (ga g').
Definition fromdb (g : tips) (d d' : hdb) : Prop :=
  from (gc g) (h_elements d) (h_elements d') /\ from (gp g) (h_parts d) (h_parts d') /\ from (ga g) (actions d) (actions d').

Lemma frame_any : forall s T T', frame NoCells T T' -> frame s T T'.
Proof. intros s T T' H a Ha _. apply H; [exact Ha|discriminate]. Qed.

Lemma framedb_any : forall d g g', framedb hd_new g g' -> framedb d g g'.
Proof. intros d g g' (A & B & C). repeat split; apply frame_any; assumption. Qed.

Lemma framedb_refl : forall d g, framedb d g g.
Proof. intros. repeat split; apply frame_refl. Qed.

Lemma extends_refl : forall st g, extends st g st g.
Proof. intros. repeat split; auto. Qed.

Lemma extends_trans : forall st g st1 g1 st2 g2, extends st g st1 g1 -> extends st1 g1 st2 g2 -> extends st g st2 g2.
Proof. intros st g st1 g1 st2 g2 (A & B & C & E) (A' & B' & C' & E'). repeat split; eapply ext_trans; eassumption. Qed.

Lemma okdb_ext : forall st g st' g' d, extends st g st' g' -> okdb g d -> okdb g' d.
Proof. intros st g st' g' d (A & B & C & E) (O1 & O2 & O3). repeat split; eapply okslice_ext; eassumption. Qed.

Lemma fromdb_refl : forall g d, fromdb g d d.
Proof. intros. repeat split; apply from_refl. Qed.

Lemma fromdb_trans : forall st g st1 g1 d d1 d2, extends st g st1 g1 -> fromdb g d d1 -> fromdb g1 d1 d2 -> fromdb g d d2.
Proof.
  intros st g st1 g1 d d1 d2 (A & B & C & _) (F1 & F2 & F3) (G1 & G2 & G3).
  repeat split; eapply from_trans; try eassumption; first [apply A|apply B|apply C].
Qed.

Lemma framedb_trans : forall st g st1 g1 g2 d d1, extends st g st1 g1 -> framedb d g g1 -> fromdb g d d1 -> framedb d1 g1 g2 -> framedb d g g2.
Proof.
  intros st g st1 g1 g2 d d1 (A & B & C & _) (F1 & F2 & F3) (G1 & G2 & G3) (H1 & H2 & H3).
  repeat split; eapply frame_trans; try eassumption; first [apply A|apply B|apply C].
Qed.

(** ** What is read does not change *)

Lemma read_in_tip : forall A (h : heap A) T a n p, okheap h T -> n <= tip T a -> In p (firstn n (cells h a)) -> In p (firstn (tip T a) (cells h a)).
Proof.
  intros A h T a n p _ Hn H. rewrite <- (Nat.min_l n (tip T a)) in H by exact Hn. rewrite <- firstn_firstn in H.
  rewrite <- (firstn_skipn n). apply in_or_app. left. exact H.
Qed.

Lemma parts_ok : forall st g s, okstore st g -> okslice (gp g) s -> Forall (okpart (gs g)) (read (s_parts st) s).
Proof.
  intros st g [|a n] (_ & Hp & _ & _ & H) Hok; simpl in *; [constructor|].
  apply Forall_forall. intros p Hin. destruct Hok as [Ha Hn]. apply (H a); [destruct Hp; lia|].
  eapply read_in_tip; eassumption.
Qed.

Lemma part_now_ext : forall st g st' g' p, extends st g st' g' -> okpart (gs g) p -> part_now st' p = part_now st p.
Proof. intros st g st' g' [s f] (_ & _ & _ & E) Hp. simpl in *. rewrite (read_ext _ _ _ _ _ E Hp). reflexivity. Qed.

Lemma parts_now_ext : forall st g st' g' s, okstore st g -> extends st g st' g' -> okslice (gp g) s ->
  map (part_now st') (read (s_parts st') s) = map (part_now st) (read (s_parts st) s).
Proof.
  intros st g st' g' s Hst Hx Hok. pose proof Hx as (_ & Hp & _ & _). rewrite (read_ext _ _ _ _ _ Hp Hok).
  pose proof (parts_ok _ _ _ Hst Hok) as F. induction F; simpl; [reflexivity|].
  rewrite IHF, (part_now_ext _ _ _ _ _ Hx H). reflexivity.
Qed.

Lemma update_now_ext : forall st g st' g' d, extends st g st' g' -> okslice (ga g) (actions d) ->
  option_map (update_now st') (h_update d) = option_map (update_now st) (h_update d).
Proof.
  intros st g st' g' d (_ & _ & E & _) H. unfold actions in H. destruct (h_update d) as [[p|p s|c]|]; simpl in *; auto.
  rewrite (read_ext _ _ _ _ _ E H). reflexivity.
Qed.

Lemma db_now_ext : forall st g st' g' d, okstore st g -> extends st g st' g' -> okdb g d -> db_now st' d = db_now st d.
Proof.
  intros st g st' g' d Hst Hx (O1 & O2 & O3). unfold db_now.
  rewrite (parts_now_ext _ _ _ _ _ Hst Hx O2), (update_now_ext _ _ _ _ _ Hx O3).
  destruct Hx as (E & _). rewrite (read_ext _ _ _ _ _ E O1). reflexivity.
Qed.

Lemma order_now_ext : forall st g st' g' o, extends st g st' g' -> okslice (gs g) (ho_items o) -> order_now st' o = order_now st o.
Proof. intros st g st' g' o (_ & _ & _ & E) H. unfold order_now. rewrite (read_ext _ _ _ _ _ E H). reflexivity. Qed.

Ltac conj := repeat match goal with |- _ /\ _ => split end.

(** ** Appending *)

Section Spec.
Context (grow : nat -> nat -> nat).

Lemma push_clause_ok : forall st g s c st' s', okstore st g -> okslice (gc g) s -> attip (gc g) s ->
  push_clause grow st s c = (st', s') ->
  exists g', okstore st' g' /\ extends st g st' g' /\ frame s (gc g) (gc g') /\ gp g' = gp g /\ ga g' = ga g /\ gs g' = gs g
    /\ from (gc g) s s' /\ okslice (gc g') s' /\ attip (gc g') s' /\ read (s_clauses st') s' = read (s_clauses st) s ++ [c]
    /\ s_parts st' = s_parts st /\ s_actions st' = s_actions st /\ s_sorts st' = s_sorts st /\ s_boxes st' = s_boxes st.
Proof.
  intros st g s c st' s' (H1 & H2 & H3 & H4 & H5) Hok Ht E. unfold push_clause in E.
  destruct (append grow (CBroken false) (s_clauses st) s [c]) as [h s0] eqn:Ea. injection E as <- <-.
  destruct (append_ok _ _ _ _ _ _ _ _ H1 Hok Ht Ea) as (T & A1 & A2 & A3 & A4 & A5 & A6 & A7 & _).
  exists (Tips T (gp g) (ga g) (gs g)). simpl.
  conj; auto; unfold okstore, extends; simpl; conj; auto using ext_refl.
Qed.

Lemma push_part_ok : forall st g s p st' s', okstore st g -> okslice (gp g) s -> attip (gp g) s -> okpart (gs g) p ->
  push_part grow st s p = (st', s') ->
  exists g', okstore st' g' /\ extends st g st' g' /\ frame s (gp g) (gp g') /\ gc g' = gc g /\ ga g' = ga g /\ gs g' = gs g
    /\ from (gp g) s s' /\ okslice (gp g') s' /\ attip (gp g') s' /\ read (s_parts st') s' = read (s_parts st) s ++ [p]
    /\ s_clauses st' = s_clauses st /\ s_actions st' = s_actions st /\ s_sorts st' = s_sorts st /\ s_boxes st' = s_boxes st.
Proof.
  intros st g s p st' s' (H1 & H2 & H3 & H4 & H5) Hok Ht Hp E. unfold push_part in E.
  destruct (append grow (HPart NoCells (fun _ => PBroken)) (s_parts st) s [p]) as [h s0] eqn:Ea. injection E as <- <-.
  destruct (append_ok _ _ _ _ _ _ _ _ H2 Hok Ht Ea) as (T & A1 & A2 & A3 & A4 & A5 & A6 & A7 & _ & A8).
  exists (Tips (gc g) T (ga g) (gs g)). simpl.
  conj; auto; unfold okstore, extends; simpl; conj; auto using ext_refl.
Qed.

Lemma push_action_ok : forall st g s q st' s', okstore st g -> okslice (ga g) s -> attip (ga g) s ->
  push_action grow st s q = (st', s') ->
  exists g', okstore st' g' /\ extends st g st' g' /\ frame s (ga g) (ga g') /\ gc g' = gc g /\ gp g' = gp g /\ gs g' = gs g
    /\ from (ga g) s s' /\ okslice (ga g') s' /\ attip (ga g') s' /\ read (s_actions st') s' = read (s_actions st) s ++ [q]
    /\ s_clauses st' = s_clauses st /\ s_parts st' = s_parts st /\ s_sorts st' = s_sorts st /\ s_boxes st' = s_boxes st.
Proof.
  intros st g s q st' s' (H1 & H2 & H3 & H4 & H5) Hok Ht E. unfold push_action in E.
  destruct (append grow (QBlank "") (s_actions st) s [q]) as [h s0] eqn:Ea. injection E as <- <-.
  destruct (append_ok _ _ _ _ _ _ _ _ H3 Hok Ht Ea) as (T & A1 & A2 & A3 & A4 & A5 & A6 & A7 & _).
  exists (Tips (gc g) (gp g) T (gs g)). simpl.
  conj; auto; unfold okstore, extends; simpl; conj; auto using ext_refl.
Qed.

Lemma below_sorts : forall (h h' : heap sort) T T' (hp : heap hpart) Tp, ext h T h' T' -> below (okpart T) hp Tp -> below (okpart T') hp Tp.
Proof.
  intros h h' T T' hp Tp E H a [s f] Ha Hin. specialize (H _ _ Ha Hin). simpl in *. exact (okslice_ext (A := sort) h T h' T' s E H).
Qed.

Lemma push_sorts_ok : forall st g s l st' s', okstore st g -> okslice (gs g) s -> attip (gs g) s ->
  push_sorts grow st s l = (st', s') ->
  exists g', okstore st' g' /\ extends st g st' g' /\ frame s (gs g) (gs g') /\ gc g' = gc g /\ gp g' = gp g /\ ga g' = ga g
    /\ from (gs g) s s' /\ okslice (gs g') s' /\ attip (gs g') s' /\ read (s_sorts st') s' = read (s_sorts st) s ++ l
    /\ s_clauses st' = s_clauses st /\ s_parts st' = s_parts st /\ s_actions st' = s_actions st /\ s_boxes st' = s_boxes st
    /\ (forall x, l = [x] -> settled (s_sorts st') (gs g') s x).
Proof.
  intros st g s l st' s' (H1 & H2 & H3 & H4 & H5) Hok Ht E. unfold push_sorts in E.
  destruct (append grow SortNil (s_sorts st) s l) as [h s0] eqn:Ea. injection E as <- <-.
  destruct (append_ok _ _ _ _ _ _ _ _ H4 Hok Ht Ea) as (T & A1 & A2 & A3 & A4 & A5 & A6 & A7 & A8 & _).
  exists (Tips (gc g) (gp g) (ga g) T). simpl.
  conj; auto; unfold okstore, extends; simpl; conj; auto using ext_refl. eapply below_sorts; eauto.
Qed.

(** A pending sort item that may have been appended before. *)
Definition flushable (st : store) (g : tips) (s : slice) (x : sort) : Prop :=
  attip (gs g) s \/ settled (s_sorts st) (gs g) s x.

Lemma flush_ok : forall st g s x st' s', okstore st g -> okslice (gs g) s -> flushable st g s x ->
  push_sorts grow st s [x] = (st', s') ->
  exists g', okstore st' g' /\ extends st g st' g' /\ frame s (gs g) (gs g') /\ gc g' = gc g /\ gp g' = gp g /\ ga g' = ga g
    /\ okslice (gs g') s' /\ read (s_sorts st') s' = read (s_sorts st) s ++ [x]
    /\ s_clauses st' = s_clauses st /\ s_parts st' = s_parts st /\ s_actions st' = s_actions st /\ s_boxes st' = s_boxes st
    /\ settled (s_sorts st') (gs g') s x.
Proof.
  intros st g s x st' s' Hst Hok [Ht|Hse] E.
  - destruct (push_sorts_ok _ _ _ _ _ _ Hst Hok Ht E) as (g' & P). exists g'. intuition auto.
  - destruct Hst as (H1 & H2 & H3 & H4 & H5). unfold push_sorts in E.
    destruct (append grow SortNil (s_sorts st) s [x]) as [h s0] eqn:Ea. injection E as <- <-.
    destruct (append_again _ _ _ _ _ _ _ _ H4 Hok Hse Ea) as (T & A1 & A2 & A3 & A4 & A5 & A6).
    exists (Tips (gc g) (gp g) (ga g) T). simpl.
    conj; auto; unfold okstore, extends; simpl; conj; auto using ext_refl; [eapply below_sorts; eauto|].
    intros a Ha _. apply A3. exact Ha.
Qed.

(** ** The methods that work on a default builder *)

(** The memory changes only at the tips of [d]; [d'] is at the tips. *)
Definition grows (st : store) (g : tips) (d : hdb) (st' : store) (g' : tips) (d' : hdb) : Prop :=
  okstore st' g' /\ extends st g st' g' /\ framedb d g g' /\ fromdb g d d' /\ okdb g' d' /\ tipdb g' d'
  /\ gs g' = gs g /\ s_sorts st' = s_sorts st /\ s_boxes st' = s_boxes st.

Lemma grows_refl : forall st g d, okstore st g -> okdb g d -> tipdb g d -> grows st g d st g d.
Proof. intros. unfold grows. conj; auto using extends_refl, framedb_refl, fromdb_refl. Qed.

Lemma grows_trans : forall st g d st1 g1 d1 st2 g2 d2, grows st g d st1 g1 d1 -> grows st1 g1 d1 st2 g2 d2 -> grows st g d st2 g2 d2.
Proof.
  intros st g d st1 g1 d1 st2 g2 d2 (A1 & A2 & A3 & A4 & A5 & A6 & A7 & A8 & A9) (B1 & B2 & B3 & B4 & B5 & B6 & B7 & B8 & B9).
  unfold grows. conj; auto; try congruence.
  - eapply extends_trans; eauto.
  - eapply framedb_trans; eauto.
  - eapply fromdb_trans; eauto.
Qed.

(** The same slices. *)
Definition same_slices (d d' : hdb) : Prop :=
  h_elements d' = h_elements d /\ h_parts d' = h_parts d /\ (actions d' = actions d \/ actions d' = NoCells).

Lemma same_slices_refl : forall d, same_slices d d.
Proof. intros. unfold same_slices. auto. Qed.

Lemma okdb_same : forall g d d', same_slices d d' -> okdb g d -> okdb g d'.
Proof. intros g d d' (E1 & E2 & E3) (A & B & C). unfold okdb. rewrite E1, E2. destruct E3 as [E3|E3]; rewrite E3; simpl; auto. Qed.
Lemma tipdb_same : forall g d d', same_slices d d' -> tipdb g d -> tipdb g d'.
Proof. intros g d d' (E1 & E2 & E3) (A & B & C). unfold tipdb. rewrite E1, E2. destruct E3 as [E3|E3]; rewrite E3; simpl; auto. Qed.
Lemma fromdb_same : forall g d d', same_slices d d' -> fromdb g d d'.
Proof. intros g d d' (E1 & E2 & E3). unfold fromdb. rewrite E1, E2. destruct E3 as [E3|E3]; rewrite E3; conj; auto using from_refl, from_none. Qed.
Lemma fromdb_new : forall g d m, fromdb g d (hd_error m).
Proof. intros. unfold fromdb. simpl. conj; apply from_none. Qed.

Lemma grows_same : forall st g d st1 g1 d1 d2, grows st g d st1 g1 d1 -> same_slices d1 d2 -> grows st g d st1 g1 d2.
Proof.
  intros st g d st1 g1 d1 d2 H S. eapply grows_trans; [exact H|]. destruct H as (A1 & A2 & A3 & A4 & A5 & A6 & A7 & A8 & A9).
  unfold grows. conj; auto using extends_refl, framedb_refl, fromdb_same; [eapply okdb_same|eapply tipdb_same]; eauto.
Qed.

(** The builder that the operation gives shows what it should. *)
Definition does (st : store) (g : tips) (d : hdb) (r : store * hdb) (x : dbuilder) : Prop :=
  exists g', grows st g d (fst r) g' (snd r) /\ db_now (fst r) (snd r) = x.

Lemma does_then : forall st g d r x f y, does st g d r x ->
  (forall g', db_now (fst r) (snd r) = x -> okstore (fst r) g' -> okdb g' (snd r) -> tipdb g' (snd r) -> does (fst r) g' (snd r) (f (fst r) (snd r)) y) ->
  does st g d (let (s, d) := r in f s d) y.
Proof.
  intros st g d [st1 d1] x f y (g1 & G1 & E1) H. simpl in *.
  destruct (H g1 E1) as (g2 & G2 & E2); try apply G1. exists g2. split; [eapply grows_trans; eassumption|exact E2].
Qed.

Lemma add_clause_ok : forall st g d c, okstore st g -> okdb g d -> tipdb g d ->
  does st g d (h_add_clause grow st d c) (with_elements (db_now st d) (d_elements (db_now st d) ++ [c])).
Proof.
  intros st g d c Hst Hok Ht. unfold h_add_clause, does. destruct (push_clause grow st (h_elements d) c) as [st' s] eqn:E.
  destruct (push_clause_ok _ _ _ _ _ _ Hst (proj1 Hok) (proj1 Ht) E) as (g' & A1 & A2 & A3 & A4 & A5 & A6 & A7 & A8 & A9 & A10 & A11 & A12 & A13 & A14).
  exists g'. simpl. split.
  - destruct Hok as (O1 & O2 & O3), Ht as (T1 & T2 & T3).
    unfold grows, framedb, fromdb, okdb, tipdb. unfold actions in *. simpl. rewrite A4, A5.
    conj; auto using frame_refl, from_refl.
  - unfold db_now, with_elements. simpl. rewrite A10.
    rewrite (parts_now_ext _ _ _ _ _ Hst A2 (proj1 (proj2 Hok))), (update_now_ext _ _ _ _ _ A2 (proj2 (proj2 Hok))). reflexivity.
Qed.

(** Closing a clause appends it and changes other fields. *)
Lemma push_ok : forall st g d c m u k, okstore st g -> okdb g d -> tipdb g d ->
  (u = h_update d \/ match u with Some (HMerge _ _) => False | _ => True end) ->
  does st g d (let (st, s) := push_clause grow st (h_elements d) c in (st, HDB (h_err d) s (h_parts d) m u k))
    (DB (h_err d) (d_elements (db_now st d) ++ [c]) (d_parts (db_now st d)) m (option_map (update_now st) u) k).
Proof.
  intros st g d c m u k Hst Hok Ht Hu. destruct (add_clause_ok st g d c Hst Hok Ht) as (g' & G & E).
  unfold h_add_clause in *. destruct (push_clause grow st (h_elements d) c) as [st' s]. simpl in *.
  exists g'. simpl. split.
  - eapply grows_same; [exact G|]. unfold same_slices, actions. simpl. conj; auto.
    destruct Hu as [->|Hu]; [left; reflexivity|right]. destruct u as [[| |]|]; auto. destruct Hu.
  - unfold db_now in *. simpl in *. injection E as E1 E2 E3. rewrite E1, E2. f_equal.
    destruct Hu as [->|Hu]; [exact E3|]. destruct u as [[| |]|]; auto. destruct Hu.
Qed.

Lemma close_match_ok : forall ks st g d, okstore st g -> okdb g d -> tipdb g d ->
  does st g d (h_close_match grow ks st d) (close_match ks (db_now st d)).
Proof.
  intros ks st g d Hst Hok Ht. unfold h_close_match, close_match. simpl.
  destruct (m_not_nil (h_match d)).
  - apply push_ok; auto.
  - exists g. split; [apply grows_refl; auto|reflexivity].
Qed.

Lemma close_call_ok : forall ks st g d, okstore st g -> okdb g d -> tipdb g d ->
  does st g d (h_close_call grow ks st d) (close_call ks (db_now st d)).
Proof.
  intros ks st g d Hst Hok Ht. unfold h_close_call, close_call. simpl.
  destruct (h_call d) as [p|].
  - destruct (build_call ks p) as [c|m].
    + apply push_ok; auto.
    + exists g. split; [|reflexivity]. eapply grows_same; [apply grows_refl; auto|]. unfold same_slices, actions. simpl. auto.
  - exists g. split; [apply grows_refl; auto|]. reflexivity.
Qed.

Lemma close_update_ok : forall ks st g d, okstore st g -> okdb g d -> tipdb g d ->
  does st g d (h_close_update grow ks st d) (close_update ks (db_now st d)).
Proof.
  intros ks st g d Hst Hok Ht. unfold h_close_update, close_update. simpl.
  destruct (h_update d) as [u|].
  - simpl. change (@None Builder.update) with (option_map (update_now st) None). apply push_ok; auto.
  - exists g. split; [apply grows_refl; auto|reflexivity].
Qed.


Lemma add_updating_ok : forall ks st g d c, okstore st g -> okdb g d -> tipdb g d ->
  does st g d (h_add_updating_clause grow ks st d c) (add_updating_clause ks (db_now st d) c).
Proof.
  intros ks st g d c Hst Hok Ht. unfold h_add_updating_clause, add_updating_clause.
  eapply does_then; [apply close_match_ok; auto|]. intros g1 <- S1 O1 T1. apply add_clause_ok; auto.
Qed.

Lemma updating_fresh : forall ks t l p a, updating_clause_builder ks t l = inl (UMerge p a) -> a = [].
Proof. intros ks [| | |  |] [|x l] p a H; simpl in H; try destruct (prepare_set _ _); inversion H; reflexivity. Qed.

Lemma update_with_ok : forall ks st g d t l, okstore st g -> okdb g d -> tipdb g d ->
  does st g d (h_update_with grow ks st d t l) (d_update_with ks (db_now st d) t l).
Proof.
  intros ks st g d t l Hst Hok Ht. unfold h_update_with, d_update_with.
  eapply does_then; [apply close_match_ok; auto|]. intros g1 <- S1 O1 T1.
  eapply does_then; [apply close_call_ok; auto|]. intros g2 <- S2 O2 T2.
  eapply does_then; [apply close_update_ok; auto|]. intros g3 <- S3 O3 T3.
  destruct (h_close_update _ _ _ _) as [st3 d3]. simpl in *.
  exists g3. simpl. split.
  - eapply grows_same; [apply grows_refl; auto|]. unfold same_slices, actions. simpl. conj; auto.
    right. destruct (updating_clause_builder _ t l) as [[| |]|]; reflexivity.
  - unfold db_now. simpl. f_equal.
    destruct (updating_clause_builder _ t l) as [[| |]|] eqn:E; simpl; auto.
    apply updating_fresh in E. subst. reflexivity.
Qed.

(** ** Values *)

Definition box_ref (v : hstate) : option nat :=
  match v with HP b | HU _ (Some b) _ _ _ _ | HI (inl b) _ => Some b | _ => None end.

(** The default builder of a value. *)
Definition dbof (st : store) (v : hstate) : hdb :=
  match v with
  | HD d | HW _ (Some d) _ _ _ _ | HR _ (Some d) _ _ _ => d
  | HP b | HU _ (Some b) _ _ _ _ | HI (inl b) _ => box st b
  | _ => hd_new
  end.

Definition horder_of (v : hstate) : horder :=
  match v with HU _ _ _ _ _ o | HW _ _ _ _ o _ | HR _ _ _ _ o => o | _ => no_horder end.

Definition okboxes (st : store) (g : tips) : Prop := forall b, b < length (s_boxes st) -> okdb g (box st b).
Definition boxes_kept (st st' : store) : Prop :=
  length (s_boxes st) <= length (s_boxes st') /\ forall b, b < length (s_boxes st) -> box st' b = box st b.

Definition agrees (h : option (outcome (store * hstate))) (p : option (outcome state)) (R : store -> hstate -> Prop) : Prop :=
  match h, p with
  | Some (Returns (st', v')), Some (Returns s') => R st' v' /\ now st' v' = s'
  | Some Panics, Some Panics | Some Diverges, Some Diverges | None, None => True
  | _, _ => False
  end.

(** The result of a method of a default builder. *)
Definition dresult (st : store) (g : tips) (d : hdb) (adds : bool) (st' : store) (v' : hstate) : Prop :=
  exists g', okstore st' g' /\ extends st g st' g' /\ framedb (if adds then d else hd_new) g g'
  /\ gs g' = gs g /\ s_sorts st' = s_sorts st
  /\ fromdb g d (dbof st' v') /\ okdb g' (dbof st' v') /\ (tipdb g d -> tipdb g' (dbof st' v')) /\ horder_of v' = no_horder
  /\ okboxes st' g' /\ boxes_kept st st' /\ (forall b, box_ref v' = Some b -> length (s_boxes st) <= b < length (s_boxes st')).

Lemma boxes_kept_refl : forall st, boxes_kept st st.
Proof. intros. split; auto. Qed.

Lemma boxes_same : forall st st', s_boxes st' = s_boxes st -> boxes_kept st st'.
Proof. intros st st' E. split; [rewrite E; lia|]. intros b _. unfold box. rewrite E. reflexivity. Qed.

Lemma okboxes_ext : forall st g st' g', okboxes st g -> extends st g st' g' -> s_boxes st' = s_boxes st -> okboxes st' g'.
Proof.
  intros st g st' g' H X E b Hb. rewrite E in Hb. unfold box. rewrite E. eapply okdb_ext; [exact X|]. apply H. exact Hb.
Qed.

Lemma okdb_new : forall g, okdb g hd_new.
Proof. intros. unfold okdb. simpl. auto. Qed.
Lemma tipdb_new : forall g, tipdb g hd_new.
Proof. intros. unfold tipdb. simpl. auto. Qed.

(** Nothing in memory changes. *)
Lemma dresult_still : forall st g d adds v', okstore st g -> okboxes st g ->
  (same_slices d (dbof st v') \/ same_slices hd_new (dbof st v')) -> okdb g d ->
  horder_of v' = no_horder -> box_ref v' = None -> dresult st g d adds st v'.
Proof.
  intros st g d adds v' Hst Hb Hs Hok Ho Hr. exists g. conj; auto using extends_refl, framedb_refl, boxes_kept_refl.
  - destruct Hs as [Hs|(E1 & E2 & E3)]; [apply fromdb_same; exact Hs|]. unfold fromdb. rewrite E1, E2.
    destruct E3 as [E3|E3]; rewrite E3; simpl; conj; apply from_none.
  - destruct Hs as [Hs|Hs]; [eapply okdb_same; eauto|eapply okdb_same; [exact Hs|apply okdb_new]].
  - intros T. destruct Hs as [Hs|Hs]; [eapply tipdb_same; eauto|eapply tipdb_same; [exact Hs|apply tipdb_new]].
  - intros b E. congruence.
Qed.

Lemma dresult_grows : forall st g d st' g' d' d'', okboxes st g -> grows st g d st' g' d' -> same_slices d' d'' ->
  dresult st g d true st' (HD d'').
Proof.
  intros st g d st' g' d' d'' Hb G S. pose proof (grows_same _ _ _ _ _ _ _ G S) as (A1 & A2 & A3 & A4 & A5 & A6 & A7 & A8 & A9).
  exists g'. simpl. conj; auto using boxes_same; [|discriminate]. eapply okboxes_ext; eauto.
Qed.

Lemma agrees_does : forall st g d r x (f : hdb -> hdb) (y : dbuilder), okboxes st g -> does st g d r x ->
  (forall st' d', db_now st' d' = x -> same_slices d' (f d') /\ db_now st' (f d') = y) ->
  agrees (let (s, d) := r in gives s (HD (f d))) (Some (Returns (D y))) (dresult st g d true).
Proof.
  intros st g d [st' d'] x f y Hb (g' & G & E) H. simpl in *. destruct (H _ _ E) as [S E']. unfold agrees, gives.
  split; [eapply dresult_grows; eauto|]. simpl. rewrite E'. reflexivity.
Qed.

Lemma new_box_ok : forall st g d d0, okstore st g -> okboxes st g -> okdb g d0 ->
  let st' := fst (new_box st d0) in
  okstore st' g /\ extends st g st' g /\ okboxes st' g /\ boxes_kept st st' /\ box st' (length (s_boxes st)) = d0
  /\ db_now st' d = db_now st d.
Proof.
  intros st g d d0 Hst Hb Hd. simpl. conj.
  - exact Hst.
  - exact (extends_refl st g).
  - intros b Hlt. simpl in Hlt. rewrite app_length in Hlt. simpl in Hlt. unfold box. simpl.
    destruct (Nat.eq_dec b (length (s_boxes st))) as [->|Hne].
    + rewrite app_nth2, Nat.sub_diag by lia. exact Hd.
    + rewrite app_nth1 by lia. apply Hb. lia.
  - split; simpl; [rewrite app_length; lia|]. intros b Hlt. unfold box. simpl. apply app_nth1. exact Hlt.
  - unfold box. simpl. rewrite app_nth2, Nat.sub_diag by lia. reflexivity.
  - reflexivity.
Qed.

(** default_statement_with_update.go:35-62. *)
Lemma create_at_ok : forall ks st b t l,
  now st (h_create_at ks st b t l) = U (u_create ks (db_now st (box st b)) t l)
  /\ (box_ref (h_create_at ks st b t l) = Some b \/ box_ref (h_create_at ks st b t l) = None)
  /\ (dbof st (h_create_at ks st b t l) = box st b \/ dbof st (h_create_at ks st b t l) = hd_new)
  /\ horder_of (h_create_at ks st b t l) = no_horder.
Proof.
  intros ks st b t l. unfold h_create_at, u_create. simpl.
  destruct (h_err (box st b)); [simpl; auto|]. destruct (first_error l); [simpl; auto|].
  destruct (updating_clause_builder ks t l); simpl; auto.
Qed.

Lemma create_ok : forall ks st g d st0 g0 d0 t l, okboxes st g -> grows st g d st0 g0 d0 ->
  agrees (let (s, v) := h_create ks st0 d0 t l in gives s v) (Some (Returns (U (u_create ks (db_now st0 d0) t l))))
    (dresult st g d true).
Proof.
  intros ks st g d st0 g0 d0 t l Hb (A1 & A2 & A3 & A4 & A5 & A6 & A7 & A8 & A9).
  assert (Hb0 : okboxes st0 g0) by (eapply okboxes_ext; eauto).
  unfold h_create. destruct (new_box st0 d0) as [st1 b] eqn:En.
  destruct (new_box_ok st0 g0 d0 d0 A1 Hb0 A5) as (B1 & B2 & B3 & B4 & B5 & B6). rewrite En in *. simpl in *.
  assert (b = length (s_boxes st0)) by (unfold new_box in En; congruence). subst b.
  assert (Ess : s_sorts st1 = s_sorts st0) by (unfold new_box in En; inversion En; reflexivity).
  destruct (create_at_ok ks st1 (length (s_boxes st0)) t l) as (N & R & O & H). rewrite B5 in *.
  set (v := h_create_at _ _ _ _ _) in *. clearbody v.
  split; [|rewrite N, B6; reflexivity].
  exists g0. conj; auto; try congruence.
  - destruct A2 as (X1 & X2 & X3 & X4), B2 as (Y1 & Y2 & Y3 & Y4). unfold extends. conj; eapply ext_trans; eassumption.
  - destruct O as [->| ->]; [exact A4|]. apply (fromdb_new g d EmptyString).
  - destruct O as [->| ->]; [exact A5|apply okdb_new].
  - intros _. destruct O as [->| ->]; [exact A6|apply tipdb_new].
  - split; [rewrite <- A9; apply B4|]. intros b Hlt. rewrite <- A9 in Hlt. destruct B4 as [_ B4]. rewrite B4 by exact Hlt.
    unfold box. rewrite A9. reflexivity.
  - intros b Eb. destruct R as [R|R]; rewrite R in Eb; [|discriminate]. injection Eb as <-. rewrite A9.
    destruct B4 as [B4 _]. split; [lia|]. unfold new_box in En. inversion En. simpl. rewrite app_length. simpl. rewrite A9. lia.
Qed.


Lemma boxes_kept_trans : forall st st1 st2, boxes_kept st st1 -> boxes_kept st1 st2 -> boxes_kept st st2.
Proof. intros st st1 st2 [L1 H1] [L2 H2]. split; [lia|]. intros b Hb. rewrite H2 by lia. apply H1. exact Hb. Qed.

Lemma framedb_if : forall (b : bool) d g g', framedb (if b then d else hd_new) g g' -> framedb d g g'.
Proof. intros [] d g g' H; [exact H|apply framedb_any; exact H]. Qed.

Lemma dresult_trans : forall st g d st1 g1 d1 adds st2 v, grows st g d st1 g1 d1 -> dresult st1 g1 d1 adds st2 v -> dresult st g d true st2 v.
Proof.
  intros st g d st1 g1 d1 adds st2 v (A1 & A2 & A3 & A4 & A5 & A6 & A7 & A8 & A9) (g2 & B1 & B2 & B3 & B4 & B5 & B6 & B7 & B8 & B9 & B10 & B11 & B12).
  exists g2. conj; auto; try congruence.
  - eapply extends_trans; eauto.
  - eapply framedb_trans; eauto. eapply framedb_if; eauto.
  - eapply fromdb_trans; eauto.
  - eapply boxes_kept_trans; [apply boxes_same; exact A9|exact B11].
  - intros b E. rewrite <- A9. apply B12. exact E.
Qed.

Lemma agrees_weaken : forall h p (R R' : store -> hstate -> Prop), (forall st v, R st v -> R' st v) -> agrees h p R -> agrees h p R'.
Proof. intros [[[st v]| |]|] [[s| |]|] R R' H A; simpl in *; intuition. Qed.

Lemma agrees_then : forall st g d r x f p, okboxes st g -> does st g d r x ->
  (forall g', db_now (fst r) (snd r) = x -> okstore (fst r) g' -> okboxes (fst r) g' -> okdb g' (snd r) -> tipdb g' (snd r) ->
     agrees (f (fst r) (snd r)) p (dresult (fst r) g' (snd r) true)) ->
  agrees (let (s, d) := r in f s d) p (dresult st g d true).
Proof.
  intros st g d [st1 d1] x f p Hb (g1 & G & E) H. simpl in *.
  assert (Hb1 : okboxes st1 g1) by (eapply okboxes_ext; [exact Hb|apply G|apply G]).
  specialize (H g1 E (proj1 G) Hb1). pose proof G as (_ & _ & _ & _ & O & T & _). specialize (H O T).
  eapply agrees_weaken; [|exact H]. intros st2 v R. eapply dresult_trans; eauto.
Qed.

Lemma agrees_still : forall st g d adds v s, okstore st g -> okboxes st g -> okdb g d ->
  (same_slices d (dbof st v) \/ same_slices hd_new (dbof st v)) -> horder_of v = no_horder -> box_ref v = None -> now st v = s ->
  agrees (gives st v) (Some (Returns s)) (dresult st g d adds).
Proof. intros. unfold agrees, gives. split; [apply dresult_still; auto|assumption]. Qed.

Definition d_adds (c : call) : bool := match c with Where _ | AndC _ | OrC _ | With _ _ | Returning _ _ => false | _ => true end.

Ltac still := apply agrees_still; simpl; auto; first [left; unfold same_slices, actions; simpl; solve [auto]|right; unfold same_slices, actions; simpl; solve [auto]].

Lemma hd_ok : forall ks st g d c, okstore st g -> okboxes st g -> okdb g d -> (d_adds c = true -> tipdb g d) ->
  agrees (hd_step grow ks st d c) (d_step ks (db_now st d) c) (dresult st g d (d_adds c)).
Proof.
  intros ks st g d c Hst Hb Hok Ht. unfold hd_step, d_step. cbn [d_err db_now].
  destruct (h_err d) as [m|] eqn:He.
  { destruct c; try (simpl; exact Logic.I); still. }
  assert (Hg : d_adds c = true -> grows st g d st g d) by (intros Ha; apply grows_refl; auto).
  destruct c; try (simpl; exact Logic.I); cbn [d_adds] in *; try specialize (Ht eq_refl); try specialize (Hg eq_refl).
  - (* Match *)
    destruct (first_error patterns); [still|].
    eapply agrees_then; [exact Hb|apply close_match_ok; auto|]. intros g1 <- S1 B1 O1 T1.
    eapply agrees_then; [exact B1|apply close_call_ok; auto|]. intros g2 <- S2 B2 O2 T2. still.
  - (* Where *) destruct (get_error c); still.
  - (* And *) cbn [d_match]. destruct (builder_add ks BAnd _ c); [still|exact Logic.I].
  - (* Or *) destruct (get_error c); [still|]. cbn [d_match]. destruct (builder_add ks BOr _ c); [still|exact Logic.I].
  - (* With *) destruct (first_error items); still.
  - (* Returning *) destruct (first_error items); still.
  - (* Delete *)
    destruct (first_error items); [still|].
    eapply agrees_then; [exact Hb|apply update_with_ok; auto|]. intros g1 <- S1 B1 O1 T1. still.
  - (* Create *)
    destruct (first_error patterns); [still|].
    eapply agrees_then; [exact Hb|apply update_with_ok; auto|]. intros g1 <- S1 B1 O1 T1. still.
  - (* Merge *)
    destruct (first_error patterns); [still|].
    eapply agrees_then; [exact Hb|apply update_with_ok; auto|]. intros g1 <- S1 B1 O1 T1. still.
  - (* OnAction *)
    change (d_update (db_now st d)) with (option_map (update_now st) (h_update d)).
    destruct (h_update d) as [[p|p s|x]|] eqn:Hu; cbn [option_map update_now]; try still.
    destruct (first_error items); [still|]. destruct (merge_action ks on_create (sound_exprs items)) as [q|m].
    2: { apply agrees_still; simpl; auto. left; unfold same_slices, actions; simpl; rewrite Hu; auto. }
    destruct (push_action grow st s q) as [st' s'] eqn:Ep.
    assert (As : actions d = s) by (unfold actions; rewrite Hu; reflexivity).
    destruct Hok as (O1 & O2 & O3), Ht as (T1 & T2 & T3). rewrite As in *.
    destruct (push_action_ok _ _ _ _ _ _ Hst O3 T3 Ep) as (g' & A1 & A2 & A3 & A4 & A5 & A6 & A7 & A8 & A9 & A10 & A11 & A12 & A13 & A14).
    split.
    + exists g'. unfold framedb, fromdb, okdb, tipdb. cbn [dbof]. rewrite As. unfold actions. simpl. rewrite A4, A5.
      conj; auto using frame_refl, from_refl, boxes_same; try discriminate. eapply okboxes_ext; eauto.
    + simpl. unfold db_now. simpl. rewrite A10. rewrite (parts_now_ext _ _ _ _ _ Hst A2 O2).
      destruct A2 as (A2 & _). rewrite (read_ext _ _ _ _ _ A2 O1). reflexivity.
  - (* SetItems *)
    destruct (first_error items); [still|].
    eapply agrees_then; [exact Hb|apply close_update_ok; auto|]. intros g1 <- S1 B1 O1 T1.
    eapply create_ok; [exact B1|apply grows_refl; auto].
  - (* SetLabels *) destruct node; try still; (eapply create_ok; [exact Hb|exact Hg]).
  - (* RemoveLabels *) destruct node; try still; (eapply create_ok; [exact Hb|exact Hg]).
  - (* RemoveItems *) destruct (first_error properties); [still|]. eapply create_ok; [exact Hb|exact Hg].
  - (* Unwind *)
    destruct e as [e|t m]; [|exact Logic.I].
    eapply agrees_then; [exact Hb|apply close_match_ok; auto|]. intros g1 <- S1 B1 O1 T1.
    eapply agrees_then; [exact B1|apply add_clause_ok; auto|]. intros g2 <- S2 B2 O2 T2. still.
  - (* Sub *)
    destruct (statement_error s); [still|].
    eapply agrees_then; [exact Hb|apply close_call_ok; auto|]. intros g1 <- S1 B1 O1 T1.
    eapply agrees_then; [exact B1|apply close_match_ok; auto|]. intros g2 <- S2 B2 O2 T2.
    eapply agrees_then; [exact B2|apply close_update_ok; auto|]. intros g3 <- S3 B3 O3 T3.
    destruct (subquery_call (ks 3) s); try still;
      (eapply agrees_then; [exact B3|apply add_clause_ok; auto|]; intros g4 <- S4 B4 O4 T4; still).
  - (* Proc *)
    eapply agrees_then; [exact Hb|apply close_match_ok; auto|]. intros g1 <- S1 B1 O1 T1.
    eapply agrees_then; [exact B1|apply close_call_ok; auto|]. intros g2 <- S2 B2 O2 T2.
    destruct (h_close_call _ _ _ _) as [st2 d2]. cbn [fst snd] in *.
    destruct (procedure_name (ks 2) name) as [n| |]; try exact Logic.I.
    set (p := CallB false n None None Nil).
    assert (O3 : okdb g2 (h_set_call d2 p)) by exact O2.
    destruct (new_box_ok st2 g2 (h_set_call d2 p) (h_set_call d2 p) S2 B2 O3) as (C1 & C2 & C3 & C4 & C5 & C6).
    destruct (new_box st2 (h_set_call d2 p)) as [st3 b] eqn:En. cbn [fst] in *.
    assert (b = length (s_boxes st2)) by (unfold new_box in En; congruence). subst b.
    split.
    + exists g2. cbn [dbof horder_of box_ref]. rewrite C5. conj; auto.
      * apply framedb_refl.
      * unfold new_box in En. inversion En. reflexivity.
      * exact (fromdb_refl g2 d2).
      * intros b E. injection E as <-. split; [lia|]. unfold new_box in En. inversion En. simpl. rewrite app_length. simpl. lia.
    + cbn [now]. rewrite C5, C6. reflexivity.
Qed.


(** ** Sorting *)

Definition pending_of (o : horder) : option sort := match ho_last o with Some (Sort k e d) => Some (Sort k e d) | _ => None end.

Lemma order_step_ok : forall ks st g o c, okstore st g -> okslice (gs g) (ho_items o) -> (adds_sort c = true -> attip (gs g) (ho_items o)) ->
  match h_order_step grow ks st o c, order_step ks (order_now st o) c with
  | None, None => about_sorting c = false
  | Some (st', o'), Some x =>
      about_sorting c = true /\ order_now st' o' = x /\ s_boxes st' = s_boxes st
      /\ exists g', okstore st' g' /\ extends st g st' g' /\ gc g' = gc g /\ gp g' = gp g /\ ga g' = ga g
         /\ frame (if adds_sort c then ho_items o else NoCells) (gs g) (gs g') /\ okslice (gs g') (ho_items o')
         /\ (adds_sort c = true -> from (gs g) (ho_items o) (ho_items o') /\ attip (gs g') (ho_items o'))
         /\ (adds_sort c = false -> ho_items o' = ho_items o /\ (names_sort c = false -> ho_last o' = ho_last o))
  | _, _ => False
  end.
Proof.
  intros ks st g o c Hst Hok Ht.
  assert (PUSH : forall l last, adds_sort c = true ->
    let (st', o') := h_push_sorts grow st o l last in
    order_now st' o' = OrderB (read (s_sorts st) (ho_items o) ++ l) last (ho_skip o) (ho_limit o) /\ s_boxes st' = s_boxes st
    /\ exists g', okstore st' g' /\ extends st g st' g' /\ gc g' = gc g /\ gp g' = gp g /\ ga g' = ga g
         /\ frame (ho_items o) (gs g) (gs g') /\ okslice (gs g') (ho_items o')
         /\ from (gs g) (ho_items o) (ho_items o') /\ attip (gs g') (ho_items o')).
  { intros l last Ha. unfold h_push_sorts. destruct (push_sorts grow st (ho_items o) l) as [st' s'] eqn:E.
    destruct (push_sorts_ok _ _ _ _ _ _ Hst Hok (Ht Ha) E) as (g' & A1 & A2 & A3 & A4 & A5 & A6 & A7 & A8 & A9 & A10 & A11 & A12 & A13 & A14 & _).
    unfold order_now. simpl. rewrite A10. conj; auto. exists g'. conj; auto. }
  assert (STILL : forall o', adds_sort c = false -> ho_items o' = ho_items o -> (names_sort c = false -> ho_last o' = ho_last o) ->
    s_boxes st = s_boxes st
      /\ exists g', okstore st g' /\ extends st g st g' /\ gc g' = gc g /\ gp g' = gp g /\ ga g' = ga g
         /\ frame (if adds_sort c then ho_items o else NoCells) (gs g) (gs g') /\ okslice (gs g') (ho_items o')
         /\ (adds_sort c = true -> from (gs g) (ho_items o) (ho_items o') /\ attip (gs g') (ho_items o'))
         /\ (adds_sort c = false -> ho_items o' = ho_items o /\ (names_sort c = false -> ho_last o' = ho_last o))).
  { intros o' Ha Ei El. split; [reflexivity|]. exists g. rewrite Ha, Ei. conj; auto using extends_refl, frame_refl; discriminate. }
  assert (DONE : forall l last x, adds_sort c = true -> about_sorting c = true ->
    OrderB (read (s_sorts st) (ho_items o) ++ l) last (ho_skip o) (ho_limit o) = x ->
    match Some (h_push_sorts grow st o l last), Some x with
    | Some (st', o'), Some x =>
      about_sorting c = true /\ order_now st' o' = x /\ s_boxes st' = s_boxes st
      /\ exists g', okstore st' g' /\ extends st g st' g' /\ gc g' = gc g /\ gp g' = gp g /\ ga g' = ga g
         /\ frame (if adds_sort c then ho_items o else NoCells) (gs g) (gs g') /\ okslice (gs g') (ho_items o')
         /\ (adds_sort c = true -> from (gs g) (ho_items o) (ho_items o') /\ attip (gs g') (ho_items o'))
         /\ (adds_sort c = false -> ho_items o' = ho_items o /\ (names_sort c = false -> ho_last o' = ho_last o))
    | _, _ => False
    end).
  { intros l last x Ha Hs Ex. specialize (PUSH l last Ha). destruct (h_push_sorts grow st o l last) as [st' o'].
    destruct PUSH as (P1 & P2 & g' & P3 & P4 & P5 & P6 & P7 & P8 & P9 & P10 & P11).
    conj; auto; [congruence|]. exists g'. rewrite Ha. conj; auto; discriminate. }
  destruct c; simpl order_step; simpl h_order_step; try reflexivity.
  - apply DONE; reflexivity.
  - split; [reflexivity|]. split; [reflexivity|]. apply STILL; auto; discriminate.
  - split; [reflexivity|]. split; [reflexivity|]. apply STILL; auto; discriminate.
  - apply DONE; try reflexivity. unfold order_descending. simpl. destruct (ho_last o) as [[]|]; reflexivity.
  - apply DONE; try reflexivity. unfold order_ascending. simpl. destruct (ho_last o) as [[]|]; reflexivity.
  - split; [reflexivity|]. split; [reflexivity|]. apply STILL; auto; discriminate.
  - split; [reflexivity|]. split; [reflexivity|]. apply STILL; auto; discriminate.
Qed.

(** The items of an ORDER BY with the pending one. *)
Definition all_sorts (st : store) (o : horder) : list sort :=
  read (s_sorts st) (ho_items o) ++ match pending_of o with Some x => [x] | None => [] end.

Lemma build_order_ok : forall st g o st' s f, okstore st g -> okslice (gs g) (ho_items o) ->
  (forall x, pending_of o = Some x -> flushable st g (ho_items o) x) ->
  h_build_order grow st o = (st', (s, f)) ->
  exists g', okstore st' g' /\ extends st g st' g' /\ gc g' = gc g /\ gp g' = gp g /\ ga g' = ga g
    /\ frame (match pending_of o with Some _ => ho_items o | None => NoCells end) (gs g) (gs g')
    /\ okslice (gs g') s /\ f (read (s_sorts st') s) = OrderB (all_sorts st o) None (ho_skip o) (ho_limit o)
    /\ s_clauses st' = s_clauses st /\ s_parts st' = s_parts st /\ s_actions st' = s_actions st /\ s_boxes st' = s_boxes st
    /\ (forall x, pending_of o = Some x -> settled (s_sorts st') (gs g') (ho_items o) x).
Proof.
  intros st g o st' s f Hst Hok Hf E. unfold h_build_order in E.
  replace (match ho_last o with Some (Sort k e d) => [Sort k e d] | _ => [] end)
    with (match pending_of o with Some x => [x] | None => [] end) in E
    by (unfold pending_of; destruct (ho_last o) as [[]|]; reflexivity).
  destruct (push_sorts grow st (ho_items o) _) as [st1 s1] eqn:Ep.
  assert (P : exists g', okstore st1 g' /\ extends st g st1 g' /\ gc g' = gc g /\ gp g' = gp g /\ ga g' = ga g
    /\ frame (match pending_of o with Some _ => ho_items o | None => NoCells end) (gs g) (gs g')
    /\ okslice (gs g') s1 /\ read (s_sorts st1) s1 = all_sorts st o
    /\ s_clauses st1 = s_clauses st /\ s_parts st1 = s_parts st /\ s_actions st1 = s_actions st /\ s_boxes st1 = s_boxes st
    /\ (forall x, pending_of o = Some x -> settled (s_sorts st1) (gs g') (ho_items o) x)).
  { unfold all_sorts. destruct (pending_of o) as [x|].
    - destruct (flush_ok _ _ _ _ _ _ Hst Hok (Hf x eq_refl) Ep) as (g' & A1 & A2 & A3 & A4 & A5 & A6 & A7 & A8 & A9 & A10 & A11 & A12 & A13).
      exists g'. conj; auto. intros y Ey. injection Ey as <-. exact A13.
    - unfold push_sorts in Ep. simpl in Ep. injection Ep as <- <-. exists g. rewrite app_nil_r. simpl.
      conj; auto using frame_refl; [exact (extends_refl st g)|discriminate]. }
  destruct P as (g' & A1 & A2 & A3 & A4 & A5 & A6 & A7 & A8 & A9 & A10 & A11 & A12 & A13).
  rewrite A8 in E. destruct (existsb _ (all_sorts st o)) eqn:Hx; injection E as <- <- <-; exists g'; conj; auto.
  - exact Logic.I.
  - cbv beta. rewrite A8. f_equal. clear - Hx. induction (all_sorts st o) as [|y l IH]; [reflexivity|].
    simpl in *. apply orb_false_iff in Hx. destruct Hx as [H1 H2]. rewrite (IH H2). destruct y; [reflexivity|discriminate|reflexivity].
Qed.

Lemma build_order_pending : forall k st o,
  build_order k (OrderB (all_sorts st o) None (ho_skip o) (ho_limit o)) = build_order k (order_now st o).
Proof.
  intros k st o. unfold build_order, all_sorts, pending_of, order_now. simpl. rewrite app_nil_r.
  destruct (ho_last o) as [[]|]; reflexivity.
Qed.

Lemma body_pending : forall ks e st o,
  body_create ks e (OrderB (all_sorts st o) None (ho_skip o) (ho_limit o)) = body_create ks e (order_now st o).
Proof. intros. unfold body_create. rewrite build_order_pending. reflexivity. Qed.

Lemma return_pending : forall ks x l st o,
  build_return ks x l (OrderB (all_sorts st o) None (ho_skip o) (ho_limit o)) = build_return ks x l (order_now st o).
Proof. intros. unfold build_return. destruct l; [reflexivity|]. rewrite build_order_pending, body_pending. reflexivity. Qed.

Lemma with_pending : forall ks x l st o c,
  build_with ks x l (OrderB (all_sorts st o) None (ho_skip o) (ho_limit o)) c = build_with ks x l (order_now st o) c.
Proof. intros. unfold build_with. destruct l; [reflexivity|]. rewrite build_order_pending, body_pending. reflexivity. Qed.

(** The list of sort items is touched only if a sort expression is pending. *)
Definition flushed (o : horder) : slice := match pending_of o with Some _ => ho_items o | None => NoCells end.

Definition only_sorts (st : store) (g : tips) (o : horder) (st' : store) (g' : tips) : Prop :=
  okstore st' g' /\ extends st g st' g' /\ gc g' = gc g /\ gp g' = gp g /\ ga g' = ga g
    /\ frame (flushed o) (gs g) (gs g') /\ s_boxes st' = s_boxes st
    /\ (forall x, pending_of o = Some x -> flushable st' g' (ho_items o) x).

Lemma only_sorts_refl : forall st g o, okstore st g -> (forall x, pending_of o = Some x -> flushable st g (ho_items o) x) -> only_sorts st g o st g.
Proof. intros. unfold only_sorts. conj; auto using extends_refl, frame_refl. Qed.

Lemma build_return_ok : forall ks st g x l o st' s f, okstore st g -> okslice (gs g) (ho_items o) ->
  (forall x, pending_of o = Some x -> flushable st g (ho_items o) x) ->
  h_build_return grow ks st x l o = (st', (s, f)) ->
  exists g', only_sorts st g o st' g' /\ okslice (gs g') s /\ f (read (s_sorts st') s) = build_return ks x l (order_now st o).
Proof.
  intros ks st g x l o st' s f Hst Hok Hf E. unfold h_build_return in E.
  destruct l as [|e l]; [injection E as <- <- <-; exists g; conj; [apply only_sorts_refl; auto|exact Logic.I|reflexivity]|].
  destruct (h_build_order grow st o) as [st1 [s1 f1]] eqn:Eo. injection E as <- <- <-.
  destruct (build_order_ok _ _ _ _ _ _ Hst Hok Hf Eo) as (g' & A1 & A2 & A3 & A4 & A5 & A6 & A7 & A8 & A9 & A10 & A11 & A12 & A13).
  exists g'. conj; auto.
  - unfold only_sorts. conj; auto. intros y Hy. right. auto.
  - rewrite A8. exact (return_pending ks x (e :: l) st o).
Qed.

Lemma build_with_ok : forall ks st g x l o c st' w, okstore st g -> okslice (gs g) (ho_items o) ->
  (forall x, pending_of o = Some x -> flushable st g (ho_items o) x) ->
  h_build_with grow ks st x l o c = (st', w) ->
  exists g', only_sorts st g o st' g'
    /\ match w with
       | None => build_with ks x l (order_now st o) c = None
       | Some (s, f) => okslice (gs g') s /\ build_with ks x l (order_now st o) c = Some (f (read (s_sorts st') s))
       end.
Proof.
  intros ks st g x l o c st' w Hst Hok Hf E. unfold h_build_with in E.
  destruct l as [|e l]; [injection E as <- <-; exists g; split; [apply only_sorts_refl; auto|reflexivity]|].
  destruct (h_build_order grow st o) as [st1 [s1 f1]] eqn:Eo. injection E as <- <-.
  destruct (build_order_ok _ _ _ _ _ _ Hst Hok Hf Eo) as (g' & A1 & A2 & A3 & A4 & A5 & A6 & A7 & A8 & A9 & A10 & A11 & A12 & A13).
  exists g'. split.
  - unfold only_sorts. conj; auto. intros y Hy. right. auto.
  - split; [exact A7|]. rewrite A8. rewrite <- (with_pending ks x (e :: l) st o c). reflexivity.
Qed.

(** ** AddWith *)
Lemma add_with_ok : forall ks st g d w x, okstore st g -> okdb g d -> tipdb g d ->
  match w with None => x = None | Some (s, f) => okslice (gs g) s /\ x = Some (f (read (s_sorts st) s)) end ->
  does st g d (h_add_with grow ks st d w) (add_with ks (db_now st d) x).
Proof.
  intros ks st g d w x Hst Hok Ht Hw. unfold h_add_with, add_with. change (d_err (db_now st d)) with (h_err d).
  destruct (h_err d) as [m|] eqn:He.
  { exists g. simpl. split; [|reflexivity].
    unfold grows. conj; auto using extends_refl, framedb_refl, fromdb_new; [apply okdb_new|apply tipdb_new]. }
  destruct w as [[s f]|].
  2: { subst x. exists g. split; [apply grows_refl; auto|reflexivity]. }
  destruct Hw as [Hs ->].
  assert (PUSH : forall l e el m u k,
    (el = h_elements d \/ el = NoCells) -> (u = h_update d \/ u = None) ->
    does st g d (let (st, ps) := push_part grow st (h_parts d) (HPart s (fun y => multi_part_element_create (ks 3) l (f y))) in
                 (st, HDB e el ps m u k))
      (DB e (read (s_clauses st) el) (d_parts (db_now st d) ++ [multi_part_element_create (ks 3) l (f (read (s_sorts st) s))]) m
          (option_map (update_now st) u) k)).
  { intros l e el m u k Hel Hu. destruct (push_part grow st (h_parts d) _) as [st' ps] eqn:E.
    destruct Hok as (O1 & O2 & O3), Ht as (T1 & T2 & T3).
    destruct (push_part_ok st g (h_parts d) (HPart s _) _ _ Hst O2 T2 Hs E) as (g' & A1 & A2 & A3 & A4 & A5 & A6 & A7 & A8 & A9 & A10 & A11 & A12 & A13 & A14).
    exists g'. simpl. split.
    - unfold grows, framedb, fromdb, okdb, tipdb. unfold actions in *. simpl. rewrite A4, A5.
      destruct Hel as [->| ->], Hu as [->| ->]; simpl; conj; auto using frame_refl, from_refl, from_none.
    - unfold db_now. simpl. rewrite A10, map_app, A11. simpl. rewrite A13.
      destruct A2 as (X1 & X2 & X3 & X4). f_equal.
      + f_equal. apply map_ext_in. intros [s0 f0] Hin. simpl. rewrite A13. reflexivity.
      + destruct Hu as [->| ->]; [|reflexivity]. destruct (h_update d) as [[| |]|]; simpl; try rewrite A12; reflexivity. }
  destruct (build_list ks (db_now st d)) as [l|m].
  - apply (PUSH l None NoCells no_match None None); auto.
  - apply (PUSH [] (Some m) (h_elements d) (h_match d) (h_update d) (h_call d)); auto.
Qed.


(** ** The result of a method of any value *)

Definition writes (v : hstate) : bool := match v with HU _ _ _ _ _ _ | HI _ _ => true | _ => false end.
Definition items (v : hstate) : slice := ho_items (horder_of v).

Definition okval (st : store) (g : tips) (v : hstate) : Prop :=
  okdb g (dbof st v) /\ okslice (gs g) (items v) /\ forall b, box_ref v = Some b -> b < length (s_boxes st).

Definition ready (st : store) (g : tips) (v : hstate) (x : sort_use) : Prop :=
  match x with
  | Unused => True
  | Appended => attip (gs g) (items v)
  | Flushed => forall p, pending_of (horder_of v) = Some p -> flushable st g (items v) p
  end.

Definition used_slice (v : hstate) (x : sort_use) : slice := match x with Unused => NoCells | _ => items v end.

Record vres (st : store) (g : tips) (v : hstate) (adds : bool) (x : sort_use) (keeps names : bool) (st' : store) (v' : hstate) (g' : tips) : Prop := VRes {
  vr_store : okstore st' g';
  vr_ext : extends st g st' g';
  vr_boxes : okboxes st' g';
  vr_val : okval st' g' v';
  vr_frame : framedb (if adds then dbof st v else hd_new) g g';
  vr_sorts : frame (used_slice v x) (gs g) (gs g');
  vr_from : fromdb g (dbof st v) (dbof st' v');
  vr_tip : tipdb g (dbof st v) -> tipdb g' (dbof st' v');
  vr_keep : keeps = true -> items v' = items v /\ (names = false -> ho_last (horder_of v') = ho_last (horder_of v));
  vr_new : keeps = false -> attip (gs g') (items v') /\ from (gs g) (items v) (items v') /\ (x = Appended \/ items v' = NoCells);
  vr_flush : x = Flushed -> forall p, pending_of (horder_of v) = Some p -> flushable st' g' (items v) p;
  vr_len : length (s_boxes st) <= length (s_boxes st');
  vr_box : forall b, b < length (s_boxes st) -> (adds = true /\ writes v = true /\ box_ref v = Some b) \/ box st' b = box st b;
  vr_ref : forall b, box_ref v' = Some b -> length (s_boxes st) <= b \/ (box_ref v = Some b /\ writes v = true);
  vr_writes : adds = false -> forall b, box_ref v' = Some b -> b < length (s_boxes st) -> writes v' = true
}.

Definition vresult st g v adds x keeps names (st' : store) (v' : hstate) : Prop := exists g', vres st g v adds x keeps names st' v' g'.

Lemma frame_flushed : forall v x g g', (pending_of (horder_of v) <> None -> x <> Unused) ->
  frame (flushed (horder_of v)) g g' -> frame (used_slice v x) g g'.
Proof.
  intros v x g g' H F. unfold flushed, used_slice, items in *. destruct (pending_of (horder_of v)).
  - destruct x; [exfalso; apply H; congruence|exact F|exact F].
  - apply frame_any. exact F.
Qed.

Lemma no_pending : forall (P : sort -> Prop) x, pending_of no_horder = Some x -> P x.
Proof. intros P x E. discriminate. Qed.

(** A value that continues its own default builder, after the pending sort item
    has been put into its list. *)
Lemma vres_d : forall st g v st1 g1 x names st' v' adds, only_sorts st g (horder_of v) st1 g1 -> okboxes st g ->
  (pending_of (horder_of v) <> None -> x <> Unused) ->
  dresult st1 g1 (dbof st v) adds st' v' -> vresult st g v adds x false names st' v'.
Proof.
  intros st g v st1 g1 x names st' v' adds (A1 & A2 & A3 & A4 & A5 & A6 & A7 & A8) Hb Hx
    (g' & B1 & B2 & B3 & B4 & B5 & B6 & B7 & B8 & B9 & B10 & [B11 B11'] & B12).
  assert (F : forall d, fromdb g1 (dbof st v) d -> fromdb g (dbof st v) d).
  { intros d. unfold fromdb. rewrite A3, A4, A5. auto. }
  exists g'. constructor; auto.
  - eapply extends_trans; eauto.
  - unfold okval, items. rewrite B9. simpl. conj; auto. apply B12.
  - unfold framedb in *. rewrite A3, A4, A5 in B3. exact B3.
  - rewrite B4. apply frame_flushed; auto.
  - intros T. apply B8. unfold tipdb in *. rewrite A3, A4, A5. exact T.
  - discriminate.
  - intros _. unfold items. rewrite B9. simpl. conj; [exact Logic.I|apply from_none|auto].
  - intros _ p Hp. specialize (A8 p Hp). unfold flushable in *. rewrite B4, B5. exact A8.
  - rewrite <- A7. exact B11.
  - intros b Hlt. right. rewrite B11' by (rewrite A7; exact Hlt). unfold box. rewrite A7. reflexivity.
  - intros b E. left. rewrite <- A7. apply B12. exact E.
  - intros _ b E Hlt. specialize (B12 b E). rewrite A7 in B12. lia.
Qed.

Lemma vres_still : forall st g v v' x keeps names adds, okstore st g -> okboxes st g -> okval st g v ->
  same_slices (dbof st v) (dbof st v') -> items v' = items v -> (names = false -> ho_last (horder_of v') = ho_last (horder_of v)) ->
  (keeps = false -> items v = NoCells) -> x <> Flushed ->
  (box_ref v' = None \/ (box_ref v' = box_ref v /\ writes v = true /\ writes v' = true)) ->
  vresult st g v adds x keeps names st v'.
Proof.
  intros st g v v' x keeps names adds Hst Hb (O1 & O2 & O3) S Ei El Hk Hx R. exists g. constructor; auto using extends_refl, framedb_refl, frame_refl, fromdb_same.
  - unfold okval. rewrite Ei. conj; auto; [eapply okdb_same; eauto|]. intros b E. apply O3. destruct R as [R|[R _]]; congruence.
  - apply tipdb_same. exact S.
  - intros H. rewrite Ei, (Hk H). simpl. conj; [exact Logic.I|apply from_none|auto].
  - intros E. congruence.
  - intros b E. right. destruct R as [R|[R [W W']]]; [congruence|]. split; congruence.
  - intros _ b E _. destruct R as [R|[R [W W']]]; congruence.
Qed.

(** A step of the sort items only. *)
Lemma vres_order : forall ks st g v (w : horder -> hstate) c s,
  okstore st g -> okboxes st g -> okval st g v -> (adds_sort c = true -> attip (gs g) (items v)) ->
  (forall o st', dbof st' (w o) = dbof st' v) -> (forall o, horder_of (w o) = o) ->
  (forall o, box_ref (w o) = box_ref v) -> (forall o, writes (w o) = writes v) ->
  (box_ref v <> None -> writes v = true) ->
  (forall st', s_boxes st' = s_boxes st -> dbof st' v = dbof st v) ->
  forall names, names = names_sort c ->
  (forall st' g' o, extends st g st' g' -> s_boxes st' = s_boxes st -> now st' (w o) = s (order_now st' o)) ->
  match h_order_step grow ks st (horder_of v) c, order_step ks (order_now st (horder_of v)) c with
  | Some (st', o'), Some y =>
      about_sorting c = true /\ agrees (gives st' (w o')) (Some (Returns (s y)))
        (vresult st g v false (if adds_sort c then Appended else Unused) (negb (adds_sort c)) names)
  | None, None => about_sorting c = false
  | _, _ => False
  end.
Proof.
  intros ks st g v w c s Hst Hb (O1 & O2 & O3) Ha Wd Wo Wr Ww Hr Hd names -> Hn.
  pose proof (order_step_ok ks st g (horder_of v) c Hst O2 Ha) as H.
  destruct (h_order_step grow ks st (horder_of v) c) as [[st' o']|], (order_step ks (order_now st (horder_of v)) c) as [y|]; auto.
  destruct H as (As & E & Eb & g' & A1 & A2 & A3 & A4 & A5 & A6 & A7 & A8 & A9). split; [exact As|].
  unfold agrees, gives. split.
  - exists g'. constructor; unfold items; try rewrite Wo; try rewrite Wd; try rewrite (Hd st' Eb); auto.
    + eapply okboxes_ext; eauto.
    + unfold okval, items. rewrite Wo, Wd, (Hd st' Eb), Wr, Eb. conj; auto. eapply okdb_ext; eauto.
    + unfold framedb. rewrite A3, A4, A5. conj; apply frame_refl.
    + unfold used_slice, items. destruct (adds_sort c); exact A6.
    + apply fromdb_refl.
    + unfold tipdb. rewrite A3, A4, A5. auto.
    + intros Hk. apply negb_true_iff in Hk. apply A9. exact Hk.
    + intros Hk. apply negb_false_iff in Hk. destruct (A8 Hk). rewrite Hk. auto.
    + destruct (adds_sort c); discriminate.
    + rewrite Eb. lia.
    + intros b _. right. unfold box. rewrite Eb. reflexivity.
    + intros b Eq. rewrite Wr in Eq. right. split; [exact Eq|]. apply Hr. congruence.
    + intros _ b Eq _. rewrite Wr in Eq. rewrite Ww. apply Hr. congruence.
  - rewrite (Hn st' g' o' A2 Eb). congruence.
Qed.

Lemma set_box_ok : forall st g b d, okstore st g -> okboxes st g -> okdb g d -> b < length (s_boxes st) ->
  let st' := set_box st b d in
  okstore st' g /\ extends st g st' g /\ okboxes st' g /\ box st' b = d
  /\ (forall b', b' <> b -> box st' b' = box st b') /\ length (s_boxes st') = length (s_boxes st)
  /\ (forall d0, db_now st' d0 = db_now st d0).
Proof.
  intros st g b d Hst Hb Hd Hlt st'. subst st'.
  assert (X : forall b', box (set_box st b d) b' = if Nat.eqb b b' then d else box st b').
  { intros b'. unfold box, set_box. simpl. rewrite nth_updated. apply Nat.ltb_lt in Hlt. rewrite Hlt, andb_true_r. reflexivity. }
  conj.
  - exact Hst.
  - exact (extends_refl st g).
  - intros b' H. simpl in H. rewrite update_len in H. rewrite X. destruct (Nat.eqb b b'); auto.
  - rewrite X, Nat.eqb_refl. reflexivity.
  - intros b' H. rewrite X. destruct (Nat.eqb b b') eqn:E; [apply Nat.eqb_eq in E; congruence|reflexivity].
  - simpl. apply update_len.
  - reflexivity.
Qed.

(** A value that changes the builder behind its pointer and goes on from there. *)
Lemma vres_box : forall st g v b st1 g1 d1 st' v' adds keeps names, okval st g v -> okboxes st g ->
  writes v = true -> box_ref v = Some b -> dbof st v = box st b -> keeps = false ->
  grows st g (box st b) st1 g1 d1 ->
  dresult (set_box st1 b d1) g1 d1 adds st' v' -> vresult st g v true Unused keeps names st' v'.
Proof.
  intros st g v b st1 g1 d1 st' v' adds keeps names (O1 & O2 & O3) Hb W Rb Hd -> (A1 & A2 & A3 & A4 & A5 & A6 & A7 & A8 & A9)
    (g' & B1 & B2 & B3 & B4 & B5 & B6 & B7 & B8 & B9 & B10 & [B11 B11'] & B12).
  assert (Hb1 : okboxes st1 g1) by (exact (okboxes_ext _ _ _ _ Hb A2 A9)).
  assert (Hlt : b < length (s_boxes st1)). { rewrite A9. apply O3. exact Rb. }
  destruct (set_box_ok st1 g1 b d1 A1 Hb1 A5 Hlt) as (C1 & C2 & C3 & C4 & C5 & C6 & C7). cbv zeta in *.
  exists g'. constructor; auto; try rewrite Hd.
  - eapply extends_trans; [exact A2|]. eapply extends_trans; eauto.
  - unfold okval, items. rewrite B9. simpl. conj; auto. apply B12.
  - eapply framedb_trans; [exact A2|exact A3|exact A4|]. eapply framedb_if; eauto.
  - unfold used_slice. rewrite B4, A7. apply frame_refl.
  - eapply fromdb_trans; [exact A2|exact A4|exact B6].
  - discriminate.
  - intros _. unfold items. rewrite B9. simpl. conj; [exact Logic.I|apply from_none|auto].
  - discriminate.
  - rewrite C6, A9 in B11. exact B11.
  - intros b' Hlt'. destruct (Nat.eq_dec b' b) as [->|Hne]; [left; auto|right].
    rewrite B11' by (rewrite C6, A9; exact Hlt'). rewrite C5 by exact Hne. unfold box. rewrite A9. reflexivity.
  - intros b' E. left. specialize (B12 b' E). rewrite C6, A9 in B12. lia.
  - discriminate.
Qed.

(** The same where the value that results has that pointer, or none. *)
Lemma vres_there : forall st g v b st1 g1 d1 v' keeps names, okval st g v ->
  writes v = true -> box_ref v = Some b -> dbof st v = box st b -> keeps = false ->
  okstore st1 g1 -> extends st g st1 g1 -> framedb (box st b) g g1 -> fromdb g (box st b) d1 -> okdb g1 d1 -> tipdb g1 d1 -> gs g1 = gs g ->
  okboxes st1 g1 -> length (s_boxes st1) = length (s_boxes st) -> (forall b', b' < length (s_boxes st) -> b' <> b -> box st1 b' = box st b') ->
  (same_slices d1 (dbof (set_box st1 b d1) v') \/ same_slices hd_new (dbof (set_box st1 b d1) v')) -> horder_of v' = no_horder ->
  (box_ref v' = None \/ box_ref v' = Some b) ->
  vresult st g v true Unused keeps names (set_box st1 b d1) v'.
Proof.
  intros st g v b st1 g1 d1 v' keeps names (O1 & O2 & O3) W Rb Hd -> A1 A2 A3 A4 A5 A6 A7 Hb1 A9 A10 S Ho R.
  assert (Hlt : b < length (s_boxes st1)). { rewrite A9. apply O3. exact Rb. }
  destruct (set_box_ok st1 g1 b d1 A1 Hb1 A5 Hlt) as (C1 & C2 & C3 & C4 & C5 & C6 & C7). cbv zeta in *.
  set (st2 := set_box st1 b d1) in *. clearbody st2.
  exists g1. constructor; auto; try rewrite Hd.
  - eapply extends_trans; [exact A2|exact C2].
  - unfold okval, items. rewrite Ho. simpl. conj; auto.
    + destruct S as [S|S]; [eapply okdb_same; eauto|eapply okdb_same; [exact S|apply okdb_new]].
    + intros b' E. rewrite C6. destruct R; congruence.
  - exact A3.
  - unfold used_slice. rewrite A7. apply frame_refl.
  - destruct S as [S|(E1 & E2 & E3)]; [eapply fromdb_trans; [exact A2|exact A4|apply fromdb_same; exact S]|].
    unfold fromdb. rewrite E1, E2. destruct E3 as [E3|E3]; rewrite E3; simpl; conj; apply from_none.
  - intros _. destruct S as [S|S]; [eapply tipdb_same; eauto|eapply tipdb_same; [exact S|apply tipdb_new]].
  - discriminate.
  - intros _. unfold items. rewrite Ho. simpl. conj; [exact Logic.I|apply from_none|auto].
  - discriminate.
  - rewrite C6, A9. lia.
  - intros b' Hlt'. destruct (Nat.eq_dec b' b) as [->|Hne]; [left; auto|right].
    rewrite C5 by exact Hne. auto.
  - intros b' E. right. split; [|exact W]. destruct R; congruence.
  - discriminate.
Qed.

Lemma vres_here : forall st g v b st1 g1 d1 v' keeps names, okval st g v -> okboxes st g ->
  writes v = true -> box_ref v = Some b -> dbof st v = box st b -> keeps = false ->
  grows st g (box st b) st1 g1 d1 ->
  (same_slices d1 (dbof (set_box st1 b d1) v') \/ same_slices hd_new (dbof (set_box st1 b d1) v')) -> horder_of v' = no_horder ->
  (box_ref v' = None \/ box_ref v' = Some b) ->
  vresult st g v true Unused keeps names (set_box st1 b d1) v'.
Proof.
  intros st g v b st1 g1 d1 v' keeps names Hok Hb W Rb Hd Hk (A1 & A2 & A3 & A4 & A5 & A6 & A7 & A8 & A9) S Ho R.
  apply (vres_there st g v b st1 g1 d1 v'); auto.
  - exact (okboxes_ext _ _ _ _ Hb A2 A9).
  - rewrite A9. reflexivity.
  - intros b' _ _. unfold box. rewrite A9. reflexivity.
Qed.

Lemma agrees_eq : forall h h' p p' R, agrees h' p' R -> h = h' -> p = p' -> agrees h p R.
Proof. intros; subst; assumption. Qed.

(** *** WITH *)
Lemma hw_ok : forall ks st g e d y l o x c, okstore st g -> okboxes st g -> okval st g (HW e d y l o x) ->
  let v := HW e d y l o x in
  (adds_clause (now st v) c = true -> tipdb g (dbof st v)) -> ready st g v (sort_use_of (now st v) c) ->
  agrees (h_step grow ks st v c) (step ks (now st v) c)
    (vresult st g v (adds_clause (now st v) c) (sort_use_of (now st v) c) (keeps_sorts (now st v) c) (names_sort c)).
Proof.
  intros ks st g e d y l o x c Hst Hb Hok v Ht Hr. subst v. simpl h_step. simpl step. unfold hw_step, w_step. cbn [w_order w_err w_default w_cond w_items w_distinct].
  cbn [now] in *.
  assert (Hs : adds_sort c = true -> attip (gs g) (items (HW e d y l o x))).
  { intros Ha. unfold sort_use_of in Hr. rewrite Ha in Hr. exact Hr. }
  pose proof (vres_order ks st g (HW e d y l o x) (fun o => HW e d y l o x) c (fun o => W (WB e (option_map (db_now st) d) y l o x))
    Hst Hb Hok Hs ltac:(reflexivity) ltac:(reflexivity) ltac:(reflexivity) ltac:(reflexivity) ltac:(simpl; congruence) ltac:(reflexivity) (names_sort c) eq_refl) as H.
  cbn [horder_of] in H.
  assert (Hn : forall st' g' o0, extends st g st' g' -> s_boxes st' = s_boxes st ->
     now st' (HW e d y l o0 x) = W (WB e (option_map (db_now st) d) y l (order_now st' o0) x)).
  { intros st' g' o0 X _. simpl. f_equal. f_equal. destruct d as [d|]; [|reflexivity]. simpl. f_equal.
    eapply db_now_ext; [exact Hst|exact X|]. destruct Hok as [O1 _]. exact O1. }
  specialize (H Hn). clear Hn.
  destruct (h_order_step grow ks st o c) as [[st' o']|], (order_step ks (order_now st o) c) as [z|]; try contradiction.
  { destruct H as [As H].
    replace (adds_clause (W (WB e (option_map (db_now st) d) y l (order_now st o) x)) c) with false
      by (destruct c; try reflexivity; discriminate As).
    replace (sort_use_of (W (WB e (option_map (db_now st) d) y l (order_now st o) x)) c) with (if adds_sort c then Appended else Unused)
      by (destruct c; try reflexivity; discriminate As).
    replace (keeps_sorts (W (WB e (option_map (db_now st) d) y l (order_now st o) x)) c) with (negb (adds_sort c))
      by (destruct c; try reflexivity; discriminate As).
    exact H. }
  assert (COND : forall x', (exists q, c = Where q \/ c = AndC q \/ c = OrC q) ->
    agrees (gives st (HW e d x' l o x)) (Some (Returns (W (WB e (option_map (db_now st) d) x' l (order_now st o) x))))
     (vresult st g (HW e d y l o x) (adds_clause (W (WB e (option_map (db_now st) d) y l (order_now st o) x)) c)
       (sort_use_of (W (WB e (option_map (db_now st) d) y l (order_now st o) x)) c)
       (keeps_sorts (W (WB e (option_map (db_now st) d) y l (order_now st o) x)) c) (names_sort c))).
  { intros x' [q Hq]. split; [|reflexivity].
    apply vres_still; auto; try (destruct Hq as [->|[->| ->]]; simpl; congruence).
    unfold same_slices. destruct d; simpl; auto. }
  assert (CONT : adds_clause (W (WB e (option_map (db_now st) d) y l (order_now st o) x)) c = true ->
     agrees match d with
            | Some d => let (st, w) := h_build_with grow (block ks 2) st x l o y in
                        let (st, d) := h_add_with grow (block ks 1) st d w in hd_step grow (block ks 0) st d c
            | None => Some Panics
            end
            match option_map (db_now st) d with
            | Some d => d_step (block ks 0) (add_with (block ks 1) d (build_with (block ks 2) x l (order_now st o) y)) c
            | None => Some Panics
            end
     (vresult st g (HW e d y l o x) (adds_clause (W (WB e (option_map (db_now st) d) y l (order_now st o) x)) c)
       (sort_use_of (W (WB e (option_map (db_now st) d) y l (order_now st o) x)) c)
       (keeps_sorts (W (WB e (option_map (db_now st) d) y l (order_now st o) x)) c) (names_sort c))).
  { intros Ha. rewrite Ha. destruct d as [d|]; [|exact Logic.I]. cbn [option_map] in *.
    specialize (Ht Ha). cbn [dbof] in Ht.
    assert (Hns : adds_sort c = false) by (destruct c; auto; discriminate H).
    assert (Hfl : forall p, pending_of o = Some p -> sort_use_of (W (WB e (Some (db_now st d)) y l (order_now st o) x)) c = Flushed).
    { intros p Hp. unfold sort_use_of. rewrite Hns, Ha. unfold pending. simpl. unfold pending_of in Hp. destruct (ho_last o) as [[]|]; try discriminate. reflexivity. }
    assert (Hf : forall p, pending_of o = Some p -> flushable st g (ho_items o) p).
    { intros p Hp. rewrite (Hfl p Hp) in Hr. exact (Hr p Hp). }
    replace (keeps_sorts (W (WB e (Some (db_now st d)) y l (order_now st o) x)) c) with false
      by (unfold keeps_sorts; rewrite Ha; reflexivity).
    pose proof Hok as (O1 & O2 & O3). cbn [dbof items horder_of] in O1, O2.
    destruct (h_build_with grow (block ks 2) st x l o y) as [st1 w] eqn:Ew.
    destruct (build_with_ok _ _ _ _ _ _ _ _ _ Hst O2 Hf Ew) as (g1 & S1 & Hw).
    pose proof S1 as (A1 & A2 & A3 & A4 & A5 & A6 & A7 & A8).
    assert (Okd : okdb g1 d) by (eapply okdb_ext; eauto).
    assert (Tipd : tipdb g1 d) by (unfold tipdb in *; rewrite A3, A4, A5; exact Ht).
    assert (Hb1 : okboxes st1 g1) by (eapply okboxes_ext; eauto).
    assert (Hw' : match w with
                  | None => build_with (block ks 2) x l (order_now st o) y = None
                  | Some (s, f) => okslice (gs g1) s /\ build_with (block ks 2) x l (order_now st o) y = Some (f (read (s_sorts st1) s)) end)
      by (destruct w as [[]|]; exact Hw).
    pose proof (add_with_ok (block ks 1) st1 g1 d w _ A1 Okd Tipd Hw') as Dw.
    rewrite (db_now_ext _ _ _ _ _ Hst A2 O1) in Dw.
    assert (G : agrees (let (s, d) := h_add_with grow (block ks 1) st1 d w in hd_step grow (block ks 0) s d c)
       (d_step (block ks 0) (add_with (block ks 1) (db_now st d) (build_with (block ks 2) x l (order_now st o) y)) c)
       (dresult st1 g1 d true)).
    { eapply agrees_then; [exact Hb1|exact Dw|]. intros g2 <- S2 B2 K2 T2.
      eapply agrees_weaken; [|apply hd_ok; eauto]. intros st3 v3 (g3 & D1 & D2 & D3 & D4). exists g3. split; [exact D1|]. split; [exact D2|].
      split; [|exact D4]. eapply framedb_if; exact D3. }
    eapply agrees_weaken; [|exact G]. intros st3 v3 R.
    eapply vres_d; [exact S1|exact Hb| |exact R].
    cbn [horder_of]. intros Hp. destruct (pending_of o) as [p|] eqn:Ep; [|congruence]. rewrite (Hfl p eq_refl). discriminate. }
  destruct c; try discriminate H; try exact Logic.I; try (apply CONT; reflexivity).
  - apply COND. eauto.
  - destruct (builder_add ks BAnd y c); [apply COND; eauto|exact Logic.I].
  - destruct (builder_add ks BOr y c); [apply COND; eauto|exact Logic.I].
Qed.


(** *** Updating clauses *)
Lemma hu_ok : forall ks st g e b u l x o c, okstore st g -> okboxes st g -> okval st g (HU e b u l x o) ->
  let v := HU e b u l x o in
  (adds_clause (now st v) c = true -> tipdb g (dbof st v)) -> ready st g v (sort_use_of (now st v) c) ->
  agrees (h_step grow ks st v c) (step ks (now st v) c)
    (vresult st g v (adds_clause (now st v) c) (sort_use_of (now st v) c) (keeps_sorts (now st v) c) (names_sort c)).
Proof.
  intros ks st g e b u l x o c Hst Hb Hok v Ht Hr. subst v. simpl h_step. simpl step. unfold hu_step, u_step.
  cbn [u_order u_err u_default u_update u_returns u_distinct]. cbn [now] in *.
  set (ub := UB e (option_map (fun b => db_now st (box st b)) b) u l x (order_now st o)) in *.
  assert (Hs : adds_sort c = true -> attip (gs g) (items (HU e b u l x o))).
  { intros Ha. unfold sort_use_of in Hr. rewrite Ha in Hr. exact Hr. }
  pose proof (vres_order ks st g (HU e b u l x o) (fun o => HU e b u l x o) c
    (fun o => U (UB e (option_map (fun b => db_now st (box st b)) b) u l x o))
    Hst Hb Hok Hs ltac:(reflexivity) ltac:(reflexivity) ltac:(reflexivity) ltac:(reflexivity) ltac:(simpl; congruence)) as H.
  cbn [horder_of] in H.
  assert (Hd : forall st', s_boxes st' = s_boxes st -> dbof st' (HU e b u l x o) = dbof st (HU e b u l x o)).
  { intros st' E. destruct b as [b|]; simpl; [|reflexivity]. unfold box. rewrite E. reflexivity. }
  specialize (H Hd (names_sort c) eq_refl).
  assert (Hn : forall st' g' o0, extends st g st' g' -> s_boxes st' = s_boxes st ->
     now st' (HU e b u l x o0) = U (UB e (option_map (fun b => db_now st (box st b)) b) u l x (order_now st' o0))).
  { intros st' g' o0 X Eb. simpl. f_equal. f_equal. destruct b as [b|]; [|reflexivity]. simpl. f_equal.
    replace (box st' b) with (box st b) by (unfold box; rewrite Eb; reflexivity).
    eapply db_now_ext; [exact Hst|exact X|]. destruct Hok as [O1 _]. exact O1. }
  specialize (H Hn). clear Hn Hd.
  destruct (h_order_step grow ks st o c) as [[st' o']|], (order_step ks (order_now st o) c) as [z|]; try contradiction.
  { destruct H as [As H].
    replace (adds_clause (U ub) c) with false by (destruct c; try reflexivity; discriminate As).
    replace (sort_use_of (U ub) c) with (if adds_sort c then Appended else Unused) by (destruct c; try reflexivity; discriminate As).
    replace (keeps_sorts (U ub) c) with (negb (adds_sort c)) by (subst ub; destruct c; try discriminate As; destruct b; try reflexivity; destruct u; reflexivity).
    exact H. }
  assert (RET : forall l' x', (exists q r, c = Returning q r) ->
    agrees (gives st (HU e b u l' x' o)) (Some (Returns (U (UB e (option_map (fun b => db_now st (box st b)) b) u l' x' (order_now st o)))))
     (vresult st g (HU e b u l x o) (adds_clause (U ub) c) (sort_use_of (U ub) c) (keeps_sorts (U ub) c) (names_sort c))).
  { intros l' x' [q [r ->]]. split; [|reflexivity]. cbn [adds_clause sort_use_of adds_sort names_sort about_sorting orb negb andb].
    replace (keeps_sorts (U ub) (Returning q r)) with true by (subst ub; destruct b; try reflexivity; destruct u; reflexivity).
    apply vres_still; auto; try discriminate. destruct b; simpl; unfold same_slices; auto. }
  assert (NOT : forall n ls, c = RemoveLabels n ls -> (b = None \/ u = None) ->
    agrees (gives st (HU e b u l x o)) (Some (Returns (U ub)))
     (vresult st g (HU e b u l x o) (adds_clause (U ub) c) (sort_use_of (U ub) c) (keeps_sorts (U ub) c) (names_sort c))).
  { intros n ls -> Hbu. split; [|reflexivity]. cbn [adds_clause sort_use_of adds_sort names_sort about_sorting orb negb andb].
    replace (keeps_sorts (U ub) (RemoveLabels n ls)) with true by (subst ub; destruct b; try reflexivity; destruct u; try reflexivity; destruct Hbu; discriminate).
    apply vres_still; auto; try discriminate. destruct b; simpl; unfold same_slices; auto. }
  (* from here on the clause is added *)
  assert (ADD : forall b0 u0, b = Some b0 -> u = Some u0 -> adds_clause (U ub) c = true -> keeps_sorts (U ub) c = false -> sort_use_of (U ub) c = Unused ->
    exists g1, let r := h_add_updating_clause grow (block ks 0) st (box st b0) (build_update (block ks 1) u0) in
      grows st g (box st b0) (fst r) g1 (snd r)
      /\ db_now (fst r) (snd r) = add_updating_clause (block ks 0) (db_now st (box st b0)) (build_update (block ks 1) u0)
      /\ b0 < length (s_boxes (fst r)) /\ okboxes (fst r) g1).
  { intros b0 u0 -> -> Ha Hk Hu. pose proof Hok as (O1 & O2 & O3). specialize (Ht Ha). cbn [dbof] in O1, Ht.
    destruct (add_updating_ok (block ks 0) st g (box st b0) (build_update (block ks 1) u0) Hst O1 Ht) as (g1 & G & E).
    exists g1. cbv zeta. split; [exact G|]. split; [exact E|].
    pose proof G as (A1 & A2 & A3 & A4 & A5 & A6 & A7 & A8 & A9). rewrite A9. split; [apply O3; reflexivity|].
    exact (okboxes_ext _ _ _ _ Hb A2 A9). }
  assert (GO : forall b0 u0 (f : store -> hdb -> option (outcome (store * hstate))) p, b = Some b0 -> u = Some u0 ->
    adds_clause (U ub) c = true -> keeps_sorts (U ub) c = false -> sort_use_of (U ub) c = Unused ->
    (forall st1 g1 d1, okstore (set_box st1 b0 d1) g1 -> okboxes (set_box st1 b0 d1) g1 -> okdb g1 d1 -> tipdb g1 d1 -> box (set_box st1 b0 d1) b0 = d1 ->
       b0 < length (s_boxes st1) -> okboxes st1 g1 -> grows st g (box st b0) st1 g1 d1 ->
       db_now st1 d1 = add_updating_clause (block ks 0) (db_now st (box st b0)) (build_update (block ks 1) u0) ->
       agrees (f (set_box st1 b0 d1) d1) p (vresult st g (HU e b u l x o) true Unused false (names_sort c))) ->
    agrees (let (st, d) := h_add_updating_clause grow (block ks 0) st (box st b0) (build_update (block ks 1) u0) in f (set_box st b0 d) d) p
      (vresult st g (HU e b u l x o) (adds_clause (U ub) c) (sort_use_of (U ub) c) (keeps_sorts (U ub) c) (names_sort c))).
  { intros b0 u0 f p Eb Eu Ha Hk Hu F. destruct (ADD b0 u0 Eb Eu Ha Hk Hu) as (g1 & G & E & Hlt & Hb1). rewrite Ha, Hk, Hu.
    destruct (h_add_updating_clause _ _ _ _ _) as [st1 d1]. cbn [fst snd] in *.
    pose proof G as (A1 & A2 & A3 & A4 & A5 & A6 & A7 & A8 & A9).
    destruct (set_box_ok st1 g1 b0 d1 A1 Hb1 A5 Hlt) as (C1 & C2 & C3 & C4 & C5 & C6 & C7).
    eapply F; eauto. }
  assert (CONT : forall b0 u0 ks', b = Some b0 -> u = Some u0 ->
    adds_clause (U ub) c = true -> keeps_sorts (U ub) c = false -> sort_use_of (U ub) c = Unused ->
    agrees (let (st, d) := h_add_updating_clause grow (block ks 0) st (box st b0) (build_update (block ks 1) u0) in hd_step grow ks' (set_box st b0 d) d c)
      (d_step ks' (add_updating_clause (block ks 0) (db_now st (box st b0)) (build_update (block ks 1) u0)) c)
      (vresult st g (HU e b u l x o) (adds_clause (U ub) c) (sort_use_of (U ub) c) (keeps_sorts (U ub) c) (names_sort c))).
  { intros b0 u0 ks' Eb Eu Ha Hk Hu. apply (GO b0 u0 (fun st d => hd_step grow ks' st d c)); auto.
    intros st1 g1 d1 C1 C3 A5 A6 C4 Hlt Hb1 G E. rewrite <- E.
    eapply agrees_weaken; [|apply (hd_ok ks' (set_box st1 b0 d1) g1 d1 c); auto].
    intros st3 v3 R. subst b. eapply vres_box; [exact Hok|exact Hb|reflexivity|reflexivity|reflexivity|reflexivity|exact G|exact R]. }
  assert (CREATE : forall b0 u0 ks' t l', b = Some b0 -> u = Some u0 ->
    adds_clause (U ub) c = true -> keeps_sorts (U ub) c = false -> sort_use_of (U ub) c = Unused ->
    agrees (let (st, d) := h_add_updating_clause grow (block ks 0) st (box st b0) (build_update (block ks 1) u0) in
            gives (set_box st b0 d) (h_create_at ks' (set_box st b0 d) b0 t l'))
      (Some (Returns (U (u_create ks' (add_updating_clause (block ks 0) (db_now st (box st b0)) (build_update (block ks 1) u0)) t l'))))
      (vresult st g (HU e b u l x o) (adds_clause (U ub) c) (sort_use_of (U ub) c) (keeps_sorts (U ub) c) (names_sort c))).
  { intros b0 u0 ks' t l' Eb Eu Ha Hk Hu. apply (GO b0 u0 (fun st _ => gives st (h_create_at ks' st b0 t l'))); auto.
    intros st1 g1 d1 C1 C3 A5 A6 C4 Hlt Hb1 G E. rewrite <- E.
    destruct (create_at_ok ks' (set_box st1 b0 d1) b0 t l') as (N & R & O & Ho). rewrite C4 in *. split; [|exact N].
    subst b. eapply vres_here; [exact Hok|exact Hb|reflexivity|reflexivity|reflexivity|reflexivity|exact G| |exact Ho|].
    - destruct O as [->| ->]; [left|right]; apply same_slices_refl.
    - tauto. }
  assert (FLAGS : match c with With _ _ | Delete _ _ | Merge _ | SetItems _ | SetLabels _ _ | RemoveItems _ | Create _ => True
                  | RemoveLabels _ _ => b <> None /\ u <> None | _ => False end ->
     adds_clause (U ub) c = true /\ keeps_sorts (U ub) c = false /\ sort_use_of (U ub) c = Unused).
  { intros F. subst ub. destruct c; try contradiction; (split; [reflexivity|split; [|reflexivity]]);
      destruct b; destruct u; try reflexivity; simpl in F; destruct F; congruence. }
  destruct c; try discriminate H; try exact Logic.I.
  2: { destruct distinct; apply RET; eauto. }
  all: destruct b as [b|]; [|first [eapply NOT; [reflexivity|auto]|exact Logic.I]]; destruct u as [u|]; [|first [eapply NOT; [reflexivity|auto]|exact Logic.I]];
    destruct FLAGS as (F1 & F2 & F3); [solve [auto|split; discriminate]|];
    first [apply (CONT b u (block ks 2)); auto; fail|apply (CREATE b u); auto; fail|idtac].
  (* Delete *)
  apply (GO b u (fun st d => let (st, d) := h_update_with grow (block ks 2) st d (TDelete detach) items0 in gives (set_box st b d) (HD d))); auto.
  intros st1 g1 d1 C1 C3 A5 A6 C4 Hlt Hb1 G E. cbn [option_map]. rewrite <- E.
  destruct (update_with_ok (block ks 2) (set_box st1 b d1) g1 d1 (TDelete detach) items0 C1 A5 A6) as (g2 & G2 & E2).
  destruct (h_update_with grow (block ks 2) (set_box st1 b d1) d1 (TDelete detach) items0) as [st2 d2]. cbn [fst snd] in *.
  split; [|cbn [now]; f_equal; exact E2].
  assert (Hlt2 : b < length (s_boxes st2)).
  { destruct G2 as (X1 & X2 & X3 & X4 & X5 & X6 & X7 & X8 & X9). rewrite X9. simpl. rewrite update_len. exact Hlt. }
  destruct (set_box_ok st1 g1 b d1 (proj1 G) Hb1 A5 Hlt) as (D1 & D2 & D3 & D4 & D5 & D6 & D7). cbv zeta in *.
  pose proof G as (P1 & P2 & P3 & P4 & P5 & P6 & P7 & P8 & P9). pose proof G2 as (X1 & X2 & X3 & X4 & X5 & X6 & X7 & X8 & X9).
  apply (vres_there st g _ b st2 g2 d2); auto; try congruence.
  - eapply extends_trans; [exact P2|exact X2].
  - eapply framedb_trans; [exact P2|exact P3|exact P4|exact X3].
  - eapply fromdb_trans; [exact P2|exact P4|exact X4].
  - exact (okboxes_ext _ _ _ _ C3 X2 X9).
  - intros b' Hl Hne. replace (box st2 b') with (box (set_box st1 b d1) b') by (unfold box; rewrite X9; reflexivity).
    rewrite D5 by exact Hne. unfold box. rewrite P9. reflexivity.
  - left. apply same_slices_refl.
Qed.


(** *** RETURN, procedure calls, default builders *)
Lemma hr_ok : forall ks st g e d l x o c, okstore st g -> okboxes st g -> okval st g (HR e d l x o) ->
  let v := HR e d l x o in
  (adds_clause (now st v) c = true -> tipdb g (dbof st v)) -> ready st g v (sort_use_of (now st v) c) ->
  agrees (h_step grow ks st v c) (step ks (now st v) c)
    (vresult st g v (adds_clause (now st v) c) (sort_use_of (now st v) c) (keeps_sorts (now st v) c) (names_sort c)).
Proof.
  intros ks st g e d l x o c Hst Hb Hok v Ht Hr. subst v. simpl h_step. simpl step. unfold hr_step, r_step.
  cbn [r_order r_err r_default r_items r_distinct]. cbn [now] in *.
  assert (Hs : adds_sort c = true -> attip (gs g) (items (HR e d l x o))).
  { intros Ha. unfold sort_use_of in Hr. rewrite Ha in Hr. exact Hr. }
  pose proof (vres_order ks st g (HR e d l x o) (fun o => HR e d l x o) c (fun o => R (RB e (option_map (db_now st) d) l x o))
    Hst Hb Hok Hs ltac:(reflexivity) ltac:(reflexivity) ltac:(reflexivity) ltac:(reflexivity) ltac:(simpl; congruence) ltac:(reflexivity) (names_sort c) eq_refl) as H.
  cbn [horder_of] in H.
  assert (Hn : forall st' g' o0, extends st g st' g' -> s_boxes st' = s_boxes st ->
     now st' (HR e d l x o0) = R (RB e (option_map (db_now st) d) l x (order_now st' o0))).
  { intros st' g' o0 X _. simpl. f_equal. f_equal. destruct d as [d|]; [|reflexivity]. simpl. f_equal.
    eapply db_now_ext; [exact Hst|exact X|]. destruct Hok as [O1 _]. exact O1. }
  specialize (H Hn). clear Hn.
  destruct (h_order_step grow ks st o c) as [[st' o']|], (order_step ks (order_now st o) c) as [z|]; try contradiction; [|exact Logic.I].
  destruct H as [As H].
  replace (sort_use_of (R (RB e (option_map (db_now st) d) l x (order_now st o))) c) with (if adds_sort c then Appended else Unused)
    by (destruct c; try reflexivity; discriminate As).
  replace (keeps_sorts (R (RB e (option_map (db_now st) d) l x (order_now st o))) c) with (negb (adds_sort c))
    by (destruct c; try reflexivity; discriminate As).
  exact H.
Qed.

Lemma hdp_ok : forall ks st g v c, okstore st g -> okboxes st g -> okval st g v ->
  match v with HD _ | HP _ => True | _ => False end ->
  (adds_clause (now st v) c = true -> tipdb g (dbof st v)) ->
  agrees (h_step grow ks st v c) (step ks (now st v) c)
    (vresult st g v (adds_clause (now st v) c) (sort_use_of (now st v) c) (keeps_sorts (now st v) c) (names_sort c)).
Proof.
  intros ks st g v c Hst Hb (O1 & O2 & O3) Hv Ht.
  assert (E : h_step grow ks st v c = hd_step grow ks st (dbof st v) c) by (destruct v; try contradiction; reflexivity).
  assert (E' : step ks (now st v) c = d_step ks (db_now st (dbof st v)) c) by (destruct v; try contradiction; reflexivity).
  assert (Ea : adds_clause (now st v) c = d_adds c) by (destruct v; try contradiction; reflexivity).
  assert (Eu : sort_use_of (now st v) c = Unused) by (destruct v; try contradiction; reflexivity).
  assert (Ek : keeps_sorts (now st v) c = false) by (destruct v; try contradiction; destruct c; reflexivity).
  assert (Eo : horder_of v = no_horder) by (destruct v; try contradiction; reflexivity).
  rewrite E, E', Eu, Ek, Ea in *.
  eapply agrees_weaken; [|apply (hd_ok ks st g (dbof st v) c); auto].
  intros st' v' R. eapply vres_d; [apply only_sorts_refl; auto| | |exact R]; auto; rewrite Eo.
  - intros p Hp. discriminate.
  - intros Hp. exfalso. apply Hp. reflexivity.
Qed.

Lemma hs_ok : forall ks st g p c, okstore st g -> okboxes st g -> okval st g (HS p) ->
  agrees (h_step grow ks st (HS p) c) (step ks (now st (HS p)) c)
    (vresult st g (HS p) (adds_clause (now st (HS p)) c) (sort_use_of (now st (HS p)) c) (keeps_sorts (now st (HS p)) c) (names_sort c)).
Proof.
  intros ks st g p c Hst Hb Hok. cbn [now h_step step adds_clause sort_use_of].
  replace (keeps_sorts (S p) c) with false by (destruct c; reflexivity).
  unfold hs_step, call_step.
  assert (STILL : forall v s, same_slices hd_new (dbof st v) -> items v = NoCells -> ho_last (horder_of v) = None -> box_ref v = None -> now st v = s ->
    agrees (gives st v) (Some (Returns s)) (vresult st g (HS p) false Unused false (names_sort c))).
  { intros v s H1 H2 H3 H4 H5. split; [|exact H5]. apply vres_still; auto. discriminate. }
  assert (CONT : d_step ks (db_now st (hd_of_call p)) c = d_step ks (d_of_call p) c) by reflexivity.
  assert (GO : agrees (hd_step grow ks st (hd_of_call p) c) (d_step ks (d_of_call p) c) (vresult st g (HS p) false Unused false (names_sort c))).
  { rewrite <- CONT. eapply agrees_weaken; [|apply (hd_ok ks st g (hd_of_call p) c); auto].
    - intros st' v' (g' & B1 & B2 & B3 & B4). apply (vres_d st g (HS p) st g); auto.
      + apply only_sorts_refl; auto. intros y Hy. discriminate.
      + exists g'. split; [exact B1|]. split; [exact B2|]. split; [|exact B4].
        destruct (d_adds c); exact B3.
    - apply okdb_new.
    - intros _. apply tipdb_new. }
  destruct c; try exact Logic.I; try exact GO; apply STILL; try reflexivity; unfold same_slices; auto.
Qed.

Lemma hi_ok : forall ks st g b p c, okstore st g -> okboxes st g -> okval st g (HI b p) ->
  let v := HI b p in
  (adds_clause (now st v) c = true -> tipdb g (dbof st v)) ->
  agrees (h_step grow ks st v c) (step ks (now st v) c)
    (vresult st g v (adds_clause (now st v) c) (sort_use_of (now st v) c) (keeps_sorts (now st v) c) (names_sort c)).
Proof.
  intros ks st g b p c Hst Hb Hok v Ht. subst v. cbn [now h_step step sort_use_of].
  set (d := match b with inl b => inl (db_now st (box st b)) | inr m => inr m end) in *.
  replace (keeps_sorts (I d p) c) with false by (destruct c; reflexivity).
  cbn [now] in Ht. fold d in Ht.
  unfold hi_step, call_step.
  assert (STILL : forall p', adds_clause (I d p) c = false ->
    agrees (gives st (HI b p')) (Some (Returns (I d p'))) (vresult st g (HI b p) (adds_clause (I d p) c) Unused false (names_sort c))).
  { intros p' Ha. split; [|reflexivity]. rewrite Ha. apply vres_still; auto; try discriminate. apply same_slices_refl. }
  assert (BOX : forall b0 p', b = inl b0 -> adds_clause (I d p) c = true ->
     b0 < length (s_boxes st) /\ grows st g (box st b0) st g (h_set_call (box st b0) p')
     /\ okstore (set_box st b0 (h_set_call (box st b0) p')) g /\ okboxes (set_box st b0 (h_set_call (box st b0) p')) g
     /\ box (set_box st b0 (h_set_call (box st b0) p')) b0 = h_set_call (box st b0) p').
  { intros b0 p' -> Ha. specialize (Ht Ha). pose proof Hok as (O1 & O2 & O3). cbn [dbof] in O1, Ht.
    assert (G : grows st g (box st b0) st g (h_set_call (box st b0) p')).
    { eapply grows_same; [apply grows_refl; auto|]. unfold same_slices. auto. }
    destruct (set_box_ok st g b0 (h_set_call (box st b0) p') Hst Hb ltac:(apply G) (O3 b0 eq_refl)) as (C1 & C2 & C3 & C4 & C5 & C6 & C7).
    conj; auto. }
  assert (GO : adds_clause (I d p) c = true ->
    agrees match b with inl b => let d := h_set_call (box st b) p in hd_step grow ks (set_box st b d) d c | inr _ => Some Panics end
           match match d with inl d => Some (set_call d p) | inr _ => None end with Some d => d_step ks d c | None => Some Panics end
           (vresult st g (HI b p) (adds_clause (I d p) c) Unused false (names_sort c))).
  { intros Ha. rewrite Ha. destruct b as [b|m]; [|exact Logic.I]. subst d. cbv zeta.
    destruct (BOX b p eq_refl Ha) as (Hlt & G & C1 & C3 & C4).
    change (set_call (db_now st (box st b)) p) with (db_now (set_box st b (h_set_call (box st b) p)) (h_set_call (box st b) p)).
    eapply agrees_weaken; [|apply (hd_ok ks _ g (h_set_call (box st b) p) c); auto; try apply G].
    - intros st3 v3 R. eapply vres_box; [exact Hok|exact Hb|reflexivity|reflexivity|reflexivity|reflexivity|exact G|exact R]. }
  destruct c; try exact Logic.I; try (exact (GO eq_refl)); try (apply STILL; reflexivity).
  (* Where *)
  destruct b as [b|m]; [|exact Logic.I]. subst d.
  set (p' := CallB (p_standalone p) (p_name p) (p_args p) (p_yield p) c).
  destruct (BOX b p' eq_refl eq_refl) as (Hlt & G & C1 & C3 & C4).
  split.
  - eapply vres_here; [exact Hok|exact Hb|reflexivity|reflexivity|reflexivity|reflexivity|exact G| |reflexivity|right; reflexivity].
    left. cbn [dbof]. rewrite C4. apply same_slices_refl.
  - cbn [now]. rewrite C4. reflexivity.
Qed.

(** ** Every method *)
Theorem step_ok : forall ks st g v c, okstore st g -> okboxes st g -> okval st g v ->
  (adds_clause (now st v) c = true -> tipdb g (dbof st v)) -> ready st g v (sort_use_of (now st v) c) ->
  agrees (h_step grow ks st v c) (step ks (now st v) c)
    (vresult st g v (adds_clause (now st v) c) (sort_use_of (now st v) c) (keeps_sorts (now st v) c) (names_sort c)).
Proof.
  intros ks st g v c Hst Hb Hok Ht Hr. destruct v.
  - apply hdp_ok; auto.
  - apply hdp_ok; auto.
  - apply hu_ok; auto.
  - apply hw_ok; auto.
  - apply hr_ok; auto.
  - apply hi_ok; auto.
  - apply hs_ok; auto.
Qed.

(** A function of the package works on a builder that no value has. *)
Lemma start_ok : forall ks st g c, okstore st g -> okboxes st g ->
  agrees (h_start grow ks st c) (start ks c) (vresult st g (HD hd_new) false Unused false false).
Proof.
  intros ks st g c Hst Hb. unfold h_start, start.
  assert (GO : agrees (hd_step grow ks st hd_new c) (d_step ks d_new c) (vresult st g (HD hd_new) false Unused false false)).
  { change d_new with (db_now st hd_new). eapply agrees_weaken; [|apply (hd_ok ks st g hd_new c); auto].
    - intros st' v' (g' & B1 & B2 & B3 & B4). apply (vres_d st g (HD hd_new) st g); auto.
      + apply only_sorts_refl; auto. intros y Hy. discriminate.
      + exists g'. split; [exact B1|]. split; [exact B2|]. split; [|exact B4]. destruct (d_adds c); exact B3.
    - apply okdb_new.
    - intros _. apply tipdb_new. }
  destruct c; try exact Logic.I; try exact GO.
  destruct (procedure_name (ks 0) name); try exact Logic.I.
  split; [|reflexivity]. apply vres_still; auto; try discriminate.
  - unfold okval. simpl. conj; auto using okdb_new. discriminate.
  - apply same_slices_refl.
Qed.

(** ** Build *)
Definition okbuilt (g : tips) (b : hbuilt) : Prop :=
  match b with HBuilt (HStatement ps ss _) => okslice (gp g) ps /\ okslice (gs g) ss | HFails _ => True end.

Lemma built_now_ext : forall st g st' g' b, okstore st g -> extends st g st' g' -> okbuilt g b -> built_now st' b = built_now st b.
Proof.
  intros st g st' g' [[ps ss f]|m] Hst X H; [|reflexivity]. destruct H as [H1 H2]. unfold built_now, statement_now.
  rewrite (parts_now_ext _ _ _ _ _ Hst X H1). destruct X as (_ & _ & _ & X). rewrite (read_ext _ _ _ _ _ X H2). reflexivity.
Qed.

Record bres (st : store) (g : tips) (v : hstate) (adds : bool) (x : sort_use) (st' : store) (b' : hbuilt) (g' : tips) : Prop := BRes {
  br_store : okstore st' g';
  br_ext : extends st g st' g';
  br_boxes : okboxes st' g';
  br_built : okbuilt g' b';
  br_frame : framedb (if adds then dbof st v else hd_new) g g';
  br_sorts : frame (used_slice v x) (gs g) (gs g');
  br_flush : x = Flushed -> forall p, pending_of (horder_of v) = Some p -> flushable st' g' (items v) p;
  br_len : length (s_boxes st') = length (s_boxes st);
  br_box : forall b, b < length (s_boxes st) -> (adds = true /\ writes v = true /\ box_ref v = Some b) \/ box st' b = box st b
}.

Definition bagrees (h : option (outcome (store * hbuilt))) (p : option (outcome built)) (R : store -> hbuilt -> Prop) : Prop :=
  match h, p with
  | Some (Returns (st', v')), Some (Returns s') => R st' v' /\ built_now st' v' = Returns s'
  | Some Panics, Some Panics | Some Diverges, Some Diverges | None, None => True
  | _, _ => False
  end.

Lemma build_impl_ok : forall ks st d s f (R : store -> hbuilt -> Prop), 
  (forall b, (exists k, b = HBuilt (HStatement (h_parts d) s k)) -> R st b) ->
  bagrees (Some (h_build_impl ks st d s f)) (Some (built_of (build_impl ks (db_now st d) (f (read (s_sorts st) s))))) R.
Proof.
  intros ks st d s f R H. unfold h_build_impl.
  set (l := match build_list ks (db_now st d) with inl l => l | inr _ => [] end).
  assert (E : statement_now st (HStatement (h_parts d) s (fun x => single_part_create l (f x))) = build_impl ks (db_now st d) (f (read (s_sorts st) s))).
  { reflexivity. }
  rewrite E. destruct (build_impl ks (db_now st d) (f (read (s_sorts st) s))) as [q| |] eqn:Eb; try exact Logic.I.
  split; [apply H; eauto|]. unfold built_now. rewrite E. reflexivity.
Qed.

Lemma bres_still : forall st g v adds b, okstore st g -> okboxes st g -> okbuilt g b -> 
  ready st g v (build_sort_use (now st v)) -> bres st g v adds (build_sort_use (now st v)) st b g.
Proof.
  intros. constructor; auto using extends_refl, framedb_refl, frame_refl.
  intros E. rewrite E in *. exact H2.
Qed.

Theorem build_ok : forall ks st g v, okstore st g -> okboxes st g -> okval st g v ->
  (build_adds_clause (now st v) = true -> tipdb g (dbof st v)) -> ready st g v (build_sort_use (now st v)) ->
  bagrees (h_build grow ks st v) (build ks (now st v))
    (fun st' b' => exists g', bres st g v (build_adds_clause (now st v)) (build_sort_use (now st v)) st' b' g').
Proof.
  intros ks st g v Hst Hb Hok Ht Hr.
  assert (FAIL : forall m, exists g', bres st g v (build_adds_clause (now st v)) (build_sort_use (now st v)) st (HFails m) g').
  { intros m. exists g. apply bres_still; auto. exact Logic.I. }
  assert (DB : match v with HD _ | HP _ => True | _ => False end ->
     bagrees (Some (hd_build ks st (dbof st v)))
       (Some (match d_err (db_now st (dbof st v)) with Some m => Returns (BuildFails m) | None => built_of (build_impl ks (db_now st (dbof st v)) NoReturn) end))
       (fun st' b' => exists g', bres st g v (build_adds_clause (now st v)) (build_sort_use (now st v)) st' b' g')).
  { intros Hv. unfold hd_build. change (d_err (db_now st (dbof st v))) with (h_err (dbof st v)).
    destruct (h_err (dbof st v)) as [m|]; [split; [apply FAIL|reflexivity]|].
    apply (build_impl_ok ks st (dbof st v) NoCells (fun _ => NoReturn)).
    intros b [k ->]. exists g. apply bres_still; auto. split; [apply Hok|exact Logic.I]. }
  destruct v as [d|b|e b u l x o|e d y l o x|e d l x o|b p|p]; cbn [h_build now build]; try exact Logic.I.
  - exact (DB Logic.I).
  - exact (DB Logic.I).
  - (* U *)
    cbn [u_err u_default u_update u_distinct u_returns u_order].
    destruct e as [m|]; [split; [apply FAIL|reflexivity]|].
    destruct b as [b|]; [|exact Logic.I]. destruct u as [u|]; [|exact Logic.I]. cbn [option_map].
    pose proof Hok as (O1 & O2 & O3). specialize (Ht eq_refl). cbn [dbof items horder_of] in O1, O2, Ht.
    destruct (add_updating_ok (block ks 0) st g (box st b) (build_update (block ks 1) u) Hst O1 Ht) as (g1 & G & E).
    destruct (h_add_updating_clause grow (block ks 0) st (box st b) (build_update (block ks 1) u)) as [st1 d1]. cbn [fst snd] in *.
    pose proof G as (A1 & A2 & A3 & A4 & A5 & A6 & A7 & A8 & A9).
    pose proof (okboxes_ext _ _ _ _ Hb A2 A9) as Hb1.
    assert (Hlt : b < length (s_boxes st1)) by (rewrite A9; apply O3; reflexivity).
    destruct (set_box_ok st1 g1 b d1 A1 Hb1 A5 Hlt) as (C1 & C2 & C3 & C4 & C5 & C6 & C7). cbv zeta in *.
    assert (Hf : forall p, pending_of o = Some p -> flushable (set_box st1 b d1) g1 (ho_items o) p).
    { intros p Hp. cbn [now build_sort_use] in Hr. unfold pending in Hr. cbn [order_of u_order o_last order_now] in Hr.
      unfold flushable. rewrite A7. simpl. rewrite A8.
      unfold pending_of in Hp. destruct (ho_last o) as [[]|] eqn:El; try discriminate.
      apply Hr. cbn [horder_of]. unfold pending_of. rewrite El. exact Hp. }
    assert (O2' : okslice (gs g1) (ho_items o)) by (rewrite A7; exact O2).
    destruct (h_build_return grow (block ks 3) (set_box st1 b d1) x l o) as [st2 [s f]] eqn:Er.
    destruct (build_return_ok _ _ _ _ _ _ _ _ _ C1 O2' Hf Er) as (g2 & (B1 & B2 & B3 & B4 & B5 & B6 & B7 & B8) & Hs & Ef).
    replace (order_now (set_box st1 b d1) o) with (order_now st o) in Ef by (unfold order_now; simpl; rewrite A8; reflexivity).
    rewrite <- Ef. rewrite <- E.
    replace (db_now st1 d1) with (db_now st2 d1) by (rewrite (db_now_ext _ _ _ _ _ C1 B2 A5); apply C7).
    apply (build_impl_ok (block ks 2) st2 d1 s f). intros b' [k ->]. exists g2. constructor; auto.
    + eapply extends_trans; [exact A2|]. exact (extends_trans _ _ _ _ _ _ C2 B2).
    + exact (okboxes_ext _ _ _ _ C3 B2 B7).
    + split; [|exact Hs]. rewrite B4. apply A5.
    + cbn [build_adds_clause dbof]. unfold framedb in *. rewrite B3, B4, B5. exact A3.
    + rewrite <- A7. apply frame_flushed; [|exact B6]. cbn [horder_of]. intros Hp. unfold build_sort_use, pending.
      cbn [order_of u_order o_last order_now]. unfold pending_of in Hp. destruct (ho_last o) as [[]|]; try discriminate; exfalso; apply Hp; reflexivity.
    + rewrite B7, C6, A9. reflexivity.
    + intros b' Hl. cbn [build_adds_clause writes box_ref]. destruct (Nat.eq_dec b' b) as [->|Hne]; [left; auto|right].
      replace (box st2 b') with (box (set_box st1 b d1) b') by (unfold box; rewrite B7; reflexivity). rewrite C5 by exact Hne.
      unfold box. rewrite A9. reflexivity.
  - (* R *)
    cbn [r_err r_default r_distinct r_items r_order].
    destruct e as [m|]; [split; [apply FAIL|reflexivity]|].
    destruct d as [d|]; [|exact Logic.I]. cbn [option_map].
    pose proof Hok as (O1 & O2 & O3). cbn [dbof items horder_of] in O1, O2.
    assert (Hf : forall p, pending_of o = Some p -> flushable st g (ho_items o) p).
    { intros p Hp. cbn [now build_sort_use] in Hr. unfold pending in Hr. cbn [order_of r_order o_last order_now] in Hr.
      unfold pending_of in Hp. destruct (ho_last o) as [[]|] eqn:El; try discriminate.
      apply Hr. cbn [horder_of]. unfold pending_of. rewrite El. exact Hp. }
    destruct (h_build_return grow (block ks 1) st x l o) as [st2 [s f]] eqn:Er.
    destruct (build_return_ok _ _ _ _ _ _ _ _ _ Hst O2 Hf Er) as (g2 & (B1 & B2 & B3 & B4 & B5 & B6 & B7 & B8) & Hs & Ef).
    cbn [horder_of] in Ef. rewrite <- Ef. replace (db_now st d) with (db_now st2 d) by (exact (db_now_ext _ _ _ _ _ Hst B2 O1)).
    apply (build_impl_ok (block ks 0) st2 d s f). intros b' [k ->]. exists g2. constructor; auto.
    + exact (okboxes_ext _ _ _ _ Hb B2 B7).
    + split; [|exact Hs]. rewrite B4. apply O1.
    + cbn [build_adds_clause]. unfold framedb. rewrite B3, B4, B5. conj; apply frame_refl.
    + apply frame_flushed; [|exact B6]. cbn [horder_of]. intros Hp. unfold build_sort_use, pending.
      cbn [order_of r_order o_last order_now]. unfold pending_of in Hp. destruct (ho_last o) as [[]|]; try discriminate; exfalso; apply Hp; reflexivity.
    + rewrite B7. reflexivity.
    + intros b' Hl. right. unfold box. rewrite B7. reflexivity.
  - (* S *)
    destruct (build_call ks p) as [c|m]; [|split; [apply FAIL|reflexivity]].
    split; [|destruct c; reflexivity]. exists g. apply bres_still; auto. simpl. auto.
Qed.

End Spec.
