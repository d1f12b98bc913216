(** Careful programs: memory shows what immutable values would. *)

From Coq Require Import Ascii String List ZArith Bool Arith Lia.
From Verif Require Import GoStr Escape Num VTree Ast GoVal Cond Queries Builder Slices SliceProofs HeapBuilder SpecPersist HeapBuilderProofs.
Import ListNotations.
Open Scope list_scope.

Ltac conj := repeat match goal with |- _ /\ _ => split end.

(** A value in memory, the immutable value and its origin. *)
Definition entry : Type := hstate * (state * origin).
Definition val (e : entry) : hstate := fst e.
Definition ideally (e : entry) : state := fst (snd e).
Definition oc (e : entry) : nat := of_clauses (snd (snd e)).
Definition os (e : entry) : nat := of_sorts (snd (snd e)).
Definition ol (e : entry) : nat := of_last (snd (snd e)).

Definition free (u : uses) (n : nat) : Prop := ~ In n (used_clauses u).
Definition unsorted (u : uses) (n : nat) : Prop := forall x, ~ In (n, x) (used_sorts u).
Definition alive (u : uses) (n : nat) : Prop := ~ In (n, None) (used_sorts u).
Definition only_flushed (u : uses) (n p : nat) : Prop := forall x, In (n, x) (used_sorts u) -> x = Some p.

Definition apart (s s' : slice) : Prop := forall a, array s = Some a -> array s' <> Some a.
Definition apartdb (d d' : hdb) : Prop :=
  apart (h_elements d) (h_elements d') /\ apart (h_parts d) (h_parts d') /\ apart (actions d) (actions d').

Definition shape (s : state) : nat := match s with D _ => 0 | U _ => 1 | W _ => 2 | R _ => 3 | I _ _ => 4 | S _ => 5 end.

Definition readable (u : uses) (e : entry) : Prop := writes (val e) = false \/ free u (oc e).

Record inv (st : store) (g : tips) (es : list entry) (u : uses) (hbs : list hbuilt) (bs : list built) : Prop := Inv {
  i_store : okstore st g;
  i_boxes : okboxes st g;
  i_val : forall e, In e es -> okval st g (val e);
  i_shape : forall e, In e es -> shape (now st (val e)) = shape (ideally e);
  i_now : forall e, In e es -> readable u e -> now st (val e) = ideally e;
  i_tip : forall e, In e es -> free u (oc e) -> tipdb g (dbof st (val e));
  i_apart : forall e1 e2, In e1 es -> In e2 es -> oc e1 <> oc e2 -> free u (oc e1) -> free u (oc e2) ->
    apartdb (dbof st (val e1)) (dbof st (val e2));
  i_box : forall e1 e2 b, In e1 es -> In e2 es -> writes (val e1) = true -> free u (oc e1) ->
    box_ref (val e1) = Some b -> box_ref (val e2) = Some b -> writes (val e2) = true /\ (oc e2 = oc e1 \/ ~ free u (oc e2));
  i_sfree : forall e, In e es -> unsorted u (os e) -> attip (gs g) (items (val e));
  i_sflush : forall e p, In e es -> only_flushed u (os e) (ol e) -> pending_of (horder_of (val e)) = Some p -> flushable st g (items (val e)) p;
  i_sapart : forall e1 e2, In e1 es -> In e2 es -> os e1 <> os e2 -> alive u (os e1) -> alive u (os e2) ->
    apart (items (val e1)) (items (val e2));
  i_ssame : forall e1 e2, In e1 es -> In e2 es -> os e1 = os e2 ->
    items (val e1) = items (val e2) /\ (ol e1 = ol e2 -> ho_last (horder_of (val e1)) = ho_last (horder_of (val e2)));
  i_origin : forall e, In e es -> oc e < length es /\ os e < length es /\ ol e < length es;
  i_used : (forall n, In n (used_clauses u) -> n < length es)
    /\ (forall n x, In (n, x) (used_sorts u) -> n < length es /\ forall p, x = Some p -> p < length es);
  i_built : Forall2 (fun h b => okbuilt g h /\ built_now st h = Returns b) hbs bs
}.

(** ** What holds whatever memory is *)

Lemma shape_now : forall st st' v, shape (now st v) = shape (now st' v).
Proof. intros st st' v. destruct v; reflexivity. Qed.

Lemma writes_now : forall st v, writes v = by_pointer (now st v).
Proof. intros st v. destruct v; reflexivity. Qed.

Lemma by_pointer_shape : forall s s', shape s = shape s' -> by_pointer s = by_pointer s'.
Proof. intros s s' E. destruct s, s'; simpl in *; try discriminate; reflexivity. Qed.

Lemma dbof_box : forall st v b, box_ref v = Some b -> dbof st v = box st b.
Proof. intros st v b E. destruct v as [|?|? [|]| | |[|]|]; simpl in *; congruence. Qed.

Lemma dbof_no_box : forall st st' v, box_ref v = None -> dbof st v = dbof st' v.
Proof. intros st st' v E. destruct v as [|?|? [|]| | |[|]|]; simpl in *; congruence. Qed.

Lemma now_ext : forall st g st' g' v, okstore st g -> extends st g st' g' -> okval st g v -> dbof st' v = dbof st v -> now st' v = now st v.
Proof.
  intros st g st' g' v Hst X (O1 & O2 & O3) Ed.
  assert (D : db_now st' (dbof st' v) = db_now st (dbof st v)) by (rewrite Ed; eapply db_now_ext; eauto).
  assert (O : order_now st' (horder_of v) = order_now st (horder_of v)) by (eapply order_now_ext; eauto).
  destruct v as [d|b|e [b|] u l x o|e [d|] y l o x|e [d|] l x o|[b|m] p|p]; cbn [now option_map] in *; cbn [dbof horder_of] in *;
    try rewrite O; try rewrite D; reflexivity.
Qed.

Lemma frame_none : forall T T' s, okslice T s -> frame NoCells T T' -> attip T s -> attip T' s.
Proof. intros T T' s Hok F Ht. eapply attip_frame; eauto. intros a _. discriminate. Qed.

Lemma tipdb_frame : forall g g' d0 d, okdb g d -> framedb d0 g g' -> apartdb d d0 -> tipdb g d -> tipdb g' d.
Proof.
  intros g g' d0 d (O1 & O2 & O3) (F1 & F2 & F3) (P1 & P2 & P3) (T1 & T2 & T3).
  unfold tipdb; conj; [eapply (attip_frame (h_elements d0))|eapply (attip_frame (h_parts d0))|eapply (attip_frame (actions d0))]; eauto.
Qed.

Lemma apart_sym : forall s s', apart s s' -> apart s' s.
Proof. intros s s' H a E E'. exact (H a E' E). Qed.
Lemma apartdb_sym : forall d d', apartdb d d' -> apartdb d' d.
Proof. intros d d' (A & B & C). unfold apartdb; conj; apply apart_sym; assumption. Qed.

Lemma apart_none : forall s, apart s NoCells.
Proof. intros s a _. discriminate. Qed.
Lemma apartdb_new : forall d, apartdb d hd_new.
Proof. intros. unfold apartdb; conj; apply apart_none. Qed.

Lemma apart_from : forall T s s1 s2, okslice T s -> apart s s1 -> from T s1 s2 -> apart s s2.
Proof.
  intros T s s1 s2 Hok P F a E E2. destruct (F a E2) as [H|H]; [exact (P a E H)|].
  destruct s as [|a' n]; simpl in E; [discriminate|]. injection E as ->. simpl in Hok. lia.
Qed.
Lemma apartdb_from : forall g d d1 d2, okdb g d -> apartdb d d1 -> fromdb g d1 d2 -> apartdb d d2.
Proof. intros g d d1 d2 (O1 & O2 & O3) (A & B & C) (F1 & F2 & F3). unfold apartdb; conj; eapply apart_from; eauto. Qed.

Lemma free_use : forall u o adds x n, free (use u o adds x) n -> free u n.
Proof. intros u o adds x n H K. apply H. unfold use. simpl. destruct adds; simpl; auto. Qed.
Lemma free_use_other : forall u o x n, free (use u o true x) n -> n <> of_clauses o.
Proof. intros u o x n H ->. apply H. simpl. auto. Qed.
Lemma sorts_use : forall u o adds x e, In e (used_sorts u) -> In e (used_sorts (use u o adds x)).
Proof. intros u o adds x e H. unfold use. simpl. destruct x; simpl; auto. Qed.

Lemma clauses_free_ok : forall u o, clauses_free u o = true -> free u (of_clauses o).
Proof.
  intros u o H K. unfold clauses_free in H. apply negb_true_iff in H.
  assert (E : existsb (Nat.eqb (of_clauses o)) (used_clauses u) = true) by (apply existsb_exists; exists (of_clauses o); split; [exact K|apply Nat.eqb_refl]).
  congruence.
Qed.

Lemma sorts_free_appended : forall u o, sorts_free u o Appended = true -> unsorted u (of_sorts o).
Proof.
  intros u o H x K. unfold sorts_free in H. apply negb_true_iff in H.
  assert (E : existsb (fun e => Nat.eqb (of_sorts o) (fst e)) (used_sorts u) = true)
    by (apply existsb_exists; exists (of_sorts o, x); split; [exact K|apply Nat.eqb_refl]).
  congruence.
Qed.

Lemma sorts_free_flushed : forall u o, sorts_free u o Flushed = true -> only_flushed u (of_sorts o) (of_last o).
Proof.
  intros u o H x K. unfold sorts_free in H. rewrite forallb_forall in H. specialize (H _ K). simpl in H. rewrite Nat.eqb_refl in H. simpl in H.
  destruct x as [p|]; [|discriminate]. apply Nat.eqb_eq in H. congruence.
Qed.

(** ** Memory changes, the values stay *)
Record moves (st : store) (g : tips) (v : hstate) (adds : bool) (x : sort_use) (st' : store) (g' : tips) : Prop := Moves {
  mv_store : okstore st' g';
  mv_ext : extends st g st' g';
  mv_boxes : okboxes st' g';
  mv_frame : framedb (if adds then dbof st v else hd_new) g g';
  mv_sorts : frame (used_slice v x) (gs g) (gs g');
  mv_flush : x = Flushed -> forall p, pending_of (horder_of v) = Some p -> flushable st' g' (items v) p;
  mv_len : length (s_boxes st) <= length (s_boxes st');
  mv_box : forall b, b < length (s_boxes st) -> (adds = true /\ writes v = true /\ box_ref v = Some b) \/ box st' b = box st b
}.

Lemma flushable_ext : forall st g st' g' s0 s p, extends st g st' g' -> okslice (gs g) s -> frame s0 (gs g) (gs g') -> apart s s0 ->
  flushable st g s p -> flushable st' g' s p.
Proof.
  intros st g st' g' s0 s p X Hok F P [H|H]; [left|right].
  - eapply attip_frame; eauto.
  - destruct X as (_ & _ & _ & X). eapply settled_ext; eauto.
Qed.

(** The builder of a value that is still of interest does not change. *)
Lemma kept_db : forall st g es u hbs bs e adds x st' g' e2, inv st g es u hbs bs -> In e es -> (adds = true -> free u (oc e)) ->
  moves st g (val e) adds x st' g' -> In e2 es -> readable (use u (snd (snd e)) adds x) e2 -> dbof st' (val e2) = dbof st (val e2).
Proof.
  intros st g es u hbs bs e adds x st' g' e2 H He Hf M H2 Hr.
  destruct (box_ref (val e2)) as [b|] eqn:Eb; [|apply dbof_no_box; exact Eb].
  rewrite !(dbof_box _ _ _ Eb).
  destruct (mv_box _ _ _ _ _ _ _ M b) as [(Ha & Hw & Hb)|E]; [|exfalso|exact E].
  { apply (i_val _ _ _ _ _ _ H e2 H2). exact Eb. }
  destruct (i_box _ _ _ _ _ _ H e e2 b He H2 Hw (Hf Ha) Hb Eb) as [W2 O2]. subst adds.
  destruct Hr as [Hr|Hr]; [congruence|]. destruct O2 as [O2|O2].
  - apply free_use_other in Hr. apply Hr. exact O2.
  - apply free_use in Hr. exact (O2 Hr).
Qed.

Lemma inv_moves : forall st g es u hbs bs e adds x st' g', inv st g es u hbs bs -> In e es -> (adds = true -> free u (oc e)) ->
  sorts_free u (snd (snd e)) x = true -> moves st g (val e) adds x st' g' ->
  inv st' g' es (use u (snd (snd e)) adds x) hbs bs.
Proof.
  intros st g es u hbs bs e adds x st' g' H He Hf Hs M.
  set (u' := use u (snd (snd e)) adds x).
  assert (FU : forall n, free u' n -> free u n) by (intros n; apply free_use).
  assert (KD : forall e2, In e2 es -> readable u' e2 -> dbof st' (val e2) = dbof st (val e2)) by (intros e2 H2 Hr; exact (kept_db _ _ _ _ _ _ e adds x _ _ e2 H He Hf M H2 Hr)).
  pose proof (mv_ext _ _ _ _ _ _ _ M) as X.
  assert (AL : forall n, alive u' n -> alive u n) by (intros n A K; apply A; apply sorts_use; exact K).
  (* sort lists of other origins *)
  assert (SA : forall e2, In e2 es -> alive u' (os e2) -> os e2 <> os e -> apart (items (val e2)) (used_slice (val e) x)).
  { intros e2 H2 A2 Ne. unfold used_slice. destruct x; [apply apart_none| |]; apply (i_sapart _ _ _ _ _ _ H); auto.
    - intros K. apply (sorts_free_appended _ _ Hs _ K).
    - intros K. pose proof (sorts_free_flushed _ _ Hs _ K). discriminate. }
  constructor.
  - apply M.
  - apply M.
  - intros e2 H2. pose proof (i_val _ _ _ _ _ _ H e2 H2) as (O1 & O2 & O3). unfold okval; conj.
    + destruct (box_ref (val e2)) as [b|] eqn:Eb.
      * rewrite (dbof_box _ _ _ Eb). apply (mv_boxes _ _ _ _ _ _ _ M). pose proof (mv_len _ _ _ _ _ _ _ M). specialize (O3 b eq_refl). lia.
      * rewrite (dbof_no_box st' st _ Eb). eapply okdb_ext; eauto.
    + destruct X as (_ & _ & _ & X). eapply okslice_ext; eauto.
    + intros b Eb. pose proof (mv_len _ _ _ _ _ _ _ M). specialize (O3 b Eb). lia.
  - intros e2 H2. rewrite (shape_now st' st). apply (i_shape _ _ _ _ _ _ H); auto.
  - intros e2 H2 Hr. rewrite (now_ext st g st' g'); auto; [|apply H|apply (i_val _ _ _ _ _ _ H); auto].
    apply (i_now _ _ _ _ _ _ H); auto. destruct Hr as [Hr|Hr]; [left|right]; auto.
  - intros e2 H2 Hr. rewrite (KD e2 H2 (or_intror Hr)).
    pose proof (i_tip _ _ _ _ _ _ H e2 H2 (FU _ Hr)) as T. pose proof (mv_frame _ _ _ _ _ _ _ M) as F.
    pose proof (i_val _ _ _ _ _ _ H e2 H2) as (O1 & _).
    destruct adds; (eapply tipdb_frame; [exact O1|exact F| |exact T]); [|apply apartdb_new].
    apply (i_apart _ _ _ _ _ _ H); auto. apply free_use_other in Hr. exact Hr.
  - intros e1 e2 H1 H2 Ne F1 F2. rewrite (KD e1 H1 (or_intror F1)), (KD e2 H2 (or_intror F2)). apply (i_apart _ _ _ _ _ _ H); auto.
  - intros e1 e2 b H1 H2 W1 F1 B1 B2. destruct (i_box _ _ _ _ _ _ H e1 e2 b H1 H2 W1 (FU _ F1) B1 B2) as [W2 O2]. split; [exact W2|].
    destruct O2 as [O2|O2]; [left; exact O2|right]. intros K. apply O2. apply FU. exact K.
  - intros e2 H2 Hu. assert (Hu' : unsorted u (os e2)) by (intros y K; apply (Hu y); apply sorts_use; exact K).
    pose proof (i_sfree _ _ _ _ _ _ H e2 H2 Hu') as T. pose proof (i_val _ _ _ _ _ _ H e2 H2) as (_ & O2 & _).
    eapply attip_frame; [exact O2|exact (mv_sorts _ _ _ _ _ _ _ M)| |exact T].
    destruct (Nat.eq_dec (os e2) (os e)) as [E|Ne].
    + unfold used_slice. destruct x; [intros a _; discriminate|exfalso|exfalso]; eapply Hu; unfold u', use; simpl; left; rewrite E; reflexivity.
    + apply SA; auto. intros K. exact (Hu _ K).
  - intros e2 p H2 Hu Hp.
    assert (Hu' : only_flushed u (os e2) (ol e2)) by (intros y K; apply Hu; apply sorts_use; exact K).
    pose proof (i_sflush _ _ _ _ _ _ H e2 p H2 Hu' Hp) as T. pose proof (i_val _ _ _ _ _ _ H e2 H2) as (_ & O2 & _).
    destruct (Nat.eq_dec (os e2) (os e)) as [E|Ne].
    + destruct (i_ssame _ _ _ _ _ _ H e2 e H2 He E) as [Ei El]. destruct x.
      * eapply flushable_ext; [exact X|exact O2|exact (mv_sorts _ _ _ _ _ _ _ M)|apply apart_none|exact T].
      * exfalso. assert (K : In (os e2, None) (used_sorts u')) by (unfold u', use; simpl; left; rewrite E; reflexivity).
        specialize (Hu _ K). discriminate.
      * assert (K : In (os e2, Some (ol e)) (used_sorts u')) by (unfold u', use; simpl; left; rewrite E; reflexivity).
        specialize (Hu _ K). injection Hu as Eo. specialize (El (eq_sym Eo)).
        rewrite Ei. apply (mv_flush _ _ _ _ _ _ _ M eq_refl). unfold pending_of in *. rewrite <- El. exact Hp.
    + eapply flushable_ext; [exact X|exact O2|exact (mv_sorts _ _ _ _ _ _ _ M)|apply SA; auto|exact T].
      intros K. specialize (Hu _ K). discriminate.
  - intros e1 e2 H1 H2 Ne A1 A2. apply (i_sapart _ _ _ _ _ _ H); auto.
  - apply H.
  - apply H.
  - destruct (i_used _ _ _ _ _ _ H) as [U1 U2]. destruct (i_origin _ _ _ _ _ _ H e He) as (L1 & L2 & L3). split.
    + intros n K. unfold u', use in K. simpl in K. destruct adds; [destruct K as [<-|K]; [exact L1|]|]; auto.
    + intros n y K. unfold u', use in K. simpl in K. destruct x; simpl in K; auto; (destruct K as [K|K]; [injection K as <- <-|auto]); split; auto; intros p Ep; [discriminate|].
      injection Ep as <-. exact L3.
  - pose proof (i_store _ _ _ _ _ _ H) as Hst. pose proof (i_built _ _ _ _ _ _ H) as B. clear - Hst X B. induction B as [|h b hs bs' [B1 B2] B IH]; constructor; auto.
    split; [|rewrite (built_now_ext st g st' g' h Hst X B1); exact B2].
    destruct h as [[ps ss k]|]; [|exact Logic.I]. simpl in *. destruct X as (X1 & X2 & X3 & X4). destruct B1.
    split; eapply okslice_ext; eauto.
Qed.

(** ** A value is added *)

Lemma inv_add : forall st g es u hbs bs v s o, inv st g es u hbs bs ->
  okval st g v -> now st v = s ->
  (free u (of_clauses o) -> tipdb g (dbof st v)) ->
  (forall e, In e es -> oc e <> of_clauses o -> free u (oc e) -> free u (of_clauses o) -> apartdb (dbof st (val e)) (dbof st v)) ->
  (forall e b, In e es -> writes v = true -> free u (of_clauses o) -> box_ref v = Some b -> box_ref (val e) = Some b ->
     writes (val e) = true /\ (oc e = of_clauses o \/ ~ free u (oc e))) ->
  (forall e b, In e es -> writes (val e) = true -> free u (oc e) -> box_ref (val e) = Some b -> box_ref v = Some b ->
     writes v = true /\ (of_clauses o = oc e \/ ~ free u (of_clauses o))) ->
  (unsorted u (of_sorts o) -> attip (gs g) (items v)) ->
  (forall p, only_flushed u (of_sorts o) (of_last o) -> pending_of (horder_of v) = Some p -> flushable st g (items v) p) ->
  (forall e, In e es -> os e <> of_sorts o -> alive u (os e) -> alive u (of_sorts o) -> apart (items (val e)) (items v)) ->
  (forall e, In e es -> os e = of_sorts o ->
     items (val e) = items v /\ (ol e = of_last o -> ho_last (horder_of (val e)) = ho_last (horder_of v))) ->
  of_clauses o <= length es -> of_sorts o <= length es -> of_last o <= length es ->
  inv st g (es ++ [(v, (s, o))]) u hbs bs.
Proof.
  intros st g es u hbs bs v s o H V N T P B1 B2 SF SL SP SS L1 L2 L3.
  assert (CASE : forall e, In e (es ++ [(v, (s, o))]) -> In e es \/ e = (v, (s, o))).
  { intros e K. apply in_app_iff in K. destruct K as [K|[K|[]]]; auto. }
  assert (LEN : length (es ++ [(v, (s, o))]) = Datatypes.S (length es)) by (rewrite app_length; simpl; lia).
  constructor.
  - apply H.
  - apply H.
  - intros e K. destruct (CASE e K) as [K'| ->]; [apply H; auto|exact V].
  - intros e K. destruct (CASE e K) as [K'| ->]; [apply H; auto|]. unfold val, ideally. simpl. rewrite N. reflexivity.
  - intros e K. destruct (CASE e K) as [K'| ->]; [apply H; auto|]. intros _. exact N.
  - intros e K. destruct (CASE e K) as [K'| ->]; [apply H; auto|]. exact T.
  - intros e1 e2 K1 K2 Ne F1 F2. destruct (CASE e1 K1) as [K1'| ->], (CASE e2 K2) as [K2'| ->].
    + apply (i_apart _ _ _ _ _ _ H); auto.
    + apply P; auto.
    + apply apartdb_sym. apply P; auto.
    + congruence.
  - intros e1 e2 b K1 K2 W1 F1 E1 E2. destruct (CASE e1 K1) as [K1'| ->], (CASE e2 K2) as [K2'| ->].
    + eapply (i_box _ _ _ _ _ _ H); eauto.
    + apply (B2 e1 b); auto.
    + apply (B1 e2 b); auto.
    + auto.
  - intros e K. destruct (CASE e K) as [K'| ->]; [apply H; auto|]. exact SF.
  - intros e p K. destruct (CASE e K) as [K'| ->]; [apply H; auto|]. exact (SL p).
  - intros e1 e2 K1 K2 Ne F1 F2. destruct (CASE e1 K1) as [K1'| ->], (CASE e2 K2) as [K2'| ->].
    + apply (i_sapart _ _ _ _ _ _ H); auto.
    + apply SP; auto.
    + apply apart_sym. apply SP; auto.
    + congruence.
  - intros e1 e2 K1 K2 E. destruct (CASE e1 K1) as [K1'| ->], (CASE e2 K2) as [K2'| ->].
    + apply (i_ssame _ _ _ _ _ _ H); auto.
    + apply SS; auto.
    + destruct (SS e2 K2' (eq_sym E)) as [A C]. split; [auto|]. intros E'. symmetry. apply C. auto.
    + auto.
  - intros e K. rewrite LEN. destruct (CASE e K) as [K'| ->].
    + destruct (i_origin _ _ _ _ _ _ H e K') as (? & ? & ?). lia.
    + unfold oc, os, ol. simpl. lia.
  - rewrite LEN. destruct (i_used _ _ _ _ _ _ H) as [U1 U2]. split.
    + intros n K. specialize (U1 n K). lia.
    + intros n y K. destruct (U2 n y K) as [A C]. split; [lia|]. intros p Ep. specialize (C p Ep). lia.
  - apply H.
Qed.

(** A function of the package. *)
Lemma inv_start : forall st g es u hbs bs st' v s, inv st g es u hbs bs ->
  vresult st g (HD hd_new) false Unused false false st' v -> now st' v = s ->
  exists g', inv st' g' (es ++ [(v, (s, Origin (length es) (length es) (length es)))]) u hbs bs.
Proof.
  intros st g es u hbs bs st' v s H (g' & R) N. exists g'.
  assert (M : moves st g (HD hd_new) false Unused st' g') by (destruct R; constructor; auto).
  (* no value is concerned *)
  assert (H' : inv st' g' es u hbs bs).
  { pose proof (vr_ext _ _ _ _ _ _ _ _ _ _ R) as X. pose proof (vr_sorts _ _ _ _ _ _ _ _ _ _ R) as F.
    assert (KD : forall e2, In e2 es -> dbof st' (val e2) = dbof st (val e2)).
    { intros e2 H2. destruct (box_ref (val e2)) as [b|] eqn:Eb; [|apply dbof_no_box; exact Eb]. rewrite !(dbof_box _ _ _ Eb).
      destruct (vr_box _ _ _ _ _ _ _ _ _ _ R b) as [(Ha & _)|E]; [|discriminate|exact E].
      apply (i_val _ _ _ _ _ _ H e2 H2). exact Eb. }
    constructor; try apply H; try apply R.
    - intros e2 H2. pose proof (i_val _ _ _ _ _ _ H e2 H2) as (O1 & O2 & O3). unfold okval; conj.
      + rewrite (KD e2 H2). eapply okdb_ext; eauto.
      + destruct X as (_ & _ & _ & X). eapply okslice_ext; eauto.
      + intros b Eb. pose proof (vr_len _ _ _ _ _ _ _ _ _ _ R). specialize (O3 b Eb). lia.
    - intros e2 H2. rewrite (shape_now st' st). apply (i_shape _ _ _ _ _ _ H); auto.
    - intros e2 H2 Hr. rewrite (now_ext st g st' g'); auto; [|apply H|apply (i_val _ _ _ _ _ _ H); auto].
      apply (i_now _ _ _ _ _ _ H); auto.
    - intros e2 H2 Hr. rewrite (KD e2 H2). pose proof (i_val _ _ _ _ _ _ H e2 H2) as (O1 & _).
      eapply tipdb_frame; [exact O1|exact (vr_frame _ _ _ _ _ _ _ _ _ _ R)|apply apartdb_new|apply (i_tip _ _ _ _ _ _ H); auto].
    - intros e1 e2 H1 H2 Ne F1 F2. rewrite (KD e1 H1), (KD e2 H2). apply (i_apart _ _ _ _ _ _ H); auto.
    - intros e2 H2 Hu. pose proof (i_val _ _ _ _ _ _ H e2 H2) as (_ & O2 & _).
      eapply frame_none; [exact O2|exact F|apply (i_sfree _ _ _ _ _ _ H); auto].
    - intros e2 p H2 Hu Hp. pose proof (i_val _ _ _ _ _ _ H e2 H2) as (_ & O2 & _).
      eapply flushable_ext; [exact X|exact O2|exact F|apply apart_none|apply (i_sflush _ _ _ _ _ _ H); auto].
    - pose proof (i_store _ _ _ _ _ _ H) as Hst. pose proof (i_built _ _ _ _ _ _ H) as B. clear - Hst X B.
      induction B as [|h b hs bs' [B1 B2] B IH]; constructor; auto.
      split; [|rewrite (built_now_ext st g st' g' h Hst X B1); exact B2].
      destruct h as [[ps ss k]|]; [|exact Logic.I]. simpl in *. destruct X as (X1 & X2 & X3 & X4). destruct B1.
      split; eapply okslice_ext; eauto. }
  destruct (i_used _ _ _ _ _ _ H) as [U1 U2].
  destruct (vr_new _ _ _ _ _ _ _ _ _ _ R eq_refl) as (Hat & Hfr & Hno).
  assert (NO : items v = NoCells) by (destruct Hno; [discriminate|assumption]).
  assert (OLD : forall e b, In e es -> box_ref v = Some b -> box_ref (val e) = Some b -> False).
  { intros e b K E1 E2. destruct (vr_ref _ _ _ _ _ _ _ _ _ _ R b E1) as [L|[L _]]; [|discriminate].
    destruct (i_val _ _ _ _ _ _ H e K) as (_ & _ & O3). specialize (O3 b E2). lia. }
  apply inv_add; simpl; auto; try lia.
  - apply R.
  - intros _. apply (vr_tip _ _ _ _ _ _ _ _ _ _ R). apply tipdb_new.
  - intros e K Ne F1 _. destruct (i_val _ _ _ _ _ _ H e K) as (O1 & _).
    assert (KD : dbof st' (val e) = dbof st (val e)).
    { destruct (box_ref (val e)) as [b|] eqn:Eb; [|apply dbof_no_box; exact Eb]. rewrite !(dbof_box _ _ _ Eb).
      destruct (vr_box _ _ _ _ _ _ _ _ _ _ R b) as [(Ha & _)|E]; [|discriminate|exact E].
      apply (i_val _ _ _ _ _ _ H e K). exact Eb. }
    rewrite KD. eapply apartdb_from; [exact O1|apply apartdb_new|exact (vr_from _ _ _ _ _ _ _ _ _ _ R)].
  - intros e b K _ _ E1 E2. exfalso. eauto.
  - intros e b K _ _ E1 E2. exfalso. eauto.
  - intros p _ Hp. rewrite NO. left. exact Logic.I.
  - intros e K _ _ _. rewrite NO. apply apart_none.
  - intros e K E. destruct (i_origin _ _ _ _ _ _ H e K) as (_ & L & _). lia.
Qed.

Lemma keeps_unused : forall s c, keeps_sorts s c = true -> sort_use_of s c = Unused.
Proof.
  intros s c H. destruct s; simpl in *; try reflexivity.
  - destruct c; simpl in *; try discriminate H; try reflexivity; destruct u as [? [] [] ? ? ?]; simpl in H; try discriminate H; reflexivity.
  - destruct c; simpl in *; try discriminate H; reflexivity.
  - destruct c; simpl in *; try discriminate H; reflexivity.
Qed.

Lemma keeps_adds : forall s c, keeps_clauses s c = true -> adds_clause s c = false.
Proof. intros s c H. unfold keeps_clauses in H. destruct s; try discriminate; apply negb_true_iff in H; exact H. Qed.

Lemma fresh_origin : forall st v c, keeps_clauses (now st v) c = false -> adds_clause (now st v) c = false ->
  dbof st v = hd_new /\ box_ref v = None.
Proof. intros st v c H A. unfold keeps_clauses in H. destruct v; cbn [now] in *; try (rewrite A in H; discriminate); auto. Qed.

(** A method. *)
Lemma inv_do : forall st g es u hbs bs e c st' v' s', inv st g es u hbs bs -> In e es ->
  now st (val e) = ideally e ->
  (adds_clause (ideally e) c = true -> free u (oc e)) -> sorts_free u (snd (snd e)) (sort_use_of (ideally e) c) = true ->
  vresult st g (val e) (adds_clause (ideally e) c) (sort_use_of (ideally e) c) (keeps_sorts (ideally e) c) (names_sort c) st' v' ->
  now st' v' = s' ->
  exists g', inv st' g' (es ++ [(v', (s', next_origin (length es) (snd (snd e)) (ideally e) c))])
               (use u (snd (snd e)) (adds_clause (ideally e) c) (sort_use_of (ideally e) c)) hbs bs.
Proof.
  intros st g es u hbs bs e c st' v' s' H He En Hf Hs (g' & R) N. exists g'.
  set (adds := adds_clause (ideally e) c) in *. set (x := sort_use_of (ideally e) c) in *.
  assert (M : moves st g (val e) adds x st' g') by (destruct R; constructor; auto).
  pose proof (inv_moves _ _ _ _ _ _ _ _ _ _ _ H He Hf Hs M) as H'.
  set (u' := use u (snd (snd e)) adds x) in *.
  assert (KD : forall e2, In e2 es -> readable u' e2 -> dbof st' (val e2) = dbof st (val e2))
    by (intros e2 H2 Hr; exact (kept_db _ _ _ _ _ _ e adds x _ _ e2 H He Hf M H2 Hr)).
  destruct (i_used _ _ _ _ _ _ H') as [U1 U2]. destruct (i_origin _ _ _ _ _ _ H e He) as (L1 & L2 & L3).
  assert (FU : forall n, free u' n -> free u n) by (intros n; apply free_use).
  assert (OLD : forall e2 b, In e2 es -> box_ref v' = Some b -> box_ref (val e2) = Some b -> box_ref (val e) = Some b /\ writes (val e) = true).
  { intros e2 b K E1 E2. destruct (vr_ref _ _ _ _ _ _ _ _ _ _ R b E1) as [L|L]; [|exact L].
    destruct (i_val _ _ _ _ _ _ H e2 K) as (_ & _ & O3). specialize (O3 b E2). lia. }
  (* how the clauses of the new value relate to those of the old *)
  assert (CASES : (keeps_clauses (ideally e) c = true /\ adds = false) \/ (keeps_clauses (ideally e) c = false /\ adds = true)
                  \/ (keeps_clauses (ideally e) c = false /\ adds = false /\ dbof st (val e) = hd_new /\ box_ref (val e) = None)).
  { destruct (keeps_clauses (ideally e) c) eqn:Ek; [left; split; [reflexivity|apply keeps_adds; exact Ek]|right].
    destruct adds eqn:Ea; [left; auto|right]. split; [reflexivity|]. split; [reflexivity|].
    apply (fresh_origin st (val e) c); rewrite En; [exact Ek|exact Ea]. }
  assert (KS : keeps_sorts (ideally e) c = true -> x = Unused) by apply keeps_unused.
  assert (ADDED : forall n, adds = true -> free u' n -> n <> oc e).
  { intros n Ea Fn ->. unfold u' in Fn. rewrite Ea in Fn. apply free_use_other in Fn. apply Fn. reflexivity. }
  apply inv_add; auto.
  - apply R.
  - (* tip *)
    unfold next_origin. cbn [of_clauses]. intros Fr. apply (vr_tip _ _ _ _ _ _ _ _ _ _ R).
    destruct CASES as [[Ek Ea]|[[Ek Ea]|[Ek [Ea [Ed _]]]]].
    + rewrite Ek in Fr. apply (i_tip _ _ _ _ _ _ H e He). apply FU. exact Fr.
    + apply (i_tip _ _ _ _ _ _ H e He). apply Hf. exact Ea.
    + rewrite Ed. apply tipdb_new.
  - (* apart *)
    unfold next_origin. cbn [of_clauses]. intros e2 K Ne F2 Fn. rewrite (KD e2 K (or_intror F2)).
    destruct (i_val _ _ _ _ _ _ H e2 K) as (O1 & _).
    eapply apartdb_from; [exact O1| |exact (vr_from _ _ _ _ _ _ _ _ _ _ R)].
    destruct CASES as [[Ek Ea]|[[Ek Ea]|[Ek [Ea [Ed _]]]]].
    + rewrite Ek in *. apply (i_apart _ _ _ _ _ _ H); auto.
    + apply (i_apart _ _ _ _ _ _ H); auto.
    + rewrite Ed. apply apartdb_new.
  - (* the new value's pointer *)
    unfold next_origin. cbn [of_clauses]. intros e2 b K W F E1 E2. destruct (OLD e2 b K E1 E2) as [Eb We].
    destruct CASES as [[Ek Ea]|[[Ek Ea]|[Ek [Ea [_ Ed]]]]]; [| |congruence].
    + rewrite Ek in *. destruct (i_box _ _ _ _ _ _ H e e2 b He K We (FU _ F) Eb E2) as [W2 [O2|O2]]; split; auto.
    + rewrite Ek in *. destruct (i_box _ _ _ _ _ _ H e e2 b He K We (Hf Ea) Eb E2) as [W2 O2]. split; [exact W2|]. right. intros Fr. destruct O2 as [O2|O2]; [exact (ADDED _ Ea Fr O2)|auto].
  - unfold next_origin. cbn [of_clauses]. intros e2 b K W F E2 E1. destruct (OLD e2 b K E1 E2) as [Eb We].
    destruct CASES as [[Ek Ea]|[[Ek Ea]|[Ek [Ea [_ Ed]]]]]; [| |congruence].
    + rewrite Ek in *. destruct (i_val _ _ _ _ _ _ H e2 K) as (_ & _ & O3).
      destruct (i_box _ _ _ _ _ _ H e2 e b K He W (FU _ F) E2 Eb) as [_ O2]. split; [exact (vr_writes _ _ _ _ _ _ _ _ _ _ R Ea b E1 (O3 b E2))|].
      destruct O2 as [O2|O2]; auto.
    + exfalso. destruct (i_box _ _ _ _ _ _ H e e2 b He K We (Hf Ea) Eb E2) as [_ [O2|O2]]; [exact (ADDED _ Ea F O2)|auto].
  - (* sort items *)
    unfold next_origin. cbn [of_sorts]. destruct (keeps_sorts (ideally e) c) eqn:Ek; intros Hu.
    + destruct (vr_keep _ _ _ _ _ _ _ _ _ _ R eq_refl) as [Ei _]. rewrite Ei. apply (i_sfree _ _ _ _ _ _ H'); auto.
    + apply (vr_new _ _ _ _ _ _ _ _ _ _ R eq_refl).
  - unfold next_origin. cbn [of_sorts of_last]. intros p. destruct (keeps_sorts (ideally e) c) eqn:Ek; intros Hu Hp.
    + destruct (vr_keep _ _ _ _ _ _ _ _ _ _ R eq_refl) as [Ei El]. rewrite Ei. destruct (names_sort c); cbn [negb andb] in Hu.
      * left. apply (i_sfree _ _ _ _ _ _ H'); auto. intros y K. specialize (Hu y K). destruct (U2 _ _ K) as [_ U]. specialize (U _ Hu). lia.
      * apply (i_sflush _ _ _ _ _ _ H'); auto. unfold pending_of in *. rewrite <- (El eq_refl). exact Hp.
    + left. apply (vr_new _ _ _ _ _ _ _ _ _ _ R eq_refl).
  - unfold next_origin. cbn [of_sorts]. intros e2 K Ne A1 A2. destruct (keeps_sorts (ideally e) c) eqn:Ek.
    + destruct (vr_keep _ _ _ _ _ _ _ _ _ _ R eq_refl) as [Ei _]. rewrite Ei. apply (i_sapart _ _ _ _ _ _ H'); auto.
    + destruct (vr_new _ _ _ _ _ _ _ _ _ _ R eq_refl) as (_ & Fr & [Ex|Ex]); [|rewrite Ex; apply apart_none].
      destruct (i_val _ _ _ _ _ _ H e2 K) as (_ & O2 & _). eapply apart_from; [exact O2| |exact Fr].
      apply (i_sapart _ _ _ _ _ _ H); auto.
      * intros E. apply A1. unfold u', use. rewrite Ex. cbn [used_sorts]. left. rewrite E. reflexivity.
      * intros Q. apply A1. apply sorts_use. exact Q.
      * intros Q. rewrite Ex in Hs. exact (sorts_free_appended _ _ Hs _ Q).
  - unfold next_origin. cbn [of_sorts of_last]. intros e2 K E. destruct (keeps_sorts (ideally e) c) eqn:Ek.
    + destruct (vr_keep _ _ _ _ _ _ _ _ _ _ R eq_refl) as [Ei El]. rewrite Ei.
      destruct (i_ssame _ _ _ _ _ _ H e2 e K He E) as [Es Eo]. split; [exact Es|].
      destruct (names_sort c); cbn [negb andb]; intros Ol.
      * destruct (i_origin _ _ _ _ _ _ H e2 K) as (_ & _ & L). lia.
      * rewrite (El eq_refl). apply Eo. exact Ol.
    + destruct (i_origin _ _ _ _ _ _ H e2 K) as (_ & L & _). lia.
  - unfold next_origin. cbn [of_clauses]. destruct (keeps_clauses (ideally e) c); [|lia]. unfold oc in L1. lia.
  - unfold next_origin. cbn [of_sorts]. destruct (keeps_sorts (ideally e) c); [|lia]. unfold os in L2. lia.
  - unfold next_origin. cbn [of_last]. destruct (keeps_sorts (ideally e) c && negb (names_sort c))%bool; [|lia]. unfold ol in L3. lia.
Qed.

(** Build. *)
Lemma inv_finish : forall st g es u hbs bs e st' h b, inv st g es u hbs bs -> In e es ->
  (build_adds_clause (ideally e) = true -> free u (oc e)) -> sorts_free u (snd (snd e)) (build_sort_use (ideally e)) = true ->
  (exists g', bres st g (val e) (build_adds_clause (ideally e)) (build_sort_use (ideally e)) st' h g') ->
  built_now st' h = Returns b ->
  exists g', inv st' g' es (use u (snd (snd e)) (build_adds_clause (ideally e)) (build_sort_use (ideally e))) (hbs ++ [h]) (bs ++ [b]).
Proof.
  intros st g es u hbs bs e st' h b H He Hf Hs (g' & R) N. exists g'.
  assert (M : moves st g (val e) (build_adds_clause (ideally e)) (build_sort_use (ideally e)) st' g').
  { destruct R. constructor; auto. rewrite br_len. lia. }
  pose proof (inv_moves _ _ _ _ _ _ _ _ _ _ _ H He Hf Hs M) as H'.
  destruct H'. constructor; auto. apply Forall2_app; [assumption|]. constructor; [|constructor]. split; [apply R|exact N].
Qed.

(** ** Programs *)

Lemma ready_ok : forall st g es u hbs bs e x, inv st g es u hbs bs -> In e es -> sorts_free u (snd (snd e)) x = true -> ready st g (val e) x.
Proof.
  intros st g es u hbs bs e x H He Hs. destruct x; [exact Logic.I| |].
  - apply (i_sfree _ _ _ _ _ _ H); auto. apply sorts_free_appended. exact Hs.
  - intros p Hp. apply (i_sflush _ _ _ _ _ _ H); auto. apply sorts_free_flushed. exact Hs.
Qed.

Lemma nth_map : forall A B (f : A -> B) l i, nth_error (map f l) i = option_map f (nth_error l i).
Proof. induction l; destruct i; simpl; auto. Qed.

Theorem careful_ok : forall grow ps st g es u hbs bs, inv st g es u hbs bs -> careful_from (map snd es) u ps = true ->
  match actual grow st (map val es) hbs ps, ideal (map ideally es) bs ps with
  | Some (Returns (st', vs', hbs')), Some (Returns (ss', bs')) =>
      exists g' es' u', inv st' g' es' u' hbs' bs' /\ map val es' = vs' /\ map ideally es' = ss'
  | Some Panics, Some Panics | Some Diverges, Some Diverges | None, None => True
  | _, _ => False
  end.
Proof.
  intros grow. induction ps as [|p ps IH]; intros st g es u hbs bs H C.
  { simpl. exists g, es, u. auto. }
  destruct p as [ks c|ks i c|ks i]; cbn [actual ideal careful_from] in *.
  - pose proof (start_ok grow ks st g c (i_store _ _ _ _ _ _ H) (i_boxes _ _ _ _ _ _ H)) as A. unfold agrees in A.
    destruct (h_start grow ks st c) as [[[st' v]| |]|], (start ks c) as [[s| |]|]; try contradiction; try exact Logic.I.
    destruct A as [R N]. cbn [after fst snd]. destruct (inv_start _ _ _ _ _ _ _ _ _ H R N) as [g' H'].
    specialize (IH st' g' _ u hbs bs H'). rewrite !map_app in IH. cbn [map val ideally fst snd] in IH. apply IH. rewrite map_length in C. exact C.
  - rewrite nth_map in C. rewrite !nth_map. unfold entry in *.
    destruct (nth_error es i) as [e|] eqn:Ee; [|exact Logic.I]. cbn [option_map] in *.
    assert (He : In e es) by (eapply nth_error_In; exact Ee).
    destruct (snd e) as [s o] eqn:Es. apply andb_true_iff in C. destruct C as [Al C].
    unfold allowed in Al. apply andb_true_iff in Al. destruct Al as [Al1 Al2].
    assert (Ei : ideally e = s) by (unfold ideally; rewrite Es; reflexivity). rewrite <- Ei in *.
    assert (Eo : snd (snd e) = o) by (rewrite Es; reflexivity).
    assert (Hp : (adds_clause (ideally e) c || by_pointer (ideally e))%bool = true -> free u (oc e)).
    { intros K. rewrite K in Al1. simpl in Al1. unfold oc. rewrite Eo. apply clauses_free_ok. exact Al1. }
    assert (Hf : adds_clause (ideally e) c = true -> free u (oc e)) by (intros K; apply Hp; rewrite K; reflexivity).
    assert (En : now st (val e) = ideally e).
    { apply (i_now _ _ _ _ _ _ H e He). unfold readable. rewrite (writes_now st), (by_pointer_shape _ _ (i_shape _ _ _ _ _ _ H e He)).
      destruct (by_pointer (ideally e)); [right; apply Hp; apply orb_true_r|left; reflexivity]. }
    rewrite <- Eo in Al2.
    pose proof (step_ok grow ks st g (val e) c (i_store _ _ _ _ _ _ H) (i_boxes _ _ _ _ _ _ H) (i_val _ _ _ _ _ _ H e He)) as A.
    rewrite En in A. specialize (A (fun K => i_tip _ _ _ _ _ _ H e He (Hf K)) (ready_ok _ _ _ _ _ _ _ _ H He Al2)). unfold agrees in A.
    destruct (h_step grow ks st (val e) c) as [[[st' v]| |]|], (step ks (ideally e) c) as [[s'| |]|]; try contradiction; try exact Logic.I.
    destruct A as [R N]. cbn [after fst snd].
    destruct (inv_do _ _ _ _ _ _ e c st' v s' H He En Hf Al2 R N) as [g' H'].
    specialize (IH st' g' _ _ hbs bs H'). rewrite !map_app in IH. cbn [map val ideally fst snd] in IH. apply IH. rewrite map_length, <- Eo in C. exact C.
  - rewrite nth_map in C. rewrite !nth_map. unfold entry in *.
    destruct (nth_error es i) as [e|] eqn:Ee; [|exact Logic.I]. cbn [option_map] in *.
    assert (He : In e es) by (eapply nth_error_In; exact Ee).
    destruct (snd e) as [s o] eqn:Es. apply andb_true_iff in C. destruct C as [Al C].
    unfold allowed in Al. apply andb_true_iff in Al. destruct Al as [Al1 Al2].
    assert (Ei : ideally e = s) by (unfold ideally; rewrite Es; reflexivity). rewrite <- Ei in *.
    assert (Eo : snd (snd e) = o) by (rewrite Es; reflexivity).
    assert (Hf : build_adds_clause (ideally e) = true -> free u (oc e)).
    { intros K. rewrite K in Al1. simpl in Al1. unfold oc. rewrite Eo. apply clauses_free_ok. exact Al1. }
    rewrite <- Eo in Al2.
    (* an in-query procedure call has no Build *)
    assert (CASE : now st (val e) = ideally e \/ (exists b p, val e = HI b p)).
    { destruct (val e) as [d|b|? ? ? ? ? ?|? ? ? ? ? ?|? ? ? ? ?|b p|p] eqn:Ev; try (right; eauto; fail); left; rewrite <- Ev;
        apply (i_now _ _ _ _ _ _ H e He); unfold readable; rewrite Ev; try (left; reflexivity).
      right. apply Hf. pose proof (i_shape _ _ _ _ _ _ H e He) as Sh. rewrite Ev in Sh. simpl in Sh.
      destruct (ideally e); try discriminate. reflexivity. }
    destruct CASE as [En|[b [p Ev]]].
    2: { pose proof (i_shape _ _ _ _ _ _ H e He) as Sh. rewrite Ev in *. simpl in Sh. destruct (ideally e); try discriminate. exact Logic.I. }
    pose proof (build_ok grow ks st g (val e) (i_store _ _ _ _ _ _ H) (i_boxes _ _ _ _ _ _ H) (i_val _ _ _ _ _ _ H e He)) as A.
    rewrite En in A. specialize (A (fun K => i_tip _ _ _ _ _ _ H e He (Hf K)) (ready_ok _ _ _ _ _ _ _ _ H He Al2)). unfold bagrees in A.
    destruct (h_build grow ks st (val e)) as [[[st' h]| |]|], (build ks (ideally e)) as [[b| |]|]; try contradiction; try exact Logic.I.
    destruct A as [R N]. cbn [after fst snd].
    destruct (inv_finish _ _ _ _ _ _ e st' h b H He Hf Al2 R N) as [g' H'].
    specialize (IH st' g' _ _ _ _ H'). apply IH. rewrite <- Eo in C. exact C.
Qed.

Lemma inv_empty : inv empty_store (Tips [] [] [] []) [] no_uses [] [].
Proof.
  constructor; try (intros; simpl in *; contradiction).
  - unfold okstore, empty_store, okheap, below. simpl. conj; auto; try (intros; lia).
  - intros b Hb. simpl in Hb. lia.
  - split; intros; simpl in *; contradiction.
  - constructor.
Qed.

(** A value that is not behind a pointer shows the immutable value. *)
Lemma inv_shows : forall st g es u hbs bs i v s, inv st g es u hbs bs -> nth_error (map val es) i = Some v -> nth_error (map ideally es) i = Some s ->
  by_pointer s = false -> now st v = s.
Proof.
  intros st g es u hbs bs i v s H Ev Ei P. rewrite nth_map in Ev, Ei. destruct (nth_error es i) as [e|] eqn:Ee; [|discriminate].
  simpl in *. injection Ev as <-. injection Ei as <-. assert (He : In e es) by (eapply nth_error_In; exact Ee).
  apply (i_now _ _ _ _ _ _ H e He). left. rewrite (writes_now st), (by_pointer_shape _ _ (i_shape _ _ _ _ _ _ H e He)). exact P.
Qed.

(** ** Immutable values are made by their own calls *)

Lemma replay_app : forall l s s' ks c, replay_from s l = Some (Returns s') -> replay_from s (l ++ [(ks, c)]) = step ks s' c.
Proof.
  induction l as [|[ks0 c0] l IH]; intros s s' ks c H; simpl in *.
  - injection H as ->. destruct (step ks s' c) as [[]|]; reflexivity.
  - destruct (step ks0 s c0) as [[s1| |]|]; simpl in *; try discriminate. apply IH. exact H.
Qed.

Lemma replay_snoc : forall l s ks c, replay l = Some (Returns s) -> replay (l ++ [(ks, c)]) = step ks s c.
Proof.
  intros [|[ks0 c0] l] s ks c H; simpl in *; [discriminate|].
  destruct (start ks0 c0) as [[s1| |]|]; simpl in *; try discriminate. apply replay_app. exact H.
Qed.

Lemma Forall2_nth : forall A B (R : A -> B -> Prop) l l' i b d, Forall2 R l l' -> nth_error l' i = Some b -> R (nth i l d) b.
Proof. intros A B R l l' i b d H. revert i. induction H; intros [|i] E; simpl in *; try discriminate; [injection E as <-; assumption|auto]. Qed.

Lemma ideal_chains : forall ps ls vs bs vs' bs',
  Forall2 (fun l s => replay l = Some (Returns s)) ls vs ->
  ideal vs bs ps = Some (Returns (vs', bs')) ->
  Forall2 (fun l s => replay l = Some (Returns s)) (chains ls ps) vs'
  /\ exists fs, bs' = bs ++ fs /\ Forall2 (fun x b => alone x = Some (Returns b)) (finished ls ps) fs.
Proof.
  induction ps as [|p ps IH]; intros ls vs bs vs' bs' H E.
  { simpl in *. injection E as <- <-. split; [exact H|]. exists []. rewrite app_nil_r. split; [reflexivity|constructor]. }
  destruct p as [ks c|ks i c|ks i]; cbn [ideal chains finished] in *.
  - destruct (start ks c) as [[v| |]|] eqn:Es; try discriminate. cbn [after] in E. eapply IH; [|exact E].
    apply Forall2_app; [exact H|]. constructor; [|constructor]. simpl. rewrite Es. reflexivity.
  - destruct (nth_error vs i) as [v|] eqn:Ev; [|discriminate].
    destruct (step ks v c) as [[v'| |]|] eqn:Es; try discriminate. cbn [after] in E. eapply IH; [|exact E].
    apply Forall2_app; [exact H|]. constructor; [|constructor]. rewrite <- Es. apply replay_snoc. eapply Forall2_nth in H; [exact H|exact Ev].
  - destruct (nth_error vs i) as [v|] eqn:Ev; [|discriminate].
    destruct (build ks v) as [[b| |]|] eqn:Es; try discriminate. cbn [after] in E.
    destruct (IH _ _ _ _ _ H E) as [K [fs [Ef F]]]. split; [exact K|]. exists (b :: fs). split; [rewrite Ef, <- app_assoc; reflexivity|].
    constructor; [|exact F]. unfold alone. cbn [fst snd]. eapply Forall2_nth with (d := []) in H; [|exact Ev]. rewrite H. exact Es.
Qed.
