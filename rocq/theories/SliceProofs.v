(** append, seen from slices that share arrays.

    [T] records for each array its tip: the longest slice that was handed out.
    Appending at the tip changes nothing that a slice shows. *)

From Coq Require Import List Arith Bool Lia.
From Verif Require Import Slices.
Import ListNotations.

Lemma update_len : forall B (l : list B) i b, length (update l i b) = length l.
Proof. induction l; destruct i; simpl; intros; auto. Qed.

Lemma nth_updated : forall B (l : list B) i j b d, nth j (update l i b) d = if (Nat.eqb i j && Nat.ltb i (length l))%bool then b else nth j l d.
Proof.
  induction l; intros i j b d.
  - replace (Nat.ltb i (length (@nil B))) with false by (symmetry; apply Nat.ltb_ge; simpl; lia). rewrite andb_false_r. reflexivity.
  - destruct i, j; simpl; auto. rewrite IHl. reflexivity.
Qed.

Section Tips.
Context {A : Type}.
Implicit Types (h : heap A) (T : list nat) (s : slice) (xs : list A).

Definition tip T (a : nat) : nat := nth a T 0.
Definition array s : option nat := match s with NoCells => None | Prefix a _ => Some a end.

Definition okheap h T : Prop := length T = length h /\ forall a, a < length h -> tip T a <= length (cells h a).
Definition okslice T s : Prop := match s with NoCells => True | Prefix a n => a < length T /\ n <= tip T a end.
Definition attip T s : Prop := match s with NoCells => True | Prefix a n => n = tip T a end.

(** What was below the tips is still there. *)
Definition ext h T h' T' : Prop :=
  length T <= length T' /\
  forall a, a < length T -> tip T a <= tip T' a /\ firstn (tip T a) (cells h' a) = firstn (tip T a) (cells h a)
                            /\ length (cells h' a) = length (cells h a).

(** All elements below the tips satisfy [P]. *)
Definition below (P : A -> Prop) h T : Prop := forall a x, a < length h -> In x (firstn (tip T a) (cells h a)) -> P x.

(** Only the tip of the array of [s] may have moved. *)
Definition frame s T T' : Prop := forall a, a < length T -> array s <> Some a -> tip T' a = tip T a.

(** [s'] is on the array of [s], or on a new one, or on none. *)
Definition from T s s' : Prop := forall a, array s' = Some a -> array s = Some a \/ length T <= a.

(** The cell behind [s] holds [x], or there is none. *)
Definition settled h T s (x : A) : Prop :=
  match s with
  | NoCells => True
  | Prefix a n => length (cells h a) <= n \/ (n < tip T a /\ nth_error (cells h a) n = Some x)
  end.

Lemma ext_refl : forall h T, ext h T h T.
Proof. intros. split; [lia|]. intros; repeat split; auto. Qed.

Lemma firstn_shorter : forall n m (l l' : list A), n <= m -> firstn m l = firstn m l' -> firstn n l = firstn n l'.
Proof.
  intros n m l l' Hle H. assert (E : forall x : list A, firstn n x = firstn n (firstn m x)).
  { intros x. rewrite firstn_firstn. rewrite Nat.min_l by lia. reflexivity. }
  rewrite (E l), (E l'), H. reflexivity.
Qed.

Lemma ext_trans : forall h T h1 T1 h2 T2, ext h T h1 T1 -> ext h1 T1 h2 T2 -> ext h T h2 T2.
Proof.
  intros h T h1 T1 h2 T2 [L1 H1] [L2 H2]. split; [lia|].
  intros a Ha. destruct (H1 a Ha) as (A1 & B1 & C1). destruct (H2 a ltac:(lia)) as (A2 & B2 & C2).
  repeat split; [lia| |congruence]. rewrite <- B1. eapply firstn_shorter; [exact A1|exact B2].
Qed.

Lemma okslice_ext : forall h T h' T' s, ext h T h' T' -> okslice T s -> okslice T' s.
Proof. intros h T h' T' [|a n] [L H] Hok; simpl in *; auto. destruct Hok as [Ha Hn]. destruct (H a Ha) as (? & _). lia. Qed.

Lemma read_ext : forall h T h' T' s, ext h T h' T' -> okslice T s -> read h' s = read h s.
Proof.
  intros h T h' T' [|a n] [L H] Hok; simpl in *; auto. destruct Hok as [Ha Hn]. destruct (H a Ha) as (? & E & _).
  eapply firstn_shorter; [exact Hn|exact E].
Qed.

Lemma nth_error_firstn : forall n (l : list A) i, i < n -> nth_error (firstn n l) i = nth_error l i.
Proof. induction n; intros l i Hi; [lia|]. destruct l; [reflexivity|]. destruct i; [reflexivity|]. simpl. apply IHn. lia. Qed.

Lemma settled_ext : forall h T h' T' s x, ext h T h' T' -> okslice T s -> settled h T s x -> settled h' T' s x.
Proof.
  intros h T h' T' [|a n] x [L H] Hok Hs; simpl in *; auto. destruct Hok as [Ha Hn]. destruct (H a Ha) as (L1 & E & C).
  destruct Hs as [Hs|[Hs Hx]]; [left; lia|right]. split; [lia|].
  rewrite <- (nth_error_firstn (tip T a)) by lia. rewrite E. rewrite nth_error_firstn by lia. exact Hx.
Qed.

Lemma frame_refl : forall s T, frame s T T.
Proof. intros s T a _ _. reflexivity. Qed.

Lemma frame_trans : forall s s' T T1 T2, length T <= length T1 -> frame s T T1 -> from T s s' -> frame s' T1 T2 -> frame s T T2.
Proof.
  intros s s' T T1 T2 L F1 Fr F2 a Ha Hs. rewrite F2; [apply F1; auto|lia|].
  intros E. destruct (Fr a E); [auto|lia].
Qed.

Lemma from_refl : forall T s, from T s s.
Proof. intros T s a E. left; exact E. Qed.

Lemma from_none : forall T s, from T s NoCells.
Proof. intros T s a E. discriminate. Qed.

Lemma from_trans : forall T T1 s s1 s2, length T <= length T1 -> from T s s1 -> from T1 s1 s2 -> from T s s2.
Proof. intros T T1 s s1 s2 L H1 H2 a E. destruct (H2 a E) as [H|H]; [auto|right; lia]. Qed.

Lemma attip_frame : forall s0 T T' s, okslice T s -> frame s0 T T' -> (forall a, array s = Some a -> array s0 <> Some a) ->
  attip T s -> attip T' s.
Proof. intros s0 T T' [|a n] Hok F Hd Ht; simpl in *; auto. rewrite F; [exact Ht|tauto|apply Hd; reflexivity]. Qed.

Lemma cells_app_old : forall h x a, a < length h -> cells (h ++ [x]) a = cells h a.
Proof. intros. unfold cells. apply app_nth1. exact H. Qed.
Lemma cells_app_new : forall h x, cells (h ++ [x]) (length h) = x.
Proof. intros. unfold cells. rewrite app_nth2, Nat.sub_diag by lia. reflexivity. Qed.
Lemma tip_app_old : forall T x a, a < length T -> tip (T ++ [x]) a = tip T a.
Proof. intros. unfold tip. apply app_nth1. exact H. Qed.
Lemma tip_app_new : forall T x, tip (T ++ [x]) (length T) = x.
Proof. intros. unfold tip. rewrite app_nth2, Nat.sub_diag by lia. reflexivity. Qed.

(** A new array. *)
Lemma new_array_ok : forall h T c n, okheap h T -> n <= length c ->
  okheap (h ++ [c]) (T ++ [n]) /\ ext h T (h ++ [c]) (T ++ [n]) /\ (forall s, frame s T (T ++ [n])).
Proof.
  intros h T c n [L H] Hn. split; [|split].
  - split; [rewrite !app_length; simpl; lia|]. intros a Ha. rewrite app_length in Ha; simpl in Ha.
    destruct (Nat.eq_dec a (length h)) as [->|Hne].
    + rewrite cells_app_new. rewrite <- L, tip_app_new. exact Hn.
    + rewrite cells_app_old, tip_app_old by lia. apply H. lia.
  - split; [rewrite app_length; lia|]. intros a Ha. rewrite tip_app_old by lia. rewrite cells_app_old by lia. auto.
  - intros s a Ha _. apply tip_app_old. exact Ha.
Qed.

Lemma overwrite_length : forall (c : list A) n xs, n + length xs <= length c -> length (overwrite c n xs) = length c.
Proof. intros c n xs H. unfold overwrite. rewrite !app_length, firstn_length, skipn_length. lia. Qed.

Lemma overwrite_below : forall (c : list A) n xs m, m <= n -> n <= length c -> firstn m (overwrite c n xs) = firstn m c.
Proof.
  intros c n xs m Hm Hn. unfold overwrite. rewrite firstn_app, firstn_length, Nat.min_l by lia.
  replace (m - n) with 0 by lia. simpl. rewrite app_nil_r, firstn_firstn. f_equal. lia.
Qed.

Lemma overwrite_prefix : forall (c : list A) n xs, n + length xs <= length c -> firstn (n + length xs) (overwrite c n xs) = firstn n c ++ xs.
Proof.
  intros c n xs H. unfold overwrite. rewrite app_assoc. rewrite firstn_app.
  assert (L : length (firstn n c ++ xs) = n + length xs) by (rewrite app_length, firstn_length; lia).
  rewrite L, Nat.sub_diag. simpl. rewrite app_nil_r. rewrite <- L. apply firstn_all.
Qed.

Lemma overwrite_same : forall (c : list A) n x, nth_error c n = Some x -> overwrite c n [x] = c.
Proof.
  intros c n x H. unfold overwrite. simpl.
  destruct (nth_error_split c n H) as (l1 & l2 & -> & <-).
  rewrite firstn_app, firstn_all, Nat.sub_diag. simpl. rewrite app_nil_r.
  f_equal. f_equal. replace (length l1 + 1) with (length (l1 ++ [x])) by (rewrite app_length; reflexivity).
  change (x :: l2) with ([x] ++ l2). rewrite app_assoc. rewrite skipn_app, skipn_all, Nat.sub_diag. reflexivity.
Qed.

Lemma cells_of_update : forall h a x b, a < length h -> cells (update h a x) b = if Nat.eqb a b then x else cells h b.
Proof. intros h a x b Ha. unfold cells. rewrite nth_updated. apply Nat.ltb_lt in Ha. rewrite Ha, andb_true_r. reflexivity. Qed.

Context (grow : nat -> nat -> nat) (zero : A).

Lemma copied_reads : forall (c xs : list A) r, firstn (length c + length xs) (c ++ xs ++ r) = c ++ xs.
Proof.
  intros c xs r. rewrite app_assoc, <- app_length, firstn_app, firstn_all, Nat.sub_diag. simpl. apply app_nil_r.
Qed.

(** Appending at the tip. *)
Lemma append_ok : forall h T s xs h' s', okheap h T -> okslice T s -> attip T s ->
  append grow zero h s xs = (h', s') ->
  exists T', okheap h' T' /\ ext h T h' T' /\ frame s T T' /\ from T s s' /\ okslice T' s' /\ attip T' s'
             /\ read h' s' = read h s ++ xs /\ (forall x, xs = [x] -> settled h' T' s x)
             /\ (forall P, below P h T -> Forall P xs -> below P h' T').
Proof.
  intros h T s xs h' s' Hh Hs Ht E.
  destruct xs as [|x xs].
  { simpl in E. injection E as <- <-. exists T. rewrite app_nil_r.
    split; [exact Hh|]. split; [apply ext_refl|]. split; [apply frame_refl|]. split; [apply from_refl|].
    split; [exact Hs|]. split; [exact Ht|]. split; [reflexivity|]. split; [discriminate|auto]. }
  set (l := x :: xs) in *.
  assert (NEW : forall c, length c = slice_len s -> read h s = c -> (forall y, l = [y] -> settled (h ++ [c ++ l ++ repeat zero (grow (capacity h s) (slice_len s + length l) - (slice_len s + length l))]) (T ++ [slice_len s + length l]) s y) ->
    h' = h ++ [c ++ l ++ repeat zero (grow (capacity h s) (slice_len s + length l) - (slice_len s + length l))] -> s' = Prefix (length h) (slice_len s + length l) ->
    exists T', okheap h' T' /\ ext h T h' T' /\ frame s T T' /\ from T s s' /\ okslice T' s' /\ attip T' s'
             /\ read h' s' = read h s ++ l /\ (forall x, l = [x] -> settled h' T' s x)
             /\ (forall P, below P h T -> Forall P l -> below P h' T')).
  { intros c Hc Hr Hse -> ->. set (r := repeat _ _) in *. exists (T ++ [slice_len s + length l]).
    destruct (new_array_ok h T (c ++ l ++ r) (slice_len s + length l) Hh) as (O & X & F).
    { rewrite !app_length. lia. }
    split; [exact O|]. split; [exact X|]. split; [apply F|].
    assert (L : length T = length h) by apply Hh.
    split; [intros a Ea; injection Ea as <-; right; lia|].
    split; [simpl; rewrite app_length; simpl; rewrite <- L, tip_app_new; lia|].
    split; [simpl; rewrite <- L, tip_app_new; reflexivity|].
    assert (RD : firstn (slice_len s + length l) (c ++ l ++ r) = c ++ l) by (rewrite <- Hc; exact (copied_reads c l r)).
    split; [cbn [read]; rewrite cells_app_new, Hr; exact RD|]. split; [exact Hse|].
    intros P HP Hl a y Ha Hin. rewrite app_length in Ha; cbn [length] in Ha.
    destruct (Nat.eq_dec a (length h)) as [->|Hne].
    - rewrite cells_app_new in Hin. rewrite <- L, tip_app_new, RD in Hin. apply in_app_or in Hin.
      destruct Hin as [Hin|Hin]; [|rewrite Forall_forall in Hl; auto]. rewrite <- Hr in Hin.
      destruct s as [|b n]; [destruct Hin|]. destruct Hs as [Hb Hn]. apply (HP b); [lia|]. cbn [attip] in Ht. rewrite <- Ht. exact Hin.
    - rewrite cells_app_old, tip_app_old in Hin by lia. apply (HP a); [lia|exact Hin]. }
  destruct s as [|a n].
  - simpl in E. change (length (x :: xs)) with (length l) in E. injection E as <- <-. apply (NEW []); auto; simpl; auto.
  - unfold append in E. change (x :: xs) with l in E. cbn [slice_len] in E. fold l in E.
    unfold l at 1 in E. destruct (n + length l <=? length (cells h a)) eqn:Hroom.
    + apply Nat.leb_le in Hroom. injection E as <- <-. simpl in Hs, Ht. destruct Hs as [Ha Hn].
      assert (L : length T = length h) by apply Hh.
      exists (update T a (n + length l)).
      assert (TU : forall b, tip (update T a (n + length l)) b = if Nat.eqb a b then n + length l else tip T b).
      { intros b. unfold tip. rewrite nth_updated. replace (Nat.ltb a (length T)) with true by (symmetry; apply Nat.ltb_lt; lia).
        rewrite andb_true_r. reflexivity. }
      assert (CU : forall b, cells (update h a (overwrite (cells h a) n l)) b = if Nat.eqb a b then overwrite (cells h a) n l else cells h b)
        by (intros b; apply cells_of_update; lia).
      split; [|split; [|split; [|split; [|split; [|split; [|split; [|split]]]]]]].
      * split; [rewrite !update_len; exact L|]. intros b Hb. rewrite TU, CU. rewrite update_len in Hb.
        destruct (Nat.eqb_spec a b); [subst; rewrite overwrite_length by exact Hroom; exact Hroom|]. apply Hh. exact Hb.
      * split; [rewrite update_len; lia|]. intros b Hb. rewrite TU, CU. destruct (Nat.eqb_spec a b); [|auto].
        subst b. split; [lia|]. split; [rewrite <- Ht; apply overwrite_below; lia|apply overwrite_length; exact Hroom].
      * intros b Hb Hd. rewrite TU. destruct (Nat.eqb_spec a b); [|reflexivity]. subst. exfalso; apply Hd; reflexivity.
      * intros b Eb. left. exact Eb.
      * cbn [okslice]. rewrite update_len, TU, Nat.eqb_refl. split; [exact Ha|apply le_n].
      * cbn [attip]. rewrite TU, Nat.eqb_refl. reflexivity.
      * cbn [read]. rewrite CU, Nat.eqb_refl. exact (overwrite_prefix (cells h a) n l Hroom).
      * intros y Hy. simpl. right. rewrite TU, CU, Nat.eqb_refl. rewrite Hy in *. simpl length in *. split; [lia|].
        rewrite <- (nth_error_firstn (n + length [y])) by (simpl; lia). rewrite overwrite_prefix by exact Hroom.
        rewrite nth_error_app2; rewrite firstn_length; [|lia]. rewrite Nat.min_l by lia. rewrite Nat.sub_diag. reflexivity.
      * intros P HP Hl b y Hb Hin. rewrite TU, CU in Hin. rewrite update_len in Hb. destruct (Nat.eqb_spec a b); [|apply (HP b); auto].
        subst b. rewrite (overwrite_prefix (cells h a) n l Hroom) in Hin. apply in_app_or in Hin.
        destruct Hin as [Hin|Hin]; [apply (HP a); [exact Hb|rewrite <- Ht; exact Hin]|rewrite Forall_forall in Hl; auto].
    + apply Nat.leb_gt in Hroom. simpl in Hs, Ht. destruct Hs as [Ha Hn].
      assert (Hcap : tip T a <= length (cells h a)) by (apply Hh; destruct Hh as [L _]; lia).
      injection E as <- <-. apply (NEW (firstn n (cells h a))); simpl; auto.
      * rewrite firstn_length. lia.
      * intros y Hy. left. rewrite cells_app_old by (destruct Hh as [L _]; lia). rewrite Hy in Hroom. simpl in Hroom. lia.
Qed.

(** Appending again what is there already. *)
Lemma append_again : forall h T s x h' s', okheap h T -> okslice T s -> settled h T s x ->
  append grow zero h s [x] = (h', s') ->
  exists T', okheap h' T' /\ ext h T h' T' /\ (forall a, a < length T -> tip T' a = tip T a) /\ okslice T' s'
             /\ read h' s' = read h s ++ [x] /\ settled h' T' s x.
Proof.
  intros h T s x h' s' Hh Hs Hse E. assert (L : length T = length h) by apply Hh.
  assert (NEW : forall c r, read h s = c -> length c = slice_len s -> h' = h ++ [c ++ [x] ++ r] -> s' = Prefix (length h) (slice_len s + 1) ->
    (match s with NoCells => True | Prefix a n => length (cells h a) <= n end) ->
    exists T', okheap h' T' /\ ext h T h' T' /\ (forall a, a < length T -> tip T' a = tip T a) /\ okslice T' s'
             /\ read h' s' = read h s ++ [x] /\ settled h' T' s x).
  { intros c r Hr Hc -> -> Hfull. exists (T ++ [slice_len s + 1]).
    destruct (new_array_ok h T (c ++ [x] ++ r) (slice_len s + 1) Hh) as (O & X & F).
    { rewrite !app_length. simpl. lia. }
    split; [exact O|]. split; [exact X|].
    split; [intros a Ha; apply tip_app_old; exact Ha|].
    split; [simpl; rewrite app_length; simpl; rewrite <- L, tip_app_new; lia|].
    split; [|destruct s as [|a n]; simpl in *; auto; left; rewrite cells_app_old by (simpl in Hs; lia); exact Hfull].
    simpl. rewrite cells_app_new, Hr, <- Hc. exact (copied_reads c [x] r). }
  destruct s as [|a n].
  - simpl in E. injection E as <- <-. eapply (NEW []); simpl; eauto.
  - unfold append in E. cbn [slice_len length] in E. simpl in Hs. destruct Hs as [Ha Hn].
    assert (Hcap : tip T a <= length (cells h a)) by (apply Hh; lia).
    destruct (n + 1 <=? length (cells h a)) eqn:Hroom.
    + apply Nat.leb_le in Hroom. injection E as <- <-. destruct Hse as [Hse|[Hlt Hx]]; [lia|].
      rewrite (overwrite_same _ _ _ Hx).
      assert (CU : forall b, cells (update h a (cells h a)) b = cells h b).
      { intros b. rewrite cells_of_update by lia. destruct (Nat.eqb_spec a b); subst; reflexivity. }
      exists T. split; [|split; [|split; [|split; [|split]]]].
      * split; [rewrite update_len; exact L|]. intros b Hb. rewrite CU. apply Hh. rewrite update_len in Hb. exact Hb.
      * split; [lia|]. intros b Hb. rewrite CU. auto.
      * reflexivity.
      * simpl. lia.
      * simpl. rewrite CU. rewrite <- (overwrite_same _ _ _ Hx) at 1. apply (overwrite_prefix (cells h a) n [x]). exact Hroom.
      * simpl. right. rewrite CU. auto.
    + apply Nat.leb_gt in Hroom. injection E as <- <-. eapply (NEW (firstn n (cells h a))); simpl; eauto.
      * rewrite firstn_length. lia.
      * lia.
Qed.

End Tips.
