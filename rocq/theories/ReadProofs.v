(** Readings of expressions (SpecExpr.v) are unique. *)

From Coq Require Import String List Bool Arith Lia.
From Verif Require Import SpecExpr.
Import ListNotations.
Open Scope list_scope.

Section Reading.
Context {A : Type}.
Implicit Types ts l r : list (token A).

(** The level of an operator token. *)
Definition op_level (x : token A) : option nat :=
  match x with TSign s => Some (level s) | TSuffix _ => Some 4 | _ => None end.

(** Balanced from depth [d] to depth 0; operators at depth 0 have level n at least. *)
Fixpoint ok (n d : nat) ts : bool :=
  match ts with
  | [] => Nat.eqb d 0
  | TOpen :: r => ok n (S d) r
  | TClose :: r => match d with 0 => false | S d' => ok n d' r end
  | TLeaf _ :: r => ok n d r
  | TSign s :: r => ((negb (Nat.eqb d 0) || Nat.leb n (level s)) && ok n d r)%bool
  | TSuffix _ :: r => ((negb (Nat.eqb d 0) || Nat.leb n 4) && ok n d r)%bool
  end.

Lemma ok_tail : forall a n e n' d b, ok n e a = true -> ok n' (e + d) (a ++ b) = true -> ok n' d b = true.
Proof.
  induction a as [|x a IH]; intros n e n' d b H K.
  - cbn in *. apply Nat.eqb_eq in H. now subst.
  - cbn [app] in K. destruct x; cbn [ok] in *.
    + eapply IH; eauto.
    + apply andb_prop in H as [_ H]. apply andb_prop in K as [_ K]. eapply IH; eauto.
    + apply andb_prop in H as [_ H]. apply andb_prop in K as [_ K]. eapply IH; eauto.
    + apply (IH n (S e) n' d b); assumption.
    + destruct e as [|e]; [discriminate|]. cbn [Nat.add] in K. eapply IH; eauto.
Qed.

Lemma ok_app : forall a n e d b, ok n e a = true -> ok n d b = true -> ok n (e + d) (a ++ b) = true.
Proof.
  induction a as [|x a IH]; intros n e d b H K.
  - cbn in *. apply Nat.eqb_eq in H. now subst.
  - cbn [app]. destruct x; cbn [ok] in *.
    + auto.
    + apply andb_prop in H as [H1 H]. rewrite (IH _ _ _ _ H K), andb_true_r. destruct e; [|reflexivity]. cbn in *. rewrite H1. apply orb_true_r.
    + apply andb_prop in H as [H1 H]. rewrite (IH _ _ _ _ H K), andb_true_r. destruct e; [|reflexivity]. cbn in *. rewrite H1. apply orb_true_r.
    + apply (IH n (S e) d b); assumption.
    + destruct e as [|e]; [discriminate|]. cbn [Nat.add]. auto.
Qed.

Lemma ok_mono : forall ts n m d, m <= n -> ok n d ts = true -> ok m d ts = true.
Proof.
  induction ts as [|x ts IH]; intros n m d L H; [exact H|]. destruct x; cbn [ok] in *; eauto.
  - apply andb_prop in H as [H1 H]. rewrite (IH n m d L H), andb_true_r. destruct d; [|reflexivity]. cbn in *. apply Nat.leb_le in H1. apply Nat.leb_le. lia.
  - apply andb_prop in H as [H1 H]. rewrite (IH n m d L H), andb_true_r. destruct d; [|reflexivity]. cbn [Nat.eqb negb orb] in *. apply Nat.leb_le in H1. apply Nat.leb_le. lia.
  - destruct d; [discriminate|]. eauto.
Qed.

Lemma ok_deep : forall ts n m d e, ok n d ts = true -> ok m (d + S e) (ts ++ repeat TClose (S e)) = true.
Proof.
  induction ts as [|x ts IH]; intros n m d e H.
  - cbn in H. apply Nat.eqb_eq in H. subst. cbn [app Nat.add]. generalize (S e). induction n0 as [|k IH]; [reflexivity|]. exact IH.
  - cbn [app]. destruct x; cbn [ok] in *; eauto.
    + apply andb_prop in H as [_ H]. rewrite (IH n m d e H), andb_true_r. now rewrite Nat.add_succ_r.
    + apply andb_prop in H as [_ H]. rewrite (IH n m d e H), andb_true_r. now rewrite Nat.add_succ_r.
    + apply (IH n m (S d) e H).
    + destruct d; [discriminate|]. cbn [Nat.add]. eauto.
Qed.

Lemma ok_op : forall x k n r, op_level x = Some k -> ok n 0 (x :: r) = true -> n <= k /\ ok n 0 r = true.
Proof.
  intros x k n r L H. destruct x; inversion L; subst; cbn [ok Nat.eqb negb orb] in H; apply andb_prop in H as [H1 H]; apply Nat.leb_le in H1; auto.
Qed.
Lemma op_ok : forall x k n r, op_level x = Some k -> n <= k -> ok n 0 r = true -> ok n 0 (x :: r) = true.
Proof.
  intros x k n r L H K. destruct x; inversion L; subst; cbn [ok Nat.eqb negb orb]; rewrite K, andb_true_r; apply Nat.leb_le; assumption.
Qed.

Lemma left_level : forall s, level s <= (if Nat.eqb (level s) 0 then 1 else level s).
Proof. intros s. destruct (Nat.eqb (level s) 0) eqn:E; [apply Nat.eqb_eq in E; lia|lia]. Qed.

Lemma understood_ok : forall n ts t, understood n ts t -> ok n 0 ts = true.
Proof.
  induction 1 as [a|ts t H IH|s l r x y Hl IHl Hr IHr|s l x H IH|n ts t L H IH].
  - reflexivity.
  - cbn [ok]. exact (ok_deep ts 0 5 0 0 IH).
  - apply (ok_app l _ 0 0); [eapply ok_mono; [apply left_level|exact IHl]|]. eapply op_ok; [reflexivity|lia|]. eapply ok_mono; [|exact IHr]. lia.
  - apply (ok_app l _ 0 0); [exact IH|reflexivity].
  - eapply ok_mono; [|exact IH]. lia.
Qed.

(** The last operator of level n outside parentheses. *)
Lemma split_shorter : forall n l x r l' x' r', op_level x = Some n -> op_level x' = Some n ->
  ok n 0 l = true -> ok n 0 l' = true -> ok (S n) 0 r = true ->
  l ++ x :: r = l' ++ x' :: r' -> length l < length l' -> False.
Proof.
  intros n l x r l' x' r' L L' Hl Hl' Hr E Len.
  assert (P : exists m, l' = l ++ x :: m /\ r = m ++ x' :: r').
  { clear - E Len. revert l' E Len. induction l as [|y l IH]; intros l' E Len; destruct l' as [|y' l']; cbn in *; try lia.
    - inversion E; subst. now exists l'.
    - inversion E; subst. destruct (IH l' H1) as (m & -> & ->); [lia|]. now exists m. }
  destruct P as (m & -> & ->).
  assert (M : ok n 0 m = true). { apply (ok_tail l n 0 n 0) in Hl'; [|exact Hl]. now apply (ok_op x n) in Hl'. }
  apply (ok_tail m n 0 (S n) 0) in Hr; [|exact M]. apply (ok_op x' n) in Hr as [Hr _]; [lia|assumption].
Qed.

Lemma split_unique : forall n l x r l' x' r', op_level x = Some n -> op_level x' = Some n ->
  ok n 0 l = true -> ok n 0 l' = true -> ok (S n) 0 r = true -> ok (S n) 0 r' = true ->
  l ++ x :: r = l' ++ x' :: r' -> l = l' /\ x = x' /\ r = r'.
Proof.
  intros n l x r l' x' r' L L' Hl Hl' Hr Hr' E. destruct (lt_eq_lt_dec (length l) (length l')) as [[X|X]|X].
  - destruct (split_shorter n l x r l' x' r'); auto.
  - assert (Q : l = l' /\ x :: r = x' :: r').
    { clear - E X. revert l' E X. induction l as [|y l IH]; intros [|y' l'] E X; cbn in *; try discriminate; [auto|].
      inversion E; subst. destruct (IH l' H1) as [-> ->]; [lia|auto]. }
    destruct Q as [-> Q]. inversion Q; auto.
  - destruct (split_shorter n l' x' r' l x r); auto.
Qed.

(** An operator of level n outside parentheses excludes a reading above n. *)
Lemma not_above : forall n l x r t, op_level x = Some n -> ok n 0 l = true -> understood (S n) (l ++ x :: r) t -> False.
Proof.
  intros n l x r t L Hl U. apply understood_ok in U. apply (ok_tail l n 0 (S n) 0) in U; [|exact Hl]. apply (ok_op x n) in U as [U _]; [lia|exact L].
Qed.

Lemma split_of : forall n ts t, understood n ts t ->
  (n < 5 /\ understood (S n) ts t)
  \/ (n = 5 /\ exists a, ts = [TLeaf a] /\ t = Leaf a)
  \/ (n = 5 /\ exists us, ts = TOpen :: us ++ [TClose] /\ understood 0 us t)
  \/ (exists s l r x y, n = level s /\ ts = l ++ TSign s :: r /\ t = Bin s x y
      /\ understood (if Nat.eqb (level s) 0 then 1 else level s) l x /\ understood (S (level s)) r y)
  \/ (n = 4 /\ exists s l x, ts = l ++ [TSuffix s] /\ t = Post s x /\ understood 4 l x).
Proof.
  destruct 1 as [a|ts t H|s l r x y Hl Hr|s l x H|n ts t L H].
  - right; left. eauto.
  - right; right; left. eauto.
  - right; right; right; left. exists s, l, r, x, y. auto 10.
  - right; right; right; right. split; [reflexivity|]. exists s, l, x. auto.
  - left. auto.
Qed.

Lemma level_le : forall s, level s <= 4.
Proof. destruct s; cbn; lia. Qed.

Lemma unique_at : forall k n, n <= 5 -> forall ts, length ts <= k -> forall t t', understood n ts t -> understood n ts t' -> t = t'.
Proof.
  induction k as [|k IHk].
  { intros n _ ts L t t' U _. destruct ts; [|cbn in L; lia]. exfalso. clear L.
    remember [] as ts eqn:E. induction U; try discriminate; try (destruct l; discriminate); auto. }
  assert (Down : forall d n, n + d = 5 -> forall ts, length ts <= S k -> forall t t', understood n ts t -> understood n ts t' -> t = t').
  { induction d as [|d IHd]; intros n N ts L t t' U U'.
    - assert (n = 5) by lia. subst n. clear N.
      destruct (split_of _ _ _ U) as [[X _]|[[_ (a & -> & ->)]|[[_ (us & -> & V)]|[(s & l & r & x & y & X & _)|[X _]]]]]; try lia;
        try (pose proof (level_le s); lia);
        destruct (split_of _ _ _ U') as [[X' _]|[[_ (a' & E' & ->)]|[[_ (us' & E' & V')]|[(s' & l' & r' & x' & y' & X' & _)|[X' _]]]]]; try lia;
        try (pose proof (level_le s'); lia); try discriminate.
      + now inversion E'.
      + injection E' as E'. apply app_inj_tail in E' as [<- _]. apply (IHk 0) with us; auto; [lia|]. cbn in L. rewrite app_length in L. cbn in L. lia.
    - destruct (split_of _ _ _ U) as [[_ V]|[[X _]|[[X _]|[(s & l & r & x & y & Hs & -> & -> & Vl & Vr)|[X4 (s & l & x & -> & -> & V)]]]]]; try lia;
      destruct (split_of _ _ _ U') as [[_ V']|[[X' _]|[[X' _]|[(s' & l' & r' & x' & y' & Hs' & E' & -> & Vl' & Vr')|[X4' (s' & l' & x' & E' & -> & V')]]]]]; try lia.
      + apply (IHd (S n)) with ts; auto. lia.
      + exfalso. subst ts. apply (not_above n l' (TSign s') r' t); [cbn; now rewrite Hs'| |exact V].
        rewrite Hs'. eapply ok_mono; [apply left_level|]. eapply understood_ok; eassumption.
      + exfalso. subst ts. apply (not_above n l' (TSuffix s') [] t); [cbn; now rewrite X4'| |exact V]. subst n. eapply understood_ok; eassumption.
      + exfalso. apply (not_above n l (TSign s) r t'); [cbn; now rewrite Hs| |exact V'].
        rewrite Hs. eapply ok_mono; [apply left_level|]. eapply understood_ok; eassumption.
      + destruct (split_unique n l (TSign s) r l' (TSign s') r') as (-> & Es & ->); auto.
        * cbn. now rewrite Hs.
        * cbn. now rewrite Hs'.
        * rewrite Hs. eapply ok_mono; [apply left_level|]. eapply understood_ok; eassumption.
        * rewrite Hs'. eapply ok_mono; [apply left_level|]. eapply understood_ok; eassumption.
        * rewrite Hs. eapply understood_ok; eassumption.
        * rewrite Hs'. eapply understood_ok; eassumption.
        * injection Es as <-. rewrite app_length in L. cbn in L. f_equal.
          -- eapply (IHk (if Nat.eqb (level s) 0 then 1 else level s)); [destruct (Nat.eqb (level s) 0); pose proof (level_le s); lia| |exact Vl|exact Vl']. lia.
          -- eapply (IHk (S (level s))); [pose proof (level_le s); lia| |exact Vr|exact Vr']. lia.
      + exfalso. destruct (split_unique n l (TSign s) r l' (TSuffix s') []) as (_ & Es & _); auto; try discriminate.
        * cbn. now rewrite Hs.
        * cbn. now rewrite X4'.
        * rewrite Hs. eapply ok_mono; [apply left_level|]. eapply understood_ok; eassumption.
        * rewrite X4'. eapply understood_ok; eassumption.
        * rewrite Hs. eapply understood_ok; eassumption.
      + exfalso. apply (not_above n l (TSuffix s) [] t'); [cbn; now rewrite X4| |exact V']. subst n. eapply understood_ok; eassumption.
      + exfalso. destruct (split_unique n l (TSuffix s) [] l' (TSign s') r') as (_ & Es & _); auto; try discriminate.
        * cbn. now rewrite X4.
        * cbn. now rewrite Hs'.
        * rewrite X4. eapply understood_ok; eassumption.
        * rewrite Hs'. eapply ok_mono; [apply left_level|]. eapply understood_ok; eassumption.
        * rewrite Hs'. eapply understood_ok; eassumption.
      + apply app_inj_tail in E' as [<- Es]. injection Es as <-. f_equal. rewrite app_length in L. cbn in L.
        eapply (IHk 4); [lia| |exact V|exact V']. lia. }
  intros n N ts L t t' U U'. apply (Down (5 - n) n) with ts; auto. lia.
Qed.

Theorem means_unique : forall ts (t t' : tree A), means ts t -> means ts t' -> t = t'.
Proof. intros ts t t' U U'. apply (unique_at (length ts) 0) with ts; auto. lia. Qed.

Lemma understood_weaken : forall n ts (t : tree A), understood n ts t -> n <= 5 -> forall m, m <= n -> understood m ts t.
Proof.
  intros n ts t U L m. revert U L. induction n as [|n IH]; intros U L Hm; [assert (m = 0) by lia; now subst|].
  destruct (Nat.eq_dec m (S n)) as [->|D]; [assumption|]. apply IH; [|lia|lia]. apply u_up; [lia|assumption].
Qed.

End Reading.
