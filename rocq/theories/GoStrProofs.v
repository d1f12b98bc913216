(** Proofs about trimming and decimal numerals. *)

From Coq Require Import Ascii String List ZArith Bool Lia.
From Verif Require Import GoStr SpecSpace SpecLex EscapeProofs Escape.
Import ListNotations.
Open Scope string_scope.

(** ** Bytes *)

Lemma byte_inj : forall a b, byte a = byte b -> a = b.
Proof.
  intros a b H. unfold byte in H. rewrite <- (ascii_N_embedding a), <- (ascii_N_embedding b).
  now rewrite H.
Qed.

Lemma byte_lt : forall a, (byte a < 256)%N.
Proof. intros. unfold byte. apply N_ascii_bounded. Qed.

Lemma byte_eq : forall a n, byte a = n -> a = ascii_of_N n.
Proof. intros a n H. rewrite <- (ascii_N_embedding a). unfold byte in H. now rewrite H. Qed.

Lemma range_in : forall (lo x hi : N), in_range lo x hi = true ->
  exists k, x = (lo + N.of_nat k)%N /\ (N.of_nat k <= hi - lo)%N.
Proof.
  intros lo x hi H. unfold in_range in H. apply andb_true_iff in H. destruct H as [H1 H2].
  apply N.leb_le in H1. apply N.leb_le in H2.
  exists (N.to_nat (x - lo)). split; lia.
Qed.

Lemma sp1_in : forall a, sp1 a = true -> In (String a "") space_encodings.
Proof.
  intros a H. unfold sp1 in H. apply orb_true_iff in H. destruct H as [H|H].
  - apply range_in in H. destruct H as [k [H1 H2]].
    apply byte_eq in H1. subst a.
    assert (k <= 4)%nat as Hk by lia.
    do 5 (destruct k as [|k]; [vm_compute; tauto|]). lia.
  - apply N.eqb_eq in H. apply byte_eq in H. subst. vm_compute. tauto.
Qed.

Lemma sp2_in : forall a b, sp2 a b = true -> In (String a (String b "")) space_encodings.
Proof.
  intros a b H. unfold sp2 in H. apply andb_true_iff in H. destruct H as [H1 H2].
  apply N.eqb_eq in H1. apply byte_eq in H1. subst a.
  apply orb_true_iff in H2. destruct H2 as [H|H]; apply N.eqb_eq in H; apply byte_eq in H;
    subst; vm_compute; tauto.
Qed.

Lemma sp3_in : forall a b c, sp3 a b c = true ->
  In (String a (String b (String c ""))) space_encodings.
Proof.
  intros a b c H. unfold sp3 in H.
  repeat rewrite orb_true_iff in H. repeat rewrite andb_true_iff in H.
  repeat rewrite orb_true_iff in H. repeat rewrite N.eqb_eq in H.
  destruct H as [[[[[H1 H2] H3]|[[H1 H2] H3]]|[[H1 H2] H3]]|[[H1 H2] H3]];
    apply byte_eq in H1; apply byte_eq in H2; subst a b.
  - apply byte_eq in H3. subst. vm_compute. tauto.
  - destruct H3 as [[[H3|H3]|H3]|H3].
    + apply range_in in H3. destruct H3 as [k [H3 Hk]]. apply byte_eq in H3. subst c.
      assert (k <= 10)%nat by lia.
      do 11 (destruct k as [|k]; [vm_compute; tauto|]). lia.
    + apply byte_eq in H3. subst. vm_compute. tauto.
    + apply byte_eq in H3. subst. vm_compute. tauto.
    + apply byte_eq in H3. subst. vm_compute. tauto.
  - apply byte_eq in H3. subst. vm_compute. tauto.
  - apply byte_eq in H3. subst. vm_compute. tauto.
Qed.

(** Every encoding is recognised. *)
Definition recognised (e : string) : Prop :=
  (exists a, e = String a "" /\ sp1 a = true)
  \/ (exists a b, e = String a (String b "") /\ sp1 a = false /\ sp1 b = false /\ sp2 a b = true)
  \/ (exists a b c, e = String a (String b (String c ""))
        /\ sp1 a = false /\ sp2 a b = false /\ sp1 c = false /\ sp2 b c = false
        /\ sp3 a b c = true).

Lemma encodings_recognised : Forall recognised space_encodings.
Proof.
  unfold space_encodings, space_code_points. repeat (constructor; [
    first [ left; eexists; split; [reflexivity|vm_compute; reflexivity]
          | right; left; do 2 eexists; repeat split; vm_compute; reflexivity
          | right; right; do 3 eexists; repeat split; vm_compute; reflexivity ] |]).
  constructor.
Qed.

Lemma in_recognised : forall e, In e space_encodings -> recognised e.
Proof. intros e H. pose proof encodings_recognised as F. rewrite Forall_forall in F. auto. Qed.

Lemma trim_left_split : forall n s, (String.length s <= n)%nat ->
  exists p, all_space p /\ s = p ++ trim_left s.
Proof.
  induction n as [|n IH]; intros s Hn.
  - destruct s; [|simpl in Hn; lia]. exists "". split; [constructor|reflexivity].
  - destruct s as [|a r1]; [exists ""; split; [constructor|reflexivity]|].
    simpl in Hn. cbn [trim_left].
    destruct (sp1 a) eqn:S1.
    { destruct (IH r1) as [p [Hp He]]; [lia|]. exists (String a "" ++ p).
      split; [constructor; [now apply sp1_in|assumption]|]. simpl. now rewrite <- He. }
    destruct r1 as [|b r2]; [exists ""; split; [constructor|reflexivity]|].
    destruct (sp2 a b) eqn:S2.
    { destruct (IH r2) as [p [Hp He]]; [simpl in Hn; lia|].
      exists (String a (String b "") ++ p).
      split; [constructor; [now apply sp2_in|assumption]|]. simpl. now rewrite <- He. }
    destruct r2 as [|c r3]; [exists ""; split; [constructor|reflexivity]|].
    destruct (sp3 a b c) eqn:S3.
    { destruct (IH r3) as [p [Hp He]]; [simpl in Hn; lia|].
      exists (String a (String b (String c "")) ++ p).
      split; [constructor; [now apply sp3_in|assumption]|]. simpl. now rewrite <- He. }
    exists "". split; [constructor|reflexivity].
Qed.

Lemma trim_left_no_space : forall n s, (String.length s <= n)%nat ->
  ~ starts_with_space (trim_left s).
Proof.
  induction n as [|n IH]; intros s Hn.
  - destruct s; [|simpl in Hn; lia]. simpl. intros [e [r [Hin He]]].
    apply in_recognised in Hin.
    destruct Hin as [[a [-> _]]|[[a [b [-> _]]]|[a [b [c [-> _]]]]]]; discriminate.
  - destruct s as [|a r1].
    { simpl. intros [e [r [Hin He]]]. apply in_recognised in Hin.
      destruct Hin as [[a [-> _]]|[[a [b [-> _]]]|[a [b [c [-> _]]]]]]; discriminate. }
    simpl in Hn. cbn [trim_left].
    destruct (sp1 a) eqn:S1. { apply IH; lia. }
    destruct r1 as [|b r2].
    { intros [e [r [Hin He]]]. apply in_recognised in Hin.
      destruct Hin as [[x [-> H]]|[[x [y [-> H]]]|[x [y [z [-> H]]]]]]; try discriminate.
      simpl in He. inversion He; subst. congruence. }
    destruct (sp2 a b) eqn:S2. { apply IH; simpl in Hn; lia. }
    destruct r2 as [|c r3].
    { intros [e [r [Hin He]]]. apply in_recognised in Hin.
      destruct Hin as [[x [-> H]]|[[x [y [-> H]]]|[x [y [z [-> H]]]]]];
        simpl in He; inversion He; subst; try congruence.
      destruct H as [_ [_ H]]. congruence. }
    destruct (sp3 a b c) eqn:S3. { apply IH; simpl in Hn; lia. }
    intros [e [r [Hin He]]]. apply in_recognised in Hin.
    destruct Hin as [[x [-> H]]|[[x [y [-> H]]]|[x [y [z [-> H]]]]]];
      simpl in He; inversion He; subst; try congruence.
    { destruct H as [_ [_ H]]. congruence. }
    { destruct H as [_ [_ [_ [_ H]]]]. congruence. }
Qed.

(** ** From the right *)

Lemma los_app : forall a b, list_ascii_of_string (a ++ b)
  = (list_ascii_of_string a ++ list_ascii_of_string b)%list.
Proof. induction a; simpl; intros; [reflexivity | now rewrite IHa]. Qed.

Lemma sol_app : forall a b, string_of_list_ascii (a ++ b)%list
  = string_of_list_ascii a ++ string_of_list_ascii b.
Proof. induction a; simpl; intros; [reflexivity | now rewrite IHa]. Qed.

Lemma all_space_app : forall a b, all_space a -> all_space b -> all_space (a ++ b).
Proof.
  intros a b H. revert b. induction H; intros b Hb; [exact Hb|].
  rewrite sapp_assoc. constructor; auto.
Qed.

Lemma all_space_one : forall e, In e space_encodings -> all_space e.
Proof. intros e H. rewrite <- (sapp_nil_r e). constructor; [assumption|constructor]. Qed.

Lemma drop_rev_split : forall n l, (length l <= n)%nat ->
  exists q, all_space q /\
    string_of_list_ascii (rev l) = string_of_list_ascii (rev (drop_spaces_rev l)) ++ q.
Proof.
  induction n as [|n IH]; intros l Hn.
  - destruct l; [|simpl in Hn; lia]. exists "". split; [constructor|reflexivity].
  - destruct l as [|a l1]; [exists ""; split; [constructor|reflexivity]|].
    simpl in Hn. cbn [drop_spaces_rev].
    assert (triv : forall l0, exists q, all_space q /\
       string_of_list_ascii (rev l0) = string_of_list_ascii (rev l0) ++ q).
    { intros. exists "". split; [constructor|now rewrite sapp_nil_r]. }
    destruct (sp1 a) eqn:S1.
    { destruct (IH l1) as [q [Hq He]]; [lia|]. exists (q ++ String a "").
      split; [apply all_space_app; auto; now apply all_space_one, sp1_in|].
      simpl rev. rewrite sol_app. rewrite He. rewrite sapp_assoc. reflexivity. }
    destruct l1 as [|b l2]; [apply triv|].
    destruct (sp2 b a) eqn:S2.
    { destruct (IH l2) as [q [Hq He]]; [simpl in Hn; lia|].
      exists (q ++ String b (String a "")).
      split; [apply all_space_app; auto; now apply all_space_one, sp2_in|].
      simpl rev. rewrite !sol_app. rewrite He. rewrite !sapp_assoc. reflexivity. }
    destruct l2 as [|c l3]; [apply triv|].
    destruct (sp3 c b a) eqn:S3.
    { destruct (IH l3) as [q [Hq He]]; [simpl in Hn; lia|].
      exists (q ++ String c (String b (String a ""))).
      split; [apply all_space_app; auto; now apply all_space_one, sp3_in|].
      simpl rev. rewrite !sol_app. rewrite He. rewrite !sapp_assoc. reflexivity. }
    apply triv.
Qed.

(** The last bytes of [s]: decomposition of an equation [l = rev (e's bytes) ++ ..]. *)
Definition ends_rev (l : list ascii) : Prop :=
  exists e r, In e space_encodings /\ l = (rev (list_ascii_of_string e) ++ r)%list.

Lemma drop_rev_no_space : forall n l, (length l <= n)%nat -> ~ ends_rev (drop_spaces_rev l).
Proof.
  induction n as [|n IH]; intros l Hn.
  - destruct l; [|simpl in Hn; lia]. simpl. intros [e [r [Hin He]]].
    apply in_recognised in Hin.
    destruct Hin as [[a [-> _]]|[[a [b [-> _]]]|[a [b [c [-> _]]]]]]; discriminate.
  - destruct l as [|a l1].
    { simpl. intros [e [r [Hin He]]]. apply in_recognised in Hin.
      destruct Hin as [[a [-> _]]|[[a [b [-> _]]]|[a [b [c [-> _]]]]]]; discriminate. }
    simpl in Hn. cbn [drop_spaces_rev].
    destruct (sp1 a) eqn:S1. { apply IH; lia. }
    destruct l1 as [|b l2].
    { intros [e [r [Hin He]]]. apply in_recognised in Hin.
      destruct Hin as [[x [-> H]]|[[x [y [-> H]]]|[x [y [z [-> H]]]]]]; try discriminate.
      simpl in He. inversion He; subst. congruence. }
    destruct (sp2 b a) eqn:S2. { apply IH; simpl in Hn; lia. }
    destruct l2 as [|c l3].
    { intros [e [r [Hin He]]]. apply in_recognised in Hin.
      destruct Hin as [[x [-> H]]|[[x [y [-> H]]]|[x [y [z [-> H]]]]]];
        simpl in He; inversion He; subst; try congruence.
      destruct H as [_ [_ H]]. congruence. }
    destruct (sp3 c b a) eqn:S3. { apply IH; simpl in Hn; lia. }
    intros [e [r [Hin He]]]. apply in_recognised in Hin.
    destruct Hin as [[x [-> H]]|[[x [y [-> H]]]|[x [y [z [-> H]]]]]];
      simpl in He; inversion He; subst; try congruence.
    { destruct H as [_ [_ H]]. congruence. }
    { destruct H as [_ [_ [_ [_ H]]]]. congruence. }
Qed.

Lemma trim_right_split : forall s, exists q, all_space q /\ s = trim_right s ++ q.
Proof.
  intros s. destruct (drop_rev_split _ (rev (list_ascii_of_string s)) (le_n _)) as [q [Hq He]].
  exists q. split; [assumption|]. rewrite rev_involutive in He.
  rewrite string_of_list_ascii_of_string in He. exact He.
Qed.

Lemma trim_right_no_space : forall s, ~ ends_with_space (trim_right s).
Proof.
  intros s [e [r [Hin He]]].
  apply (drop_rev_no_space _ (rev (list_ascii_of_string s)) (le_n _)).
  exists e, (rev (list_ascii_of_string r)). split; [assumption|].
  unfold trim_right in He.
  apply (f_equal list_ascii_of_string) in He.
  rewrite list_ascii_of_string_of_list_ascii, los_app in He.
  apply (f_equal (@rev ascii)) in He. rewrite rev_involutive, rev_app_distr in He. exact He.
Qed.

Theorem trim_space_spec : forall s, exists p q,
  all_space p /\ all_space q /\ s = p ++ trim_space s ++ q
  /\ ~ starts_with_space (trim_space s) /\ ~ ends_with_space (trim_space s).
Proof.
  intros s. destruct (trim_left_split _ s (le_n _)) as [p [Hp Ep]].
  destruct (trim_right_split (trim_left s)) as [q [Hq Eq]].
  exists p, q. unfold trim_space. repeat split; auto.
  - rewrite <- Eq. exact Ep.
  - intros [e [r [Hin He]]]. apply (trim_left_no_space _ s (le_n _)).
    exists e, (r ++ q). split; [assumption|]. rewrite Eq, He, sapp_assoc. reflexivity.
  - apply trim_right_no_space.
Qed.

Lemma trim_space_blank : forall s, trim_space s = "" -> all_space s.
Proof.
  intros s H. destruct (trim_space_spec s) as [p [q [Hp [Hq [He _]]]]].
  rewrite H in He. simpl in He. rewrite He. now apply all_space_app.
Qed.

Lemma all_space_trim : forall s, all_space s -> trim_left s = "".
Proof.
  intros s H. induction H; [reflexivity|].
  apply in_recognised in H.
  destruct H as [[a [-> H]]|[[a [b [-> H]]]|[a [b [c [-> H]]]]]]; cbn [append trim_left].
  - now rewrite H.
  - destruct H as [H1 [_ H2]]. now rewrite H1, H2.
  - destruct H as [H1 [H2 [_ [_ H3]]]]. now rewrite H1, H2, H3.
Qed.

(** A name is blank exactly if it consists of white space. *)
Theorem blank_iff : forall s, trim_space s = "" <-> all_space s.
Proof.
  intros s; split; [apply trim_space_blank|]. intros H.
  unfold trim_space. rewrite (all_space_trim _ H). reflexivity.
Qed.

(** Trimming is the identity on text without white space at its ends. *)
Theorem trim_space_id : forall s,
  ~ starts_with_space s -> ~ ends_with_space s -> trim_space s = s.
Proof.
  intros s Hs He. destruct (trim_space_spec s) as [p [q [Hp [Hq [Eq [_ _]]]]]].
  destruct Hp as [|e p' Hin Hp'].
  - simpl in Eq. destruct Hq as [|e q' Hin Hq'].
    + rewrite sapp_nil_r in Eq. auto.
    + exfalso. (* the last encoding of e ++ q' *)
      assert (L : forall z, all_space z -> z <> "" -> exists y e', In e' space_encodings /\ z = y ++ e').
      { intros z Hz. induction Hz; intros; [congruence|].
        destruct (string_dec s0 "") as [->|Hn].
        - exists "", e0. split; [assumption|]. now rewrite sapp_nil_r.
        - destruct (IHHz Hn) as [y [e' [Hin' ->]]]. exists (e0 ++ y), e'.
          split; [assumption|]. now rewrite sapp_assoc. }
      destruct (L (e ++ q')) as [y [e' [Hin' Hz]]].
      * now constructor.
      * apply in_recognised in Hin.
        destruct Hin as [[a [-> _]]|[[a [b [-> _]]]|[a [b [c [-> _]]]]]]; discriminate.
      * apply He. exists e', (trim_space s ++ y). split; [assumption|].
        rewrite Eq at 1. rewrite Hz. now rewrite sapp_assoc.
  - exfalso. apply Hs. exists e, (p' ++ trim_space s ++ q). split; [assumption|].
    rewrite Eq at 1. now rewrite sapp_assoc.
Qed.

Theorem trim_space_idem : forall s, trim_space (trim_space s) = trim_space s.
Proof.
  intros s. destruct (trim_space_spec s) as [p [q [_ [_ [_ [H1 H2]]]]]].
  now apply trim_space_id.
Qed.

(** ** Decimal numerals *)

Lemma digit_val_digit : forall d, (0 <= d < 10)%Z -> digit_val (digit d) = Some d.
Proof.
  intros d H.
  assert (d = 0 \/ d = 1 \/ d = 2 \/ d = 3 \/ d = 4 \/ d = 5 \/ d = 6 \/ d = 7 \/ d = 8 \/ d = 9)%Z as C by lia.
  repeat (destruct C as [->|C]; [reflexivity|]). subst. reflexivity.
Qed.

Fixpoint all_digits (s : string) : Prop :=
  match s with
  | EmptyString => True
  | String a r => (exists d, digit_val a = Some d) /\ all_digits r
  end.

Fixpoint value_from (acc : Z) (s : string) : Z :=
  match s with
  | EmptyString => acc
  | String a r => match digit_val a with
                  | Some d => value_from (10 * acc + d) r
                  | None => acc
                  end
  end.

Lemma lex_digits_all : forall s t acc, all_digits s -> ends_number t ->
  lex_digits acc (s ++ t) = (value_from acc s, t).
Proof.
  induction s as [|a r IH]; intros t acc H Ht.
  - simpl. destruct t as [|b t']; [reflexivity|]. simpl in *. now rewrite Ht.
  - destruct H as [[d Hd] H]. cbn [append lex_digits value_from]. rewrite Hd. auto.
Qed.

Lemma digits_aux_spec : forall fuel n acc,
  (0 <= n)%Z -> (n < 10 ^ Z.of_nat fuel)%Z -> all_digits acc -> (0 < fuel)%nat ->
  all_digits (digits_aux fuel n acc)
  /\ value_from 0 (digits_aux fuel n acc) = value_from n acc
  /\ (exists a r d, digits_aux fuel n acc = String a r /\ digit_val a = Some d).
Proof.
  induction fuel as [|f IH]; intros n acc Hn Hb Ha Hf; [lia|].
  cbn [digits_aux]. destruct (Z.ltb_spec n 10).
  - assert (Hd : digit_val (digit n) = Some n) by (apply digit_val_digit; lia).
    repeat split.
    + exists n. exact Hd.
    + exact Ha.
    + cbn [value_from]. rewrite Hd. f_equal.
    + exists (digit n), acc, n. split; [reflexivity|exact Hd].
  - assert (Hmod : (0 <= n mod 10 < 10)%Z) by (apply Z.mod_pos_bound; lia).
    assert (Hd : digit_val (digit (n mod 10)) = Some (n mod 10)%Z) by (now apply digit_val_digit).
    assert (Hb' : (n / 10 < 10 ^ Z.of_nat f)%Z).
    { rewrite Nat2Z.inj_succ, Z.pow_succ_r in Hb by lia.
      apply Z.div_lt_upper_bound; lia. }
    assert (Hf' : (0 < f)%nat).
    { destruct f; [|lia]. simpl in Hb'. assert (1 <= n / 10)%Z by (apply Z.div_le_lower_bound; lia). lia. }
    destruct (IH (n / 10)%Z (String (digit (n mod 10)) acc)) as [H1 [H2 H3]]; auto.
    { apply Z.div_pos; lia. }
    { simpl. split; [eexists; exact Hd|exact Ha]. }
    repeat split; auto. rewrite H2. cbn [value_from]. rewrite Hd.
    f_equal. rewrite (Z.div_mod n 10) at 3 by lia. reflexivity.
Qed.

Lemma log2_pow10 : forall n, (0 <= n)%Z -> (n < 10 ^ Z.of_nat (S (Z.to_nat (Z.log2 n))))%Z.
Proof.
  intros n Hn. destruct (Z.eq_dec n 0) as [->|Hz]; [simpl; lia|].
  rewrite Nat2Z.inj_succ, Z2Nat.id by apply Z.log2_nonneg.
  pose proof (Z.log2_spec n ltac:(lia)) as [_ H].
  eapply Z.lt_le_trans; [exact H|].
  apply Z.pow_le_mono_l. pose proof (Z.log2_nonneg n). lia.
Qed.

Lemma digits_value : forall n, (0 <= n)%Z ->
  all_digits (digits n) /\ value_from 0 (digits n) = n
  /\ exists a r d, digits n = String a r /\ digit_val a = Some d.
Proof.
  intros n Hn. unfold digits.
  destruct (digits_aux_spec (S (Z.to_nat (Z.log2 n))) n "" Hn (log2_pow10 n Hn) I ltac:(lia))
    as [H1 [H2 H3]].
  repeat split; auto.
Qed.

Lemma lex_nat_digits : forall n t, (0 <= n)%Z -> ends_number t ->
  lex_nat (digits n ++ t) = Some (n, t).
Proof.
  intros n t Hn Ht. destruct (digits_value n Hn) as [H1 [H2 [a [r [d [H3 H4]]]]]].
  rewrite H3 in *. cbn [append lex_nat]. rewrite H4.
  destruct H1 as [_ H1]. rewrite lex_digits_all by assumption.
  cbn [value_from] in H2. rewrite H4 in H2. simpl in H2. now rewrite H2.
Qed.

Theorem itoa_lex : forall n t, ends_number t -> lex_int (itoa n ++ t) = Some (n, t).
Proof.
  intros n t Ht. unfold itoa. destruct (Z.ltb_spec n 0).
  - rewrite sapp_assoc. cbn [append lex_int]. rewrite Ascii.eqb_refl.
    rewrite lex_nat_digits by (auto; lia). now rewrite Z.opp_involutive.
  - destruct (digits_value n H) as [H1 [H2 [a [r [d [H3 H4]]]]]].
    pose proof (lex_nat_digits n t H Ht) as L.
    rewrite H3 in *. cbn [append lex_int] in *.
    destruct (Ascii.eqb_spec a "-") as [->|]; [discriminate|exact L].
Qed.

Theorem itoa_injective : forall a b, itoa a = itoa b -> a = b.
Proof.
  intros a b H. pose proof (itoa_lex a "" I) as Ha. pose proof (itoa_lex b "" I) as Hb.
  rewrite H in Ha. rewrite Ha in Hb. now inversion Hb.
Qed.

(** ** Relationship lengths *)

Lemma opt_int_none : forall t, ends_length t -> opt_int t = (None, t).
Proof.
  intros [|a r] H; [reflexivity|]. destruct H as [H1 [H2 H3]].
  unfold opt_int, lex_int. destruct (Ascii.eqb_spec a "-"); [contradiction|].
  unfold lex_nat. now rewrite H1.
Qed.

Lemma opt_int_itoa : forall n t, ends_number t -> opt_int (itoa n ++ t) = (Some n, t).
Proof. intros. unfold opt_int. now rewrite itoa_lex. Qed.

Theorem rel_length_lex : forall u lo hi v t,
  len_value u lo hi = Some v -> ends_length t ->
  lex_length (rel_length_text u lo hi ++ t) = Some (v, t).
Proof.
  intros u lo hi v t H Ht. unfold len_value in H. unfold rel_length_text.
  assert (Hn : ends_number t) by (destruct t; [exact I|apply Ht]).
  destruct u.
  - inversion H; subst. cbn [append lex_length]. rewrite opt_int_none by assumption.
    destruct t as [|a r]; [reflexivity|]. destruct Ht as [_ [_ Hd]].
    destruct a as [[|] [|] [|] [|] [|] [|] [|] [|]]; try reflexivity. congruence.
  - destruct lo as [lo|]; destruct hi as [hi|]; inversion H; subst;
      rewrite !sapp_assoc; cbn [append lex_length].
    + rewrite opt_int_itoa by reflexivity. rewrite opt_int_itoa by assumption. reflexivity.
    + rewrite opt_int_itoa by reflexivity. rewrite opt_int_none by assumption. reflexivity.
    + change (opt_int (String "." (String "." (itoa hi ++ t)))) with
        (@None Z, String "." (String "." (itoa hi ++ t))).
      cbv iota beta. rewrite opt_int_itoa by assumption. reflexivity.
Qed.
