(** Integers below 10^10 keep their value; larger ones are rendered in
    exponent notation with ten significant digits. *)

From Coq Require Import Ascii String List ZArith Bool Lia.
From Verif Require Import GoStr Num SpecLex EscapeProofs GoStrProofs.
Open Scope string_scope.
Open Scope Z_scope.

(** ** Digits *)

Lemma digits_aux_acc : forall f n acc, digits_aux f n acc = (digits_aux f n "" ++ acc)%string.
Proof.
  induction f as [|f IH]; intros n acc; [reflexivity|]. cbn [digits_aux].
  destruct (n <? 10); [reflexivity|].
  rewrite IH. rewrite (IH (n / 10) (String (digit (n mod 10)) "")).
  rewrite sapp_assoc. reflexivity.
Qed.

Lemma digits_aux_fuel : forall f1 f2 n acc, 0 <= n ->
  n < 10 ^ Z.of_nat f1 -> n < 10 ^ Z.of_nat f2 -> (0 < f1)%nat -> (0 < f2)%nat ->
  digits_aux f1 n acc = digits_aux f2 n acc.
Proof.
  induction f1 as [|f1 IH]; intros f2 n acc Hn H1 H2 P1 P2; [lia|].
  destruct f2 as [|f2]; [lia|]. cbn [digits_aux].
  destruct (Z.ltb_spec n 10); [reflexivity|].
  rewrite Nat2Z.inj_succ, Z.pow_succ_r in H1, H2 by lia.
  assert (n / 10 < 10 ^ Z.of_nat f1) by (apply Z.div_lt_upper_bound; lia).
  assert (n / 10 < 10 ^ Z.of_nat f2) by (apply Z.div_lt_upper_bound; lia).
  assert (1 <= n / 10) by (apply Z.div_le_lower_bound; lia).
  apply IH; auto; try lia.
  - destruct f1; [simpl in *; lia|lia].
  - destruct f2; [simpl in *; lia|lia].
Qed.

Lemma digits_snoc : forall m d, 1 <= m -> 0 <= d < 10 ->
  digits (10 * m + d) = (digits m ++ String (digit d) "")%string.
Proof.
  intros m d Hm Hd. unfold digits.
  set (n := 10 * m + d).
  assert (Hlog : Z.log2 m + 1 <= Z.log2 n).
  {
    assert (Z.log2 (2 * m) = Z.succ (Z.log2 m)) by (apply Z.log2_double; lia).
    assert (Z.log2 (2 * m) <= Z.log2 n) by (apply Z.log2_le_mono; unfold n; lia). lia. }
  pose proof (Z.log2_nonneg m).
  cbn [digits_aux]. destruct (Z.ltb_spec n 10); [unfold n in *; lia|].
  assert (En : n / 10 = m) by (unfold n; symmetry; apply (Z.div_unique _ _ m d); lia).
  assert (Em : n mod 10 = d) by (unfold n; symmetry; apply (Z.mod_unique _ _ m d); lia).
  rewrite En, Em. rewrite digits_aux_acc. f_equal.
  change (digits_aux (Z.to_nat (Z.log2 n)) m "" = digits_aux (S (Z.to_nat (Z.log2 m))) m "").
  apply digits_aux_fuel; try lia.
  - pose proof (log2_pow10 m ltac:(lia)) as Hp.
    eapply Z.lt_le_trans; [exact Hp|]. apply Z.pow_le_mono_r; lia.
  - apply log2_pow10. lia.
Qed.

Lemma zeros_snoc : forall k, (zeros (S k) = zeros k ++ "0")%string.
Proof. induction k; [reflexivity|]. cbn [zeros] in *. rewrite IHk at 1. reflexivity. Qed.

Lemma digits_pow : forall k m, 1 <= m ->
  digits (m * 10 ^ Z.of_nat k) = (digits m ++ zeros k)%string.
Proof.
  induction k as [|k IH]; intros m Hm.
  - simpl. rewrite Z.mul_1_r, sapp_nil_r. reflexivity.
  - rewrite Nat2Z.inj_succ, Z.pow_succ_r by lia.
    replace (m * (10 * 10 ^ Z.of_nat k)) with (10 * (m * 10 ^ Z.of_nat k) + 0) by lia.
    assert (0 < 10 ^ Z.of_nat k) by (apply Z.pow_pos_nonneg; lia).
    rewrite digits_snoc by nia. rewrite IH by assumption.
    rewrite zeros_snoc, <- sapp_assoc. reflexivity.
Qed.

Lemma slen_snoc : forall s a, String.length (s ++ String a "")%string = S (String.length s).
Proof. intros. rewrite slen_app. simpl. lia. Qed.

(** Number of digits: 10^(len-1) <= m < 10^len. *)
Lemma digits_len : forall k m, (Z.to_nat m <= k)%nat -> 1 <= m ->
  let len := Z.of_nat (String.length (digits m)) in
  1 <= len /\ 10 ^ (len - 1) <= m < 10 ^ len.
Proof.
  induction k as [|k IH]; intros m Hk Hm; [lia|].
  destruct (Z.ltb_spec m 10).
  - assert (E : digits m = String (digit m) "").
    { unfold digits. cbn [digits_aux]. destruct (Z.ltb_spec m 10); [reflexivity|lia]. }
    rewrite E. simpl. lia.
  - assert (Hdm : m = 10 * (m / 10) + m mod 10) by (apply Z.div_mod; lia).
    assert (0 <= m mod 10 < 10) by (apply Z.mod_pos_bound; lia).
    assert (1 <= m / 10) by (apply Z.div_le_lower_bound; lia).
    assert (m / 10 < m) by (apply Z.div_lt; lia).
    rewrite Hdm. rewrite digits_snoc by assumption. rewrite slen_snoc.
    destruct (IH (m / 10)) as [L1 [L2 L3]]; [lia|lia|].
    rewrite Nat2Z.inj_succ. set (l := Z.of_nat (String.length (digits (m / 10)))) in *.
    cbv zeta. split; [lia|]. replace (Z.succ l - 1) with (Z.succ (l - 1)) by lia.
    rewrite !Z.pow_succ_r by lia. lia.
Qed.

Lemma ndigits_bounds : forall m, 1 <= m ->
  1 <= ndigits m /\ 10 ^ (ndigits m - 1) <= m < 10 ^ ndigits m.
Proof.
  intros m Hm. unfold ndigits. destruct (Z.eqb_spec m 0); [lia|].
  apply (digits_len _ m (le_n _) Hm).
Qed.

Lemma ndigits_unique : forall m k, 1 <= k -> 10 ^ (k - 1) <= m < 10 ^ k -> ndigits m = k.
Proof.
  intros m k Hk H.
  assert (1 <= m) by (assert (0 < 10 ^ (k - 1)) by (apply Z.pow_pos_nonneg; lia); lia).
  destruct (ndigits_bounds m) as [B0 B]; [assumption|].
  destruct (Z.lt_trichotomy (ndigits m) k) as [L|[E|L]]; [|exact E|].
  - assert (10 ^ ndigits m <= 10 ^ (k - 1)) by (apply Z.pow_le_mono_r; lia). lia.
  - assert (10 ^ k <= 10 ^ (ndigits m - 1)) by (apply Z.pow_le_mono_r; lia). lia.
Qed.

(** ** Trailing zeros *)

Lemma strip_aux_spec : forall f m e m' e', 1 <= m -> strip_aux f m e = (m', e') ->
  exists k, e' = e + Z.of_nat k /\ m = m' * 10 ^ Z.of_nat k /\ 1 <= m'.
Proof.
  induction f as [|f IH]; intros m e m' e' Hm H; cbn [strip_aux] in H.
  - inversion H; subst. exists 0%nat. simpl. lia.
  - destruct (Z.eqb_spec (m mod 10) 0) as [Hz|Hz]; cbn [andb] in H.
    + destruct (Z.eqb_spec m 0); [lia|]. cbn [negb] in H.
      assert (Hdm : m = 10 * (m / 10) + m mod 10) by (apply Z.div_mod; lia).
      apply IH in H; [|lia]. destruct H as [k [H1 [H2 H3]]].
      exists (S k). rewrite Nat2Z.inj_succ, Z.pow_succ_r by lia.
      repeat split; try lia.
    + inversion H; subst. exists 0%nat. simpl. lia.
Qed.

Lemma strip_spec : forall m e m' e', 1 <= m -> strip m e = (m', e') ->
  exists k, e' = e + Z.of_nat k /\ m = m' * 10 ^ Z.of_nat k /\ 1 <= m'.
Proof. intros m e m' e' Hm H. eapply strip_aux_spec; eauto. Qed.

Lemma strip_even : forall m e m' e', 1 <=? m = true -> m mod 10 =? 0 = true -> strip m e = (m', e') ->
  m' <= m / 10.
Proof.
  intros m e m' e' Hm Hz H. unfold strip in H. cbn [strip_aux] in H. rewrite Hz in H.
  apply Z.leb_le in Hm. apply Z.eqb_eq in Hz.
  destruct (Z.eqb_spec m 0); [lia|]. cbn [andb negb] in H.
  assert (Hdm : m = 10 * (m / 10) + m mod 10) by (apply Z.div_mod; lia).
  apply strip_aux_spec in H; [|lia]. destruct H as [k [_ [H2 H3]]].
  assert (0 < 10 ^ Z.of_nat k) by (apply Z.pow_pos_nonneg; lia). nia.
Qed.

Lemma ndigits_mul_pow : forall m k, 1 <= m -> ndigits (m * 10 ^ Z.of_nat k) = ndigits m + Z.of_nat k.
Proof.
  intros m k Hm. destruct (ndigits_bounds m Hm) as [H1 H2].
  apply ndigits_unique; [lia|].
  assert (0 < 10 ^ Z.of_nat k) by (apply Z.pow_pos_nonneg; lia).
  replace (ndigits m + Z.of_nat k - 1) with ((ndigits m - 1) + Z.of_nat k) by lia.
  rewrite !Z.pow_add_r by lia. nia.
Qed.

(** ** The 'f' format on integers *)

Lemma get_app1 : forall a b i, (i < String.length a)%nat -> String.get i (a ++ b)%string = String.get i a.
Proof.
  induction a as [|x a IH]; intros b i H; simpl in *; [lia|].
  destruct i; [reflexivity|]. apply IH. lia.
Qed.

Lemma at_digits_beyond : forall k ds i, Z.of_nat (String.length ds) <= i ->
  at_digits ds i k = zeros k.
Proof.
  induction k as [|k IH]; intros ds i H; [reflexivity|]. cbn [at_digits zeros].
  rewrite IH by lia. unfold at_digit.
  destruct (Z.ltb_spec i 0); [lia|].
  assert (String.get (Z.to_nat i) ds = None) as ->.
  { assert (String.length ds <= Z.to_nat i)%nat as L by lia. clear H H0.
    revert L. generalize (Z.to_nat i). induction ds as [|a ds IHd]; intros n Hn; [destruct n; reflexivity|].
    destruct n; simpl in *; [lia|]. apply IHd. lia. }
  reflexivity.
Qed.

Lemma at_digits_shift : forall c a ds i, 0 <= i ->
  at_digits (String a ds) (i + 1) c = at_digits ds i c.
Proof.
  induction c as [|c IH]; intros a ds i Hi; [reflexivity|]. cbn [at_digits].
  rewrite IH by lia. f_equal. unfold at_digit.
  destruct (Z.ltb_spec (i + 1) 0); [lia|]. destruct (Z.ltb_spec i 0); [lia|].
  replace (Z.to_nat (i + 1)) with (S (Z.to_nat i)) by lia. reflexivity.
Qed.

Lemma at_digits_all : forall ds k,
  at_digits ds 0 (String.length ds + k) = (ds ++ zeros k)%string.
Proof.
  induction ds as [|a ds IH]; intros k.
  - simpl Nat.add. apply at_digits_beyond. simpl. lia.
  - cbn [String.length Nat.add at_digits append].
    rewrite (at_digits_shift _ a ds 0) by lia. rewrite IH. reflexivity.
Qed.

(** ** Integers below 10^10 *)

Theorem number_text_small : forall z, Z.abs z < 10 ^ 10 -> number_text (num_of_Z z) = itoa z.
Proof.
  intros z Hz. unfold number_text, num_of_Z, itoa. cbn [n_neg n_mant n_exp].
  assert (Main : forall m, 0 <= m < 10 ^ 10 -> text_g10 m 0 = digits m).
  { intros m Hm. destruct (Z.eq_dec m 0) as [->|Hm0]; [reflexivity|].
    assert (H1 : 1 <= m) by lia. unfold text_g10.
    destruct (strip m 0) as [m1 e1] eqn:HS.
    destruct (strip_spec _ _ _ _ H1 HS) as [k [Ek [Em Hm1]]].
    destruct (ndigits_bounds m H1) as [B0 B1].
    pose proof (ndigits_mul_pow m1 k Hm1) as ND. rewrite <- Em in ND.
    assert (L10 : ndigits m <= 10).
    { destruct (Z.leb_spec (ndigits m) 10); [assumption|].
      assert (10 ^ 10 <= 10 ^ (ndigits m - 1)) by (apply Z.pow_le_mono_r; lia). lia. }
    destruct (ndigits_bounds m1 Hm1) as [B2 _].
    unfold round_digits. destruct (Z.leb_spec (ndigits m1 - 10) 0); [|lia].
    destruct (Z.eqb_spec m1 0); [lia|].
    assert (Edexp : ndigits m1 + e1 = ndigits m) by lia. rewrite Edexp.
    set (eprec := if (_ && _)%bool then _ else _).
    assert (He : ndigits m - 1 < eprec).
    { unfold eprec. destruct (Z.ltb_spec (ndigits m1) 10); cbn [andb]; [|lia].
      destruct (Z.leb_spec (ndigits m) (ndigits m1)); lia. }
    destruct (Z.ltb_spec (ndigits m - 1) (-4)); [lia|]. cbn [orb].
    destruct (Z.leb_spec eprec (ndigits m - 1)); [lia|].
    assert (Hp : Z.max ((if ndigits m <? 10 then ndigits m1 else 10) - ndigits m) 0 = 0).
    { destruct (Z.ltb_spec (ndigits m) 10); lia. }
    rewrite Hp. unfold fmt_f. destruct (Z.ltb_spec 0 (ndigits m)); [|lia].
    change (0 <? 0) with false. cbv iota. rewrite sapp_nil_r.
    rewrite Em at 2. rewrite digits_pow by assumption.
    rewrite <- at_digits_all. f_equal.
    rewrite ND. unfold ndigits. destruct (Z.eqb_spec m1 0); lia. }
  destruct (Z.ltb_spec z 0).
  - rewrite Main by lia. rewrite Z.abs_neq by lia. reflexivity.
  - rewrite Main by lia. rewrite Z.abs_eq by lia. reflexivity.
Qed.

(** ** Larger integers *)

Lemma digits_first : forall m, 0 <= m -> exists a r d, digits m = String a r /\ digit_val a = Some d.
Proof. intros m Hm. destruct (digits_value m Hm) as [_ [_ H]]. exact H. Qed.

Lemma digit_val_minus : forall d, digit_val "-" = Some d -> False.
Proof. intros d H. discriminate. Qed.

Lemma fmt_e_not_int : forall prec ds dexp a r d,
  ds = String a r -> digit_val a = Some d ->
  exists rest, rest <> ""%string /\ lex_nat (fmt_e prec ds dexp) = Some (d, rest).
Proof.
  intros prec ds dexp a r d -> Hd. unfold fmt_e.
  assert (A : at_digit (String a r) 0 = a) by reflexivity. rewrite A.
  cbn [append lex_nat]. rewrite Hd.
  destruct (0 <? prec); cbn [append lex_digits]; cbn [digit_val]; eexists; split;
    try reflexivity; discriminate.
Qed.

Lemma text_g10_large : forall m, 10 ^ 10 <= m -> exists prec ds dexp a r d,
  text_g10 m 0 = fmt_e prec ds dexp /\ ds = String a r /\ digit_val a = Some d.
Proof.
  intros m Hm. assert (H1 : 1 <= m) by lia. unfold text_g10.
  destruct (strip m 0) as [m1 e1] eqn:HS.
  destruct (strip_spec _ _ _ _ H1 HS) as [k [Ek [Em Hm1]]].
  destruct (ndigits_bounds m H1) as [B0 B1].
  pose proof (ndigits_mul_pow m1 k Hm1) as ND. rewrite <- Em in ND.
  assert (L11 : 11 <= ndigits m).
  { destruct (Z.leb_spec 11 (ndigits m)); [assumption|].
    assert (10 ^ ndigits m <= 10 ^ 10) by (apply Z.pow_le_mono_r; lia). lia. }
  (* after rounding: at most ten digits, decimal point not moved to the left *)
  assert (R : forall m2 e2, round_digits 10 m1 e1 = (m2, e2) ->
            1 <= m2 /\ ndigits m2 <= 10 /\ 11 <= ndigits m2 + e2).
  { intros m2 e2 HR. unfold round_digits in HR.
    destruct (ndigits_bounds m1 Hm1) as [C0 C1].
    destruct (Z.leb_spec (ndigits m1 - 10) 0).
    - inversion HR; subst. repeat split; try lia.
    - set (j := ndigits m1 - 10) in *. set (q := m1 / 10 ^ j) in *.
      assert (P0 : 0 < 10 ^ j) by (apply Z.pow_pos_nonneg; lia).
      assert (Hq : 10 ^ 9 <= q < 10 ^ 10).
      { unfold q. replace (ndigits m1 - 1) with (9 + j) in C1 by lia.
        replace (ndigits m1) with (10 + j) in C1 by lia.
        rewrite !Z.pow_add_r in C1 by lia. split.
        - apply Z.div_le_lower_bound; lia.
        - apply Z.div_lt_upper_bound; lia. }
      match type of HR with strip ?x ?y = _ => set (qq := x) in *; set (ee := y) in * end.
      assert (Hqq : 10 ^ 9 <= qq <= 10 ^ 10).
      { unfold qq. destruct (_ || _)%bool; lia. }
      assert (Hqq1 : 1 <= qq) by (assert (1 <= 10 ^ 9) by (vm_compute; discriminate); lia).
      destruct (strip_spec _ _ _ _ Hqq1 HR) as [k2 [E2 [M2 P2]]].
      pose proof (ndigits_mul_pow m2 k2 P2) as ND2. rewrite <- M2 in ND2.
      assert (Q10 : 10 <= ndigits qq).
      { destruct (ndigits_bounds qq ltac:(lia)) as [D0 D1].
        destruct (Z.leb_spec 10 (ndigits qq)); [assumption|].
        assert (10 ^ ndigits qq <= 10 ^ 9) by (apply Z.pow_le_mono_r; lia). lia. }
      split; [assumption|]. split.
      + destruct (Z.eq_dec qq (10 ^ 10)) as [Eqq|Nqq].
        * (* carry: 10^10 strips to fewer digits *)
          destruct (ndigits_bounds m2 P2) as [D0 D1].
          destruct (Z.leb_spec (ndigits m2) 10); [assumption|].
          assert (ndigits qq = 11) by (apply ndigits_unique; rewrite ?Eqq; simpl; lia).
          assert (k2 = 0)%nat by lia. subst k2. simpl in M2.
          exfalso. rewrite Eqq in HR. apply strip_even in HR; [|reflexivity|reflexivity].
          change (10 ^ 10 / 10) with (10 ^ 9) in HR.
          assert (10 ^ 9 < 10 ^ 10) by reflexivity. lia.
        * assert (ndigits qq = 10) by (apply ndigits_unique; simpl; lia). lia.
      + unfold ee in E2. lia. }
  destruct (round_digits 10 m1 e1) as [m2 e2] eqn:HR.
  destruct (R m2 e2 eq_refl) as [R1 [R2 R3]].
  destruct (Z.eqb_spec m2 0); [lia|].
  set (eprec := if (_ && _)%bool then _ else _).
  assert (eprec = 10).
  { unfold eprec. destruct (Z.leb_spec (ndigits m2 + e2) (ndigits m2)); [lia|].
    now rewrite andb_false_r. }
  destruct (Z.leb_spec eprec (ndigits m2 + e2 - 1)); [|lia].
  rewrite orb_true_r.
  destruct (digits_first m2 ltac:(lia)) as [a [r [d [D1 D2]]]].
  do 6 eexists. split; [reflexivity|]. split; eassumption.
Qed.

Theorem number_text_large : forall z, 10 ^ 10 <= Z.abs z ->
  forall v rest, lex_int (number_text (num_of_Z z)) = Some (v, rest) -> rest <> ""%string.
Proof.
  intros z Hz v rest H. unfold number_text, num_of_Z in H. cbn [n_neg n_mant n_exp] in H.
  destruct (text_g10_large (Z.abs z) Hz) as [prec [ds [dexp [a [r [d [E [Ed Hd]]]]]]]].
  rewrite E in H. destruct (fmt_e_not_int prec ds dexp a r d Ed Hd) as [rest' [Hr L]].
  destruct (z <? 0).
  - cbn [append lex_int] in H. rewrite Ascii.eqb_refl in H. rewrite L in H.
    inversion H; subst. exact Hr.
  - cbn [append] in H. unfold lex_int in H.
    destruct (fmt_e prec ds dexp) as [|b s] eqn:F; [discriminate|].
    assert (b = a). { unfold fmt_e in F. subst ds. cbn in F. now inversion F. }
    destruct (Ascii.eqb_spec b "-") as [Eb|]; [rewrite <- H0, Eb in Hd; discriminate|].
    rewrite L in H. inversion H; subst. exact Hr.
Qed.

Theorem number_text_injective : forall x y,
  Z.abs x < 10 ^ 10 -> Z.abs y < 10 ^ 10 ->
  number_text (num_of_Z x) = number_text (num_of_Z y) -> x = y.
Proof.
  intros x y Hx Hy H. rewrite !number_text_small in H by assumption.
  now apply itoa_injective.
Qed.
