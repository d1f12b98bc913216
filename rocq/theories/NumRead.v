(** Numbers as they are read: the text of a number denotes the number rounded
    to ten significant digits. *)

From Coq Require Import Ascii String List ZArith Bool Lia.
From Verif Require Import GoStr Num SpecLex SpecNum EscapeProofs GoStrProofs NumProofs.
Open Scope string_scope.
Open Scope Z_scope.

(** ** Texts of digits *)

Lemma all_digits_app : forall a b, all_digits (a ++ b)%string <-> all_digits a /\ all_digits b.
Proof. induction a as [|x a IH]; intros b; cbn; [tauto|]. rewrite IH. tauto. Qed.

Lemma span_digits : forall s t, all_digits s -> ends_number t -> span (s ++ t)%string = (s, t).
Proof.
  induction s as [|a s IH]; intros t H E; cbn [append span].
  - destruct t as [|b t]; [reflexivity|]. cbn in E. cbn [span]. now rewrite E.
  - destruct H as [[d D] H]. rewrite D, (IH _ H E). reflexivity.
Qed.

Lemma value_from_app : forall a b acc, all_digits a -> value_from acc (a ++ b)%string = value_from (value_from acc a) b.
Proof.
  induction a as [|x a IH]; intros b acc H; [reflexivity|]. destruct H as [[d D] H]. cbn [append value_from]. rewrite D. now apply IH.
Qed.

Lemma numeral_value : forall s, all_digits s -> numeral s = value_from 0 s.
Proof.
  intros s H. unfold numeral. pose proof (lex_digits_all s "" 0 H I) as L. rewrite sapp_nil_r in L. now rewrite L.
Qed.

Lemma zeros_digits : forall k, all_digits (zeros k).
Proof. induction k as [|k IH]; cbn; [exact I|]. split; [now exists 0|exact IH]. Qed.

Lemma value_zeros : forall k acc, value_from acc (zeros k) = acc * 10 ^ Z.of_nat k.
Proof.
  induction k as [|k IH]; intros acc; [cbn; lia|].
  change (value_from (10 * acc + 0) (zeros k) = acc * 10 ^ Z.of_nat (S k)).
  rewrite IH, Nat2Z.inj_succ, Z.pow_succ_r by lia. lia.
Qed.

Lemma zeros_length : forall k, String.length (zeros k) = k.
Proof. induction k; cbn; congruence. Qed.

(** ** Windows of the mantissa *)

Lemma at_digits_split : forall a b ds i, at_digits ds i (a + b) = (at_digits ds i a ++ at_digits ds (i + Z.of_nat a) b)%string.
Proof.
  induction a as [|a IH]; intros b ds i.
  - cbn [Nat.add at_digits append]. now rewrite Z.add_0_r.
  - cbn [Nat.add at_digits append]. rewrite IH. now replace (i + Z.of_nat (S a)) with (i + 1 + Z.of_nat a) by lia.
Qed.

Lemma at_digits_before : forall k ds i, i + Z.of_nat k <= 0 -> at_digits ds i k = zeros k.
Proof.
  induction k as [|k IH]; intros ds i H; [reflexivity|]. cbn [at_digits zeros]. rewrite IH by lia. unfold at_digit.
  destruct (Z.ltb_spec i 0); [reflexivity|lia].
Qed.

Lemma at_digits_length : forall k ds i, String.length (at_digits ds i k) = k.
Proof. induction k as [|k IH]; intros ds i; cbn; [reflexivity|now rewrite IH]. Qed.

(** ** What the two formats write *)

Lemma ends_decimal_number : forall t, ends_decimal t -> ends_number t.
Proof. intros [|a t] H; cbn; [exact I|]. apply H. Qed.

Lemma no_fraction : forall t, ends_decimal t -> read_fraction t = ("", t).
Proof.
  intros [|a t] H; [reflexivity|]. destruct H as (_ & _ & H). unfold read_fraction.
  destruct (Ascii.eqb_spec a "."%char) as [->|N].
  - specialize (H eq_refl). destruct t as [|b t]; [reflexivity|]. cbn [span]. rewrite H. reflexivity.
  - destruct a as [[] [] [] [] [] [] [] []]; try reflexivity. now destruct N.
Qed.

Lemma no_exponent : forall t, ends_decimal t -> read_exponent t = (0, t).
Proof.
  intros [|a t] H; [reflexivity|]. destruct H as (_ & N & _). unfold read_exponent.
  destruct a as [[] [] [] [] [] [] [] []]; try reflexivity. now destruct N.
Qed.

Lemma nonempty_eqb : forall s, s <> "" -> String.eqb s "" = false.
Proof. intros s H. now apply String.eqb_neq. Qed.

(** Digits, or digits and a fraction. *)
Lemma read_fixed : forall i f t, all_digits i -> i <> "" -> all_digits f -> ends_decimal t ->
  read_decimal (i ++ (if String.eqb f "" then "" else "." ++ f) ++ t)%string
  = Some (value_from 0 (i ++ f)%string, - Z.of_nat (String.length f), t).
Proof.
  intros i f t Hi Ni Hf Ht. unfold read_decimal. destruct (String.eqb_spec f "") as [->|Nf].
  - rewrite span_digits by (try exact Hi; now apply ends_decimal_number). rewrite nonempty_eqb by exact Ni.
    cbn [append]. rewrite no_fraction, no_exponent by exact Ht. rewrite sapp_nil_r, numeral_value by exact Hi. reflexivity.
  - rewrite span_digits by (try exact Hi; reflexivity). rewrite nonempty_eqb by exact Ni.
    cbn [append read_fraction]. rewrite span_digits by (try exact Hf; now apply ends_decimal_number). rewrite nonempty_eqb by exact Nf.
    rewrite no_exponent by exact Ht. rewrite numeral_value by (now apply all_digits_app). reflexivity.
Qed.

(** Digits, a fraction and an exponent. *)
Lemma read_scientific : forall i f x t, all_digits i -> i <> "" -> all_digits f -> ends_decimal t -> 
  forall a z, all_digits z -> z <> "" -> value_from 0 z = Z.abs x -> a = (if x <? 0 then "-"%char else "+"%char) ->
  read_decimal (i ++ (if String.eqb f "" then "" else "." ++ f) ++ "e" ++ String a (z ++ t))%string
  = Some (value_from 0 (i ++ f)%string, x - Z.of_nat (String.length f), t).
Proof.
  intros i f x t Hi Ni Hf Ht a z Hz Nz V A.
  assert (X : read_exponent ("e" ++ String a (z ++ t))%string = (x, t)).
  { cbn [append read_exponent]. destruct (Z.ltb_spec x 0); subst a; cbn iota; rewrite span_digits by (try exact Hz; now apply ends_decimal_number);
      rewrite nonempty_eqb by exact Nz; rewrite numeral_value, V by exact Hz; f_equal; lia. }
  unfold read_decimal. destruct (String.eqb_spec f "") as [->|Nf].
  - rewrite span_digits by (try exact Hi; reflexivity). rewrite nonempty_eqb by exact Ni.
    change (("" ++ "e" ++ String a (z ++ t))%string) with (("e" ++ String a (z ++ t))%string).
    change (read_fraction ("e" ++ String a (z ++ t))) with ("", ("e" ++ String a (z ++ t))%string). cbv iota. rewrite X.
    rewrite sapp_nil_r, numeral_value by exact Hi. reflexivity.
  - rewrite span_digits by (try exact Hi; reflexivity). rewrite nonempty_eqb by exact Ni.
    cbn [append read_fraction]. rewrite span_digits by (try exact Hf; reflexivity). rewrite nonempty_eqb by exact Nf.
    change (String "e" (String a (z ++ t))) with (("e" ++ String a (z ++ t))%string). rewrite X.
    rewrite numeral_value by (now apply all_digits_app). reflexivity.
Qed.

(** ** Values *)

Lemma same_refl : forall m e, same_value m e m e.
Proof. intros m e. exists e. repeat split; lia. Qed.

Lemma same_sym : forall m e m' e', same_value m e m' e' -> same_value m' e' m e.
Proof. intros m e m' e' (f & A & B & C). exists f. repeat split; auto. Qed.

Lemma pow_pos10 : forall k, 0 <= k -> 0 < 10 ^ k.
Proof. intros. apply Z.pow_pos_nonneg; lia. Qed.

(** A value is the same over every smaller power of ten. *)
Lemma same_at : forall m e m' e' f, same_value m e m' e' -> f <= e -> f <= e' -> m * 10 ^ (e - f) = m' * 10 ^ (e' - f).
Proof.
  intros m e m' e' f (g & A & B & C) Fe Fe'. destruct (Z.le_gt_cases f g).
  - replace (e - f) with ((e - g) + (g - f)) by lia. replace (e' - f) with ((e' - g) + (g - f)) by lia.
    rewrite !Z.pow_add_r by lia. rewrite !Z.mul_assoc, C. reflexivity.
  - replace (e - g) with ((e - f) + (f - g)) in C by lia. replace (e' - g) with ((e' - f) + (f - g)) in C by lia.
    rewrite !Z.pow_add_r in C by lia. rewrite !Z.mul_assoc in C. apply Z.mul_cancel_r in C; [exact C|].
    pose proof (pow_pos10 (f - g)). lia.
Qed.

Lemma same_trans : forall m e m' e' m'' e'', same_value m e m' e' -> same_value m' e' m'' e'' -> same_value m e m'' e''.
Proof.
  intros m e m' e' m'' e'' A B. exists (Z.min e (Z.min e' e'')). split; [lia|split; [lia|]].
  rewrite (same_at _ _ _ _ (Z.min e (Z.min e' e'')) A) by lia. apply (same_at _ _ _ _ _ B); lia.
Qed.

Lemma same_shift : forall m e k, 0 <= k -> same_value (m * 10 ^ k) e m (e + k).
Proof. intros m e k H. exists e. split; [lia|split; [lia|]]. rewrite Z.sub_diag, Z.mul_1_r. f_equal. f_equal. lia. Qed.

(** ** The digits of what is printed *)

Definition ends_with_digits (m e : Z) (s : string) : Prop :=
  forall t, ends_decimal t -> exists m' e', read_decimal (s ++ t)%string = Some (m', e', t) /\ same_value m' e' m e.

Lemma frac_eq : forall prec ds i, (if Z.ltb 0 prec then "." ++ at_digits ds i (Z.to_nat prec) else "")%string
  = (if String.eqb (at_digits ds i (Z.to_nat prec)) "" then "" else "." ++ at_digits ds i (Z.to_nat prec))%string.
Proof.
  intros prec ds i. destruct (Z.ltb_spec 0 prec).
  - rewrite nonempty_eqb; [reflexivity|]. intros E. apply (f_equal String.length) in E. rewrite at_digits_length in E. cbn in E. lia.
  - replace (Z.to_nat prec) with 0%nat by lia. reflexivity.
Qed.

Lemma digits_facts : forall m, 1 <= m -> all_digits (digits m) /\ value_from 0 (digits m) = m
  /\ Z.of_nat (String.length (digits m)) = ndigits m /\ digits m <> "".
Proof.
  intros m H. destruct (digits_value m ltac:(lia)) as (A & B & a & r & d & C & _).
  split; [exact A|split; [exact B|split]].
  - unfold ndigits. destruct (Z.eqb_spec m 0); [lia|reflexivity].
  - now rewrite C.
Qed.

Lemma reads_fmt_f : forall m e prec, 1 <= m -> (0 < ndigits m + e -> prec = Z.max (- e) 0) ->
  (ndigits m + e <= 0 -> prec = - e) -> ends_with_digits m e (fmt_f prec (digits m) (ndigits m + e)).
Proof.
  intros m e prec Hm P1 P2 t Ht. destruct (digits_facts m Hm) as (D & V & L & N). unfold fmt_f. rewrite frac_eq.
  rewrite sapp_assoc. set (dexp := ndigits m + e) in *. set (ds := digits m) in *.
  pose proof (ndigits_bounds m Hm) as [B0 _].
  destruct (Z.ltb_spec 0 dexp).
  - assert (W : (at_digits ds 0 (Z.to_nat dexp) ++ at_digits ds dexp (Z.to_nat prec))%string = (ds ++ zeros (Z.to_nat (dexp + prec - ndigits m)))%string).
    { rewrite <- at_digits_all. replace (String.length ds + Z.to_nat (dexp + prec - ndigits m))%nat with (Z.to_nat dexp + Z.to_nat prec)%nat by lia.
      rewrite at_digits_split. rewrite Z.add_0_l, Z2Nat.id by lia. reflexivity. }
    assert (WD : all_digits (at_digits ds 0 (Z.to_nat dexp) ++ at_digits ds dexp (Z.to_nat prec))%string).
    { rewrite W. apply all_digits_app. split; [exact D|apply zeros_digits]. }
    apply all_digits_app in WD. destruct WD as [W1 W2].
    eexists _, _. split.
    + apply read_fixed; auto. intros E. apply (f_equal String.length) in E. rewrite at_digits_length in E. cbn in E. lia.
    + rewrite W, value_from_app, V, value_zeros, at_digits_length by exact D.
      set (k := Z.to_nat (dexp + prec - ndigits m)).
      replace e with (- Z.of_nat (Z.to_nat prec) + Z.of_nat k) by lia. apply same_shift. lia.
  - assert (W : at_digits ds dexp (Z.to_nat prec) = (zeros (Z.to_nat (- dexp)) ++ ds)%string).
    { replace (Z.to_nat prec) with (Z.to_nat (- dexp) + (String.length ds + 0))%nat by lia. rewrite at_digits_split.
      rewrite at_digits_before by lia. replace (dexp + Z.of_nat (Z.to_nat (- dexp))) with 0 by lia.
      rewrite at_digits_all. cbn [zeros]. now rewrite sapp_nil_r. }
    eexists _, _. split.
    + apply read_fixed; auto; [cbn; split; [now exists 0|exact I]|discriminate|]. rewrite W. apply all_digits_app. split; [apply zeros_digits|exact D].
    + rewrite at_digits_length. rewrite W.
      change (value_from 0 ("0" ++ zeros (Z.to_nat (- dexp)) ++ ds)) with (value_from 0 (zeros (Z.to_nat (- dexp)) ++ ds)%string).
      rewrite value_from_app, value_zeros by apply zeros_digits. cbn [Z.mul]. rewrite V.
      replace (- Z.of_nat (Z.to_nat prec)) with e by lia. apply same_refl.
Qed.

Lemma reads_fmt_e : forall m e, 1 <= m -> ends_with_digits m e (fmt_e (ndigits m - 1) (digits m) (ndigits m + e)).
Proof.
  intros m e Hm t Ht. destruct (digits_facts m Hm) as (D & V & L & N). unfold fmt_e. rewrite frac_eq.
  rewrite (nonempty_eqb (digits m)) by exact N. set (ds := digits m) in *. set (x := ndigits m + e - 1).
  pose proof (ndigits_bounds m Hm) as [B0 _].
  assert (W : (String (at_digit ds 0) "" ++ at_digits ds 1 (Z.to_nat (ndigits m - 1)))%string = ds).
  { change (at_digits ds 0 (S (Z.to_nat (ndigits m - 1))) = ds).
    replace (S (Z.to_nat (ndigits m - 1))) with (String.length ds + 0)%nat by lia. rewrite at_digits_all. cbn [zeros]. apply sapp_nil_r. }
  assert (WD : all_digits (String (at_digit ds 0) "" ++ at_digits ds 1 (Z.to_nat (ndigits m - 1)))%string) by (rewrite W; exact D).
  apply all_digits_app in WD. destruct WD as [W1 W2].
  set (z := ((if Z.ltb (Z.abs x) 10 then "0" else "") ++ digits (Z.abs x))%string).
  destruct (digits_value (Z.abs x) ltac:(lia)) as (DA & DV & a & r & d & DE & _).
  assert (Z1 : all_digits z). { unfold z. destruct (Z.abs x <? 10); cbn [append]; [split; [now exists 0|exact DA]|exact DA]. }
  assert (Z2 : z <> ""). { unfold z. destruct (Z.abs x <? 10); rewrite DE; discriminate. }
  assert (Z3 : value_from 0 z = Z.abs x).
  { unfold z. destruct (Z.abs x <? 10); cbn [append]; [|exact DV]. exact DV. }
  set (sg := if x <? 0 then "-"%char else "+"%char).
  pose proof (read_scientific (String (at_digit ds 0) "") (at_digits ds 1 (Z.to_nat (ndigits m - 1))) x t W1 ltac:(discriminate) W2 Ht sg z Z1 Z2 Z3 eq_refl) as R.
  eexists _, _. split.
  - rewrite <- R. rewrite !sapp_assoc. f_equal. f_equal. f_equal. f_equal. unfold sg, z. destruct (x <? 0); cbn [append]; rewrite ?sapp_assoc; reflexivity.
  - rewrite W, V, at_digits_length. replace (x - Z.of_nat (Z.to_nat (ndigits m - 1))) with e by (unfold x; lia). apply same_refl.
Qed.

(** ** Rounding *)

Lemma strip_zero : forall e, strip 0 e = (0, e).
Proof. reflexivity. Qed.

(** Stripping and rounding: the printed mantissa has at most ten digits and is
    the value rounded. *)
Lemma round_spec : forall m e m1 e1 m2 e2, 1 <= m -> strip m e = (m1, e1) -> round_digits 10 m1 e1 = (m2, e2) ->
  1 <= m2 /\ ndigits m2 <= 10 /\ exists q k, same_value m2 e2 q k /\ rounded m e q k.
Proof.
  intros m e m1 e1 m2 e2 Hm HS HR.
  destruct (strip_spec _ _ _ _ Hm HS) as (j & Ej & Em & Hm1).
  assert (SV : same_value m e m1 e1) by (rewrite Em, Ej; apply same_shift; lia).
  unfold round_digits in HR. destruct (ndigits_bounds m1 Hm1) as [C0 C1].
  destruct (Z.leb_spec (ndigits m1 - 10) 0) as [Hk|Hk].
  - inversion HR; subst m2 e2. split; [exact Hm1|split; [lia|]]. exists m1, e1. split; [apply same_refl|]. left. split; [|exact SV].
    assert (10 ^ ndigits m1 <= 10 ^ 10) by (apply Z.pow_le_mono_r; lia). lia.
  - set (i := ndigits m1 - 10) in *. set (q := m1 / 10 ^ i) in *. set (r := m1 mod 10 ^ i) in *.
    assert (P0 : 0 < 10 ^ i) by (apply pow_pos10; lia).
    assert (DM : m1 = 10 ^ i * q + r) by (apply Z.div_mod; lia).
    assert (RB : 0 <= r < 10 ^ i) by (apply Z.mod_pos_bound; lia).
    replace (ndigits m1 - 1) with (9 + i) in C1 by lia. replace (ndigits m1) with (10 + i) in C1 by lia.
    rewrite !Z.pow_add_r in C1 by lia.
    assert (Hq : 10 ^ 9 <= q < 10 ^ 10).
    { unfold q. split; [apply Z.div_le_lower_bound; lia|apply Z.div_lt_upper_bound; lia]. }
    assert (H10 : 10 ^ i = 2 * (5 * 10 ^ (i - 1))).
    { replace i with (Z.succ (i - 1)) at 1 by lia. rewrite Z.pow_succ_r by lia. lia. }
    set (half := 5 * 10 ^ (i - 1)) in *.
    set (up := (half <? r) || (half =? r) && Z.odd q) in *. set (qq := if up then q + 1 else q) in *.
    assert (Hqq : 10 ^ 9 <= qq <= 10 ^ 10) by (unfold qq; destruct up; lia).
    assert (Hqq1 : 1 <= qq) by (assert (1 <= 10 ^ 9) by (vm_compute; discriminate); lia).
    destruct (strip_spec _ _ _ _ Hqq1 HR) as (k2 & E2 & M2 & P2).
    pose proof (ndigits_mul_pow m2 k2 P2) as ND2. rewrite <- M2 in ND2.
    split; [exact P2|split].
    + destruct (Z.eq_dec qq (10 ^ 10)) as [Eqq|Nqq].
      * destruct (Z.leb_spec (ndigits m2) 10); [assumption|].
        assert (ndigits qq = 11) by (apply ndigits_unique; rewrite ?Eqq; simpl; lia).
        assert (k2 = 0)%nat by lia. subst k2. simpl in M2.
        exfalso. rewrite Eqq in HR. apply strip_even in HR; [|reflexivity|reflexivity].
        change (10 ^ 10 / 10) with (10 ^ 9) in HR. assert (10 ^ 9 < 10 ^ 10) by reflexivity. lia.
      * assert (ndigits qq = 10) by (apply ndigits_unique; simpl; lia). lia.
    + exists qq, (e1 + i). split.
      * apply same_sym. rewrite M2, E2. apply same_shift. lia.
      * right. split; [lia|].
        replace (e1 + i - e) with (Z.of_nat j + i) by lia. rewrite Z.pow_add_r by lia.
        assert (PJ : 0 < 10 ^ Z.of_nat j) by (apply pow_pos10; lia).
        set (J := 10 ^ Z.of_nat j) in *. set (T := 10 ^ i) in *.
        rewrite Em. replace (10 ^ 9 * (J * T)) with ((10 ^ 9 * T) * J) by ring. replace (10 ^ 10 * (J * T)) with ((10 ^ 10 * T) * J) by ring.
        replace (m1 * J - qq * (J * T)) with ((m1 - qq * T) * J) by ring.
        rewrite Z.abs_mul, (Z.abs_eq J) by lia. rewrite Z.mul_assoc. rewrite (Z.mul_comm J T).
        assert (NR : 2 * Z.abs (m1 - qq * T) <= T /\ (2 * Z.abs (m1 - qq * T) = T -> Z.even qq = true)).
        { unfold qq, up. destruct (Z.ltb_spec half r); cbn [orb].
          - replace (m1 - (q + 1) * T) with (r - T) by (rewrite DM; ring). split; [lia|]. intros. exfalso. lia.
          - destruct (Z.eqb_spec half r); cbn [andb].
            + destruct (Z.odd q) eqn:OQ.
              * replace (m1 - (q + 1) * T) with (r - T) by (rewrite DM; ring). split; [lia|]. intros _.
                rewrite Z.even_add. rewrite <- Z.negb_odd, OQ. reflexivity.
              * replace (m1 - q * T) with r by (rewrite DM; ring). split; [lia|]. intros _. rewrite <- Z.negb_odd, OQ. reflexivity.
            + replace (m1 - q * T) with r by (rewrite DM; ring). split; [lia|]. intros. exfalso. lia. }
        split; [split; [apply Z.mul_le_mono_nonneg_r; lia|apply Z.mul_lt_mono_pos_r; lia]|].
        split; [apply Z.mul_le_mono_nonneg_r; lia|]. intros E. apply Z.mul_cancel_r in E; [now apply NR|lia].
Qed.

(** The printed text reads as the number rounded to ten digits. *)
Theorem text_reads : forall m e t, 0 <= m -> ends_decimal t ->
  exists m' e' q k, read_decimal (text_g10 m e ++ t)%string = Some (m', e', t) /\ same_value m' e' q k /\ rounded m e q k.
Proof.
  intros m e t Hm Ht. destruct (Z.eq_dec m 0) as [->|Hm0].
  - exists 0, 0, 0, e. split.
    + change (text_g10 0 e) with ("0" ++ (if String.eqb "" "" then "" else "." ++ ""))%string. rewrite sapp_assoc.
      apply read_fixed; [cbn; split; [now exists 0|exact I]|discriminate|exact I|exact Ht].
    + split; [exists (Z.min 0 e); split; [apply Z.le_min_l|split; [apply Z.le_min_r|reflexivity]]|]. left. split; [reflexivity|apply same_refl].
  - assert (Hm1 : 1 <= m) by lia. unfold text_g10. destruct (strip m e) as [m1 e1] eqn:HS. destruct (round_digits 10 m1 e1) as [m2 e2] eqn:HR.
    destruct (round_spec _ _ _ _ _ _ Hm1 HS HR) as (P & L & q & k & SV & RD).
    destruct (Z.eqb_spec m2 0); [lia|]. pose proof (ndigits_bounds m2 P) as [B0 _].
    set (len := ndigits m2) in *. set (eprec := if (_ && _)%bool then _ else _).
    assert (F : forall s, ends_with_digits m2 e2 s -> exists m' e' q k, read_decimal (s ++ t)%string = Some (m', e', t) /\ same_value m' e' q k /\ rounded m e q k).
    { intros s R. destruct (R t Ht) as (m' & e' & R1 & R2). exists m', e', q, k. split; [exact R1|split; [|exact RD]]. eapply same_trans; eauto. }
    apply F. destruct ((len + e2 - 1 <? -4) || (eprec <=? len + e2 - 1)) eqn:C.
    + replace ((if len <? 10 then len else 10) - 1) with (len - 1) by (destruct (Z.ltb_spec len 10); lia). now apply reads_fmt_e.
    + apply orb_false_iff in C. destruct C as [C1 C2]. apply Z.ltb_ge in C1. apply Z.leb_gt in C2.
      assert (eprec <= 10) by (unfold eprec; destruct (Z.ltb_spec len 10); cbn [andb]; [destruct (Z.leb_spec (len + e2) len); lia|lia]).
      apply reads_fmt_f; [exact P| |]; destruct (Z.ltb_spec (len + e2) 10); fold len; lia.
Qed.

Theorem number_reads : forall x t, 0 <= n_mant x -> ends_decimal t ->
  exists m e q k, read_number (number_text x ++ t)%string = Some (n_neg x, m, e, t)
                  /\ same_value m e q k /\ rounded (n_mant x) (n_exp x) q k.
Proof.
  intros [neg m e] t Hm Ht. cbn [n_mant n_exp n_neg] in *. unfold number_text. cbn [n_mant n_exp n_neg].
  destruct (text_reads m e t Hm Ht) as (m' & e' & q & k & R & S & D). exists m', e', q, k. split; [|split; auto].
  destruct neg; cbn [append].
  - unfold read_number. now rewrite R.
  - unfold read_number. destruct (text_g10 m e ++ t)%string as [|a s] eqn:E; [discriminate R|].
    destruct (Ascii.eqb_spec a "-"%char) as [->|Na]; [discriminate R|].
    destruct a as [[] [] [] [] [] [] [] []]; try (now rewrite R). now destruct Na.
Qed.

(** ** Rounding has one result *)

Lemma pow_lt_inv : forall a b, 0 <= a -> 0 <= b -> 10 ^ a < 10 ^ b -> a < b.
Proof. intros a b Ha Hb H. apply (Z.pow_lt_mono_r_iff 10); auto; lia. Qed.

Theorem rounded_unique : forall m e q k q' k', 0 <= m -> rounded m e q k -> rounded m e q' k' -> same_value q k q' k'.
Proof.
  assert (X : forall m e q k q' k', 0 <= m -> q < 10 ^ 10 -> same_value m e q k ->
    e < k' -> 10 ^ 9 * 10 ^ (k' - e) <= m -> 2 * Z.abs (m - q' * 10 ^ (k' - e)) <= 10 ^ (k' - e) -> same_value q k q' k').
  { intros m e q k q' k' Hm Hq SV L B N. apply (same_trans _ _ m e); [now apply same_sym|].
    assert (PJ : 10 <= 10 ^ (k' - e)). { change 10 with (10 ^ 1) at 1. apply Z.pow_le_mono_r; lia. }
    assert (Hmm : 10 ^ 10 <= m) by lia.
    destruct (Z.le_gt_cases e k) as [Ek|Ek].
    2:{ pose proof (same_at _ _ _ _ k SV ltac:(lia) ltac:(lia)) as H. rewrite Z.sub_diag, Z.mul_1_r in H.
        assert (1 <= 10 ^ (e - k)) by (pose proof (pow_pos10 (e - k)); lia). nia. }
    pose proof (same_at _ _ _ _ e SV ltac:(lia) ltac:(lia)) as H. rewrite Z.sub_diag, Z.mul_1_r in H.
    assert (K : k' <= k).
    { assert (10 ^ 9 * 10 ^ (k' - e) < 10 ^ 10 * 10 ^ (k - e)).
      { pose proof (pow_pos10 (k - e) ltac:(lia)). nia. }
      rewrite <- !Z.pow_add_r in H0 by lia. apply pow_lt_inv in H0; lia. }
    replace (k - e) with ((k - k') + (k' - e)) in H by lia. rewrite Z.pow_add_r in H by lia. set (T := 10 ^ (k' - e)) in *.
    set (a := q * 10 ^ (k - k')) in *. assert (Ha : m = a * T) by (unfold a; lia).
    assert (a = q').
    { rewrite Ha in N. replace (a * T - q' * T) with ((a - q') * T) in N by ring. rewrite Z.abs_mul, (Z.abs_eq T) in N by lia. nia. }
    exists e. split; [lia|split; [lia|]]. rewrite Z.sub_diag, Z.mul_1_r. fold T. congruence. }
  intros m e q k q' k' Hm [[A1 A2]|(A1 & A2 & A3 & A4)] [[B1 B2]|(B1 & B2 & B3 & B4)].
  - eapply same_trans; [apply same_sym; exact A2|exact B2].
  - now apply (X m e).
  - apply same_sym. now apply (X m e).
  - assert (k = k').
    { assert (G : forall x y, 0 < x -> 0 < y -> 10 ^ 9 * 10 ^ x <= m -> m < 10 ^ 10 * 10 ^ y -> x <= y).
      { intros x y Hx Hy U V. assert (W : 10 ^ 9 * 10 ^ x < 10 ^ 10 * 10 ^ y) by lia. rewrite <- !Z.pow_add_r in W by lia. apply pow_lt_inv in W; lia. }
      pose proof (G (k - e) (k' - e)). pose proof (G (k' - e) (k - e)). lia. }
    subst k'. set (T := 10 ^ (k - e)) in *. assert (0 < T) by (apply pow_pos10; lia).
    assert (q = q'); [|subst; apply same_refl].
    assert (Z.abs ((q - q') * T) <= T) by (replace ((q - q') * T) with ((m - q' * T) - (m - q * T)) by ring; lia).
    rewrite Z.abs_mul, (Z.abs_eq T) in H0 by lia. assert (Z.abs (q - q') <= 1) by nia.
    destruct (Z.eq_dec q q') as [|N]; [assumption|]. exfalso.
    assert (T1 : 2 * Z.abs (m - q * T) = T /\ 2 * Z.abs (m - q' * T) = T).
    { assert (q = q' + 1 \/ q' = q + 1) as [E|E] by lia; subst; rewrite ?Z.mul_add_distr_r in *; lia. }
    destruct T1 as [T1 T2]. pose proof (A4 T1) as E1. pose proof (B4 T2) as E2.
    assert (q = q' + 1 \/ q' = q + 1) as [E|E] by lia; subst; rewrite Z.even_add in *; [rewrite E2 in E1|rewrite E1 in E2]; discriminate.
Qed.

(** ** The text depends on the value alone *)

Lemma strip_aux_done : forall f m e m' e', 1 <= m < 2 ^ Z.of_nat f -> strip_aux f m e = (m', e') -> m' mod 10 <> 0.
Proof.
  induction f as [|f IH]; intros m e m' e' Hm H; [cbn in Hm; lia|]. cbn [strip_aux] in H.
  destruct (Z.eqb_spec (m mod 10) 0) as [Hz|Hz]; cbn [andb] in H; [|inversion H; subst; exact Hz].
  destruct (Z.eqb_spec m 0); [lia|]. cbn [negb] in H. apply IH in H; [exact H|].
  assert (Hdm : m = 10 * (m / 10) + m mod 10) by (apply Z.div_mod; lia).
  rewrite Nat2Z.inj_succ, Z.pow_succ_r in Hm by lia. lia.
Qed.

Lemma strip_done : forall m e m' e', 1 <= m -> strip m e = (m', e') -> m' mod 10 <> 0.
Proof.
  intros m e m' e' Hm H. eapply strip_aux_done; [|exact H]. split; [exact Hm|].
  pose proof (Z.log2_nonneg m). pose proof (Z.log2_spec m ltac:(lia)) as [_ L].
  replace (Z.of_nat (S (Z.to_nat (Z.log2 m)))) with (Z.succ (Z.log2 m)) by lia. exact L.
Qed.

Lemma same_stripped : forall m e m' e', m mod 10 <> 0 -> m' mod 10 <> 0 -> same_value m e m' e' -> m = m' /\ e = e'.
Proof.
  assert (X : forall m e m' e', m mod 10 <> 0 -> same_value m e m' e' -> e <= e' -> m = m' /\ e = e').
  { intros m e m' e' Hm SV L. pose proof (same_at _ _ _ _ e SV ltac:(lia) L) as H. rewrite Z.sub_diag, Z.mul_1_r in H.
    destruct (Z.eq_dec e e') as [->|N]; [rewrite Z.sub_diag in H; split; [lia|reflexivity]|].
    exfalso. apply Hm. rewrite H. replace (e' - e) with (Z.succ (e' - e - 1)) by lia. rewrite Z.pow_succ_r by lia.
    replace (m' * (10 * 10 ^ (e' - e - 1))) with ((m' * 10 ^ (e' - e - 1)) * 10) by ring. apply Z.mod_mul. lia. }
  intros m e m' e' Hm Hm' SV. destruct (Z.le_gt_cases e e') as [L|L]; [now apply X|].
  destruct (X m' e' m e Hm' (same_sym _ _ _ _ SV) ltac:(lia)). auto.
Qed.

Theorem text_of_value : forall m e m' e', 0 <= m -> 0 <= m' -> same_value m e m' e' -> text_g10 m e = text_g10 m' e'.
Proof.
  intros m e m' e' Hm Hm' SV.
  assert (Z0 : forall a b c, 0 <= c -> forall d, same_value 0 a c d -> b = c -> c = 0).
  { intros a b c Hc d (f & F1 & F2 & F3) _. cbn [Z.mul] in F3. pose proof (pow_pos10 (d - f) ltac:(lia)). nia. }
  destruct (Z.eq_dec m 0) as [->|Nm]; [rewrite (Z0 _ _ _ Hm' _ SV eq_refl); reflexivity|].
  destruct (Z.eq_dec m' 0) as [->|Nm']; [destruct Nm; exact (Z0 _ _ _ Hm _ (same_sym _ _ _ _ SV) eq_refl)|].
  assert (P : 1 <= m) by lia. assert (P' : 1 <= m') by lia.
  unfold text_g10. destruct (strip m e) as [m1 e1] eqn:HS. destruct (strip m' e') as [m2 e2] eqn:HS'.
  destruct (strip_spec _ _ _ _ P HS) as (j & Ej & Em & _). destruct (strip_spec _ _ _ _ P' HS') as (j' & Ej' & Em' & _).
  assert (SS : same_value m1 e1 m2 e2); [|destruct (same_stripped m1 e1 m2 e2 (strip_done _ _ _ _ P HS) (strip_done _ _ _ _ P' HS') SS) as [-> ->]; reflexivity].
  apply (same_trans _ _ m e); [apply same_sym; rewrite Em, Ej; apply same_shift; lia|].
  apply (same_trans _ _ m' e'); [exact SV|]. rewrite Em', Ej'; apply same_shift; lia.
Qed.
