(** Property C15 for numbers of any size: what the text of a number literal
    denotes, and when it denotes the number itself. *)

From Coq Require Import Ascii String List ZArith Bool Lia.
From Verif Require Import GoStr Num SpecLex SpecNum NumProofs NumRead.
Open Scope string_scope.
Open Scope Z_scope.

(** The text of every number reads back as that number rounded to ten
    significant digits, ties to even, with its sign, whatever follows it. *)
Theorem C15_rounded_value : forall x t, 0 <= n_mant x -> ends_decimal t ->
  exists m e q k, read_number (number_text x ++ t)%string = Some (n_neg x, m, e, t)
                  /\ same_value m e q k /\ rounded (n_mant x) (n_exp x) q k.
Proof. exact number_reads. Qed.
Print Assumptions C15_rounded_value.

(** There is only one such rounded value. *)
Theorem C15_rounding_unique : forall m e q k q' k', 0 <= m ->
  rounded m e q k -> rounded m e q' k' -> same_value q k q' k'.
Proof. exact rounded_unique. Qed.
Print Assumptions C15_rounding_unique.

(** A number that ten significant digits can write keeps its value, integer or
    not.  Missing: the other numbers, whose value changes. *)
Theorem C15_ten_digits_exact_partial : forall x q k t, 0 <= n_mant x -> q < 10 ^ 10 ->
  same_value (n_mant x) (n_exp x) q k -> ends_decimal t ->
  exists m e, read_number (number_text x ++ t)%string = Some (n_neg x, m, e, t)
              /\ same_value m e (n_mant x) (n_exp x).
Proof.
  intros x q k t H Hq SV Ht. destruct (number_reads x t H Ht) as (m & e & q' & k' & R & S & D).
  exists m, e. split; [exact R|]. apply (same_trans _ _ q' k'); [exact S|].
  apply (same_trans _ _ q k); [|now apply same_sym].
  apply (rounded_unique (n_mant x) (n_exp x)); [exact H|exact D|]. left. auto.
Qed.
Print Assumptions C15_ten_digits_exact_partial.

(** Exactly those: a number that needs more digits denotes another one. *)
Theorem C15_more_digits_refuted : forall x m e, 0 <= n_mant x ->
  (forall q k, same_value (n_mant x) (n_exp x) q k -> 10 ^ 10 <= q) ->
  read_number (number_text x) = Some (n_neg x, m, e, "") -> ~ same_value m e (n_mant x) (n_exp x).
Proof.
  intros x m e H N R SV. destruct (number_reads x "" H I) as (m' & e' & q & k & R' & S & D).
  assert (Ex : forall s : string, (s ++ "")%string = s) by (induction s; cbn; congruence).
  rewrite Ex, R in R'. injection R' as <- <-.
  assert (V : same_value (n_mant x) (n_exp x) q k) by (apply (same_trans _ _ m e); [now apply same_sym|exact S]).
  destruct D as [[D _]|(D1 & D2 & _ & _)]; [specialize (N _ _ V); lia|].
  (* the rounded value has ten digits: 10^9 <= q <= 10^10, and 10^10 is 10^9 tens *)
  pose proof (same_at _ _ _ _ (n_exp x) V ltac:(lia) ltac:(lia)) as E. rewrite Z.sub_diag, Z.mul_1_r in E.
  pose proof (pow_pos10 (k - n_exp x) ltac:(lia)) as P. specialize (N _ _ V).
  destruct D2 as [_ D2]. rewrite E in D2. apply Z.mul_lt_mono_pos_r in D2; [lia|exact P].
Qed.
Print Assumptions C15_more_digits_refuted.

(** Two numbers that ten digits can write and that have the same text are the
    same number.  Missing: the others, as [C15_injective_refuted] shows. *)
Theorem C15_injective_partial : forall x y q k q' k', 0 <= n_mant x -> 0 <= n_mant y ->
  q < 10 ^ 10 -> same_value (n_mant x) (n_exp x) q k ->
  q' < 10 ^ 10 -> same_value (n_mant y) (n_exp y) q' k' ->
  number_text x = number_text y ->
  n_neg x = n_neg y /\ same_value (n_mant x) (n_exp x) (n_mant y) (n_exp y).
Proof.
  intros x y q k q' k' Hx Hy Q SV Q' SV' E.
  destruct (C15_ten_digits_exact_partial x q k "" Hx Q SV I) as (m & e & R & S).
  destruct (C15_ten_digits_exact_partial y q' k' "" Hy Q' SV' I) as (m' & e' & R' & S').
  rewrite E, R' in R. injection R as <- <- <-. split; [reflexivity|].
  apply (same_trans _ _ m' e'); [now apply same_sym|exact S'].
Qed.
Print Assumptions C15_injective_partial.

(** Equal numbers have equal texts. *)
Theorem C15_text_of_value : forall x y, 0 <= n_mant x -> 0 <= n_mant y -> n_neg x = n_neg y ->
  same_value (n_mant x) (n_exp x) (n_mant y) (n_exp y) -> number_text x = number_text y.
Proof. intros x y Hx Hy S V. unfold number_text. rewrite S, (text_of_value _ _ _ _ Hx Hy V). reflexivity. Qed.
Print Assumptions C15_text_of_value.

(** A float64, m * 2^e, is handled as exactly that number. *)
Theorem C15_float_exact : forall neg m e,
  let x := num_of_float neg m e in
  n_neg x = neg /\ n_exp x <= 0
  /\ (0 <= e -> n_mant x = m * 2 ^ e * 10 ^ (- n_exp x))
  /\ (e < 0 -> n_mant x * 2 ^ (- e) = m * 10 ^ (- n_exp x)).
Proof.
  intros neg m e x. unfold x, num_of_float. destruct (Z.leb_spec 0 e); cbn [n_neg n_exp n_mant].
  - repeat split; try lia.
  - repeat split; try lia. intros _. change 10 with (5 * 2). rewrite Z.pow_mul_l. ring.
Qed.
Print Assumptions C15_float_exact.

(** Concrete cases: the largest int64 is rounded, 0.5 and -1.25e-7 are not, and a
    tie goes to the even digit. *)
Example C15_max : number_text (num_of_Z 9223372036854775807) = "9.223372037e+18"
  /\ rounded 9223372036854775807 0 9223372037 9.
Proof. split; [reflexivity|]. right. vm_compute. repeat split; discriminate. Qed.
Example C15_half : number_text (num_of_float false 1 (-1)) = "0.5"
  /\ read_number "0.5)" = Some (false, 5, -1, ")") /\ ends_decimal ")".
Proof. repeat split; discriminate. Qed.
Example C15_small : number_text (Num true 125 (-9)) = "-1.25e-07"
  /\ read_number "-1.25e-07" = Some (true, 125, -9, "").
Proof. split; reflexivity. Qed.
Example C15_tie : number_text (num_of_Z 12345678905) = "1.23456789e+10"
  /\ rounded 12345678905 0 1234567890 1 /\ ~ rounded 12345678905 0 1234567891 1.
Proof.
  split; [reflexivity|]. split; [right; vm_compute; repeat split; discriminate|].
  intros [[_ (f & F1 & F2 & F)]|(_ & _ & _ & E)]; [|specialize (E eq_refl); discriminate].
  rewrite Z.sub_0_l in F. replace (1 - f) with (Z.succ (- f)) in F by lia. rewrite Z.pow_succ_r in F by lia.
  pose proof (pow_pos10 (- f) ltac:(lia)). nia.
Qed.
Example C15_needs_more : forall q k, same_value 12345678901 0 q k -> 10 ^ 10 <= q.
Proof.
  intros q k V. destruct (Z.le_gt_cases k 0) as [L|L].
  - pose proof (same_at _ _ _ _ k V ltac:(lia) ltac:(lia)) as E. rewrite Z.sub_diag, Z.mul_1_r in E.
    pose proof (pow_pos10 (0 - k) ltac:(lia)). lia.
  - pose proof (same_at _ _ _ _ 0 V ltac:(lia) ltac:(lia)) as E. rewrite Z.sub_diag, Z.mul_1_r in E.
    replace (k - 0) with (Z.succ (k - 1)) in E by lia. rewrite Z.pow_succ_r in E by lia.
    assert (12345678901 mod 10 = 0).
    { rewrite E. replace (q * (10 * 10 ^ (k - 1))) with ((q * 10 ^ (k - 1)) * 10) by ring. apply Z.mod_mul. lia. }
    discriminate.
Qed.
