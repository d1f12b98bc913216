(** Lexing is a function of the text; texts side by side; white space at the
    ends. *)

From Coq Require Import Ascii String List ZArith Bool Lia.
From Verif Require Import GoStr Escape SpecLex SpecNum SpecSpace SpecTokens EscapeProofs GoStrProofs.
Import ListNotations.
Open Scope string_scope.

(** ** What a step leaves *)

Lemma after_app : forall e s r, after e s = Some r -> s = e ++ r.
Proof.
  induction e as [|a e IH]; intros s r H; cbn in H; [now inversion H|].
  destruct s as [|b s]; [discriminate|]. destruct (Ascii.eqb_spec a b) as [->|]; [|discriminate].
  cbn [append]. f_equal. now apply IH.
Qed.
Lemma after_refl : forall e s, after e (e ++ s) = Some s.
Proof. induction e as [|a e IH]; intros s; cbn; [reflexivity|]. rewrite Ascii.eqb_refl. apply IH. Qed.

Lemma after_any_app : forall es s e r, after_any es s = Some (e, r) -> In e es /\ s = e ++ r.
Proof.
  induction es as [|x es IH]; intros s e r H; cbn in H; [discriminate|].
  destruct (after x s) eqn:A.
  - inversion H; subst. split; [now left|now apply after_app].
  - destruct (IH _ _ _ H). split; [now right|assumption].
Qed.
Lemma after_any_none : forall es s, after_any es s = None -> forall e r, In e es -> s <> e ++ r.
Proof.
  induction es as [|x es IH]; intros s H e r I; cbn in H; [destruct I|].
  destruct (after x s) eqn:A; [discriminate|]. destruct I as [->|I]; [|now apply IH].
  intros ->. now rewrite after_refl in A.
Qed.
Lemma after_any_none_inv : forall es s, (forall e r, In e es -> s <> e ++ r) -> after_any es s = None.
Proof.
  induction es as [|x es IH]; intros s H; cbn; [reflexivity|].
  destruct (after x s) eqn:A.
  - exfalso. apply (H x s0); [now left|now apply after_app].
  - apply IH. intros e r I. apply H. now right.
Qed.

Lemma lex_quoted_len : forall s n t, lex_quoted s = Some (n, t) -> (String.length t < String.length s)%nat.
Proof.
  intros s. remember (String.length s) as k eqn:K. revert s K.
  induction k as [k IH] using lt_wf_ind. intros s K n t H. destruct s as [|a s]; [discriminate|]. cbn in K, H.
  destruct (Ascii.eqb a "`").
  - destruct s as [|b s]; [inversion H; subst; cbn; lia|]. destruct (Ascii.eqb b "`").
    + destruct (lex_quoted s) as [[n' t']|] eqn:Q; [|discriminate]. inversion H; subst.
      cbn in *. specialize (IH (String.length s) ltac:(lia) s eq_refl _ _ Q). lia.
    + inversion H; subst. cbn. lia.
  - destruct (lex_quoted s) as [[n' t']|] eqn:Q; [|discriminate]. inversion H; subst.
    specialize (IH (String.length s) ltac:(lia) s eq_refl _ _ Q). lia.
Qed.

Lemma lex_literal_len : forall q s n t, lex_literal q s = Some (n, t) -> (String.length t < String.length s)%nat.
Proof.
  intros q s. remember (String.length s) as k eqn:K. revert s K.
  induction k as [k IH] using lt_wf_ind. intros s K n t H. destruct s as [|a s]; [discriminate|]. cbn in K, H.
  destruct (Ascii.eqb a q); [inversion H; subst; lia|]. destruct (Ascii.eqb a "\").
  - destruct s as [|b s]; [discriminate|]. destruct (unescape b); [|discriminate].
    destruct (lex_literal q s) as [[n' t']|] eqn:Q; [|discriminate]. inversion H; subst. cbn in *.
    specialize (IH (String.length s) ltac:(lia) s eq_refl _ _ Q). lia.
  - destruct (lex_literal q s) as [[n' t']|] eqn:Q; [|discriminate]. inversion H; subst.
    specialize (IH (String.length s) ltac:(lia) s eq_refl _ _ Q). lia.
Qed.

Lemma span_app : forall s d t, span s = (d, t) -> s = d ++ t.
Proof.
  induction s as [|a s IH]; intros d t H; cbn in H; [now inversion H|].
  destruct (digit_val a).
  - destruct (span s) as [d' t'] eqn:Sp. inversion H; subst. cbn [append]. f_equal. now apply IH.
  - now inversion H.
Qed.
Lemma fraction_app : forall s f t, fraction s = (f, t) -> s = f ++ t.
Proof.
  intros [|a s] f t H; cbn in H; [now inversion H|]. destruct (Ascii.eqb a "."); [|now inversion H].
  destruct (span s) as [d t'] eqn:Sp. destruct (String.eqb d ""); inversion H; subst; [reflexivity|].
  cbn [append]. f_equal. now apply span_app.
Qed.
Lemma sign_app : forall s f t, sign s = (f, t) -> s = f ++ t.
Proof.
  intros [|a s] f t H; cbn in H; [now inversion H|].
  destruct (Ascii.eqb a "+" || Ascii.eqb a "-")%bool; now inversion H.
Qed.
Lemma exponent_app : forall s f t, exponent s = (f, t) -> s = f ++ t.
Proof.
  intros [|a s] f t H; cbn [exponent] in H; [now inversion H|].
  destruct (Ascii.eqb a "e" || Ascii.eqb a "E")%bool; [|now inversion H].
  destruct (sign s) as [g r'] eqn:G. destruct (span r') as [d t'] eqn:Sp.
  destruct (String.eqb d ""); inversion H; subst; [reflexivity|].
  cbn [append]. f_equal. rewrite sapp_assoc. apply sign_app in G. apply span_app in Sp. now subst.
Qed.
Lemma lex_number_app : forall s n t, lex_number s = Some (n, t) -> s = n ++ t /\ n <> "".
Proof.
  intros s n t H. unfold lex_number in H. destruct (span s) as [i s1] eqn:A. destruct (fraction s1) as [f s2] eqn:B.
  destruct (String.eqb_spec (i ++ f) "") as [|N]; [discriminate|].
  destruct (exponent s2) as [x s3] eqn:C. inversion H; subst. split.
  - rewrite !sapp_assoc. apply span_app in A. apply fraction_app in B. apply exponent_app in C. now subst.
  - intros X. destruct i; [|discriminate]. destruct f; [now apply N|discriminate].
Qed.
Lemma id_span_split : forall E s first skip n t, id_span E first s skip = (n, t) -> s = n ++ t.
Proof.
  intros E. induction s as [|a s IH]; intros first skip n t H; cbn [id_span] in H; [now inversion H|].
  destruct skip as [|k].
  - destruct (decode a s) as [c w]. destruct (if first then id_startb E c else id_partb E c).
    + destruct (id_span E false s (pred w)) as [n' t'] eqn:I. inversion H; subst. cbn [append]. f_equal. eapply IH; eauto.
    + now inversion H.
  - destruct (id_span E first s k) as [n' t'] eqn:I. inversion H; subst. cbn [append]. f_equal. eapply IH; eauto.
Qed.

Definition space_list : list string := ltac:(let x := eval vm_compute in space_encodings in exact x).
Lemma space_list_eq : space_encodings = space_list.
Proof. vm_compute. reflexivity. Qed.
Definition filled (s : string) : bool := match s with "" => false | _ => true end.
Lemma encodings_nonempty : Forall (fun e => e <> "") space_encodings.
Proof.
  rewrite Forall_forall. intros e I Z. assert (A : forallb filled space_encodings = true) by (vm_compute; reflexivity).
  rewrite forallb_forall in A. specialize (A e I). now subst.
Qed.
Lemma marks_nonempty : Forall (fun e => e <> "") long_marks.
Proof. repeat constructor; discriminate. Qed.

Lemma app_len_lt : forall e r : string, e <> "" -> (String.length r < String.length (e ++ r))%nat.
Proof. intros [|a e] r H; [congruence|]. cbn. rewrite slen_app. lia. Qed.

Lemma lex_one_len : forall E s t r, lex_one E s = Some (t, r) -> (String.length r < String.length s)%nat.
Proof.
  intros E [|a s] t r H; [discriminate|]. cbn [lex_one] in H.
  destruct (after_any space_encodings (String a s)) as [[e x]|] eqn:Sp.
  { inversion H; subst. apply after_any_app in Sp. destruct Sp as [I ->]. apply app_len_lt.
    pose proof encodings_nonempty as N. rewrite Forall_forall in N. now apply N. }
  destruct (Ascii.eqb a "`").
  { destruct (lex_quoted s) as [[n x]|] eqn:Q; [|discriminate]. inversion H; subst. apply lex_quoted_len in Q. cbn; lia. }
  destruct (Ascii.eqb a "'" || Ascii.eqb a (ascii_of_nat 34))%bool.
  { destruct (lex_literal a s) as [[n x]|] eqn:Q; [|discriminate]. inversion H; subst. apply lex_literal_len in Q. cbn; lia. }
  destruct (lex_number (String a s)) as [[n x]|] eqn:Nu.
  { destruct (runs_on E x); [discriminate|]. inversion H; subst. apply lex_number_app in Nu. destruct Nu as [-> N]. now apply app_len_lt. }
  destruct (after_any comments (String a s)); [discriminate|].
  destruct (after_any long_marks (String a s)) as [[e x]|] eqn:M.
  { inversion H; subst. apply after_any_app in M. destruct M as [I ->]. apply app_len_lt.
    pose proof marks_nonempty as N. rewrite Forall_forall in N. now apply N. }
  destruct (id_span E true (String a s) 0) as [n x] eqn:Id. apply id_span_split in Id. destruct n as [|b n].
  - destruct (N.ltb (byte a) 128); [|discriminate]. inversion H; subst. cbn. lia.
  - inversion H; subst. rewrite Id. now apply app_len_lt.
Qed.

(** ** Lexing as a relation *)

Inductive Lexes (E : env) : string -> list token -> Prop :=
| lx_nil : Lexes E "" []
| lx_step : forall s t r ts, lex_one E s = Some (t, r) -> Lexes E r ts -> Lexes E s (t ++ ts).

Lemma lex_upto_enough : forall E n m s, (String.length s <= n)%nat -> (String.length s <= m)%nat -> lex_upto E n s = lex_upto E m s.
Proof.
  intros E. induction n as [|n IH]; intros m s Hn Hm.
  - destruct s; [|cbn in Hn; lia]. destruct m; reflexivity.
  - destruct s as [|a s]; [destruct m; reflexivity|]. destruct m as [|m]; [cbn in Hm; lia|].
    cbn [lex_upto]. destruct (lex_one E (String a s)) as [[t r]|] eqn:L; [|reflexivity].
    apply lex_one_len in L. cbn in *. now rewrite (IH m r) by lia.
Qed.
Lemma tokens_step : forall E s t r, lex_one E s = Some (t, r) -> tokens E s = option_map (app t) (tokens E r).
Proof.
  intros E s t r H. pose proof (lex_one_len _ _ _ _ H) as L. destruct s as [|a s]; [discriminate|].
  unfold tokens. cbn [String.length lex_upto]. rewrite H. cbn in L. now rewrite (lex_upto_enough E (String.length s) (String.length r)) by lia.
Qed.

Lemma Lexes_tokens : forall E s ts, Lexes E s ts -> tokens E s = Some ts.
Proof.
  induction 1 as [|s t r ts H L IH]; [reflexivity|]. rewrite (tokens_step _ _ _ _ H), IH. reflexivity.
Qed.
Lemma tokens_Lexes : forall E s ts, tokens E s = Some ts -> Lexes E s ts.
Proof.
  intros E s. remember (String.length s) as k eqn:K. revert s K.
  induction k as [k IH] using lt_wf_ind. intros s K ts H. destruct s as [|a s].
  - inversion H. constructor.
  - destruct (lex_one E (String a s)) as [[t r]|] eqn:L.
    + rewrite (tokens_step _ _ _ _ L) in H. destruct (tokens E r) as [tr|] eqn:R; [|discriminate]. inversion H; subst.
      eapply lx_step; [exact L|]. apply (IH (String.length r)); auto. apply lex_one_len in L. lia.
    + unfold tokens in H. cbn [String.length lex_upto] in H. rewrite L in H. discriminate.
Qed.
Lemma Lexes_fun : forall E s t1 t2, Lexes E s t1 -> Lexes E s t2 -> t1 = t2.
Proof. intros E s t1 t2 H1 H2. apply Lexes_tokens in H1, H2. congruence. Qed.

(** ** White space behind a text *)

(** Bytes of white space: no quote, digit, letter or mark. *)
Definition wide (a : ascii) : Prop := (byte a <= 13 \/ byte a = 32 \/ 128 <= byte a)%N.
(** A text that starts with one that does not continue a rune. *)
Definition fresh (q : string) : Prop :=
  match q with "" => True | String a _ => wide a /\ (byte a < 128 \/ 192 <= byte a)%N end.
Fixpoint wides (q : string) : Prop := match q with "" => True | String a r => wide a /\ wides r end.

Definition wideb (a : ascii) : bool := (N.leb (byte a) 13 || N.eqb (byte a) 32 || N.leb 128 (byte a))%bool.
Definition freshb (q : string) : bool :=
  match q with "" => true | String a _ => (wideb a && (N.ltb (byte a) 128 || N.leb 192 (byte a)))%bool end.
Fixpoint widesb (q : string) : bool := match q with "" => true | String a r => (wideb a && widesb r)%bool end.
Lemma wideb_spec : forall a, wideb a = true -> wide a.
Proof. intros a H. unfold wideb, wide in *. rewrite !orb_true_iff, !N.leb_le, N.eqb_eq in H. tauto. Qed.
Lemma widesb_spec : forall q, widesb q = true -> wides q.
Proof. induction q as [|a q IH]; cbn; intros H; [exact Logic.I|]. apply andb_true_iff in H. destruct H. split; [now apply wideb_spec|auto]. Qed.
Lemma freshb_spec : forall q, freshb q = true -> fresh q.
Proof.
  intros [|a q] H; [exact Logic.I|]. cbn in *. apply andb_true_iff in H. destruct H as [H1 H2]. split; [now apply wideb_spec|].
  rewrite orb_true_iff, N.ltb_lt, N.leb_le in H2. exact H2.
Qed.

Lemma encodings_wide : Forall (fun e => wides e /\ fresh e) space_encodings.
Proof.
  rewrite Forall_forall. intros e I.
  assert (A : forallb (fun e => (widesb e && freshb e)%bool) space_encodings = true) by (vm_compute; reflexivity).
  rewrite forallb_forall in A. specialize (A e I). apply andb_true_iff in A. destruct A. split; [now apply widesb_spec|now apply freshb_spec].
Qed.

Lemma wides_app : forall a b, wides a -> wides b -> wides (a ++ b).
Proof. induction a as [|x a IH]; cbn; intros b H K; [exact K|]. destruct H. split; auto. Qed.

Lemma all_space_wides : forall q, all_space q -> wides q.
Proof.
  induction 1 as [|e s I A IH]; [exact Logic.I|]. pose proof encodings_wide as W. rewrite Forall_forall in W.
  apply wides_app; [now apply W|exact IH].
Qed.
Lemma all_space_fresh : forall q, all_space q -> fresh q.
Proof.
  destruct 1 as [|e s I A]; [exact Logic.I|]. pose proof encodings_wide as W. rewrite Forall_forall in W.
  destruct (W e I) as [_ F]. pose proof encodings_nonempty as N. rewrite Forall_forall in N. specialize (N e I).
  destruct e; [congruence|]. exact F.
Qed.

Lemma wide_not : forall a b, wide a -> (13 < byte b)%N -> byte b <> 32%N -> (byte b < 128)%N -> a <> b.
Proof. intros a b W H1 H2 H3 ->. unfold wide in W. lia. Qed.
Lemma wide_digit : forall a, wide a -> digit_val a = None.
Proof.
  intros a W. unfold digit_val, wide in *. cbv zeta. unfold in_range.
  destruct (N.leb_spec 48 (byte a)); destruct (N.leb_spec (byte a) 57); cbn [andb]; try reflexivity. lia.
Qed.

Ltac wide_ne H := let X := fresh in
  match type of H with wide ?a => match goal with
   | |- context[Ascii.eqb a ?b] => destruct (Ascii.eqb_spec a b) as [X|_];
        [exfalso; revert X; apply (wide_not _ _ H); [reflexivity | vm_compute; discriminate | reflexivity]|]
  end end.

Lemma lex_quoted_wides : forall q, wides q -> lex_quoted q = None.
Proof. induction q as [|a q IH]; [reflexivity|]. intros [W Q]. cbn [lex_quoted]. wide_ne W. now rewrite IH. Qed.
Lemma lex_literal_wides : forall c q, c = "'"%char \/ c = ascii_of_nat 34 -> wides q -> lex_literal c q = None.
Proof.
  intros c q C. induction q as [|a q IH]; [reflexivity|]. intros [W Q]. cbn [lex_literal].
  destruct C as [->| ->]; wide_ne W; wide_ne W; now rewrite IH by auto.
Qed.

Lemma lex_quoted_behind : forall s q n t, wides q -> lex_quoted (s ++ q) = Some (n, t) ->
  exists t', t = t' ++ q /\ lex_quoted s = Some (n, t').
Proof.
  intros s. remember (String.length s) as k eqn:K. revert s K.
  induction k as [k IH] using lt_wf_ind. intros s K q n t Hq H. destruct s as [|a s].
  { cbn [append] in H. rewrite lex_quoted_wides in H by exact Hq. discriminate. }
  cbn [append lex_quoted] in *. cbn in K. destruct (Ascii.eqb a "`").
  - destruct s as [|b s]; cbn [append] in H.
    + destruct q as [|c q]; [inversion H; subst; now exists ""|]. destruct Hq as [W Q].
      revert H. wide_ne W. intros H. inversion H; subst. now exists "".
    + destruct (Ascii.eqb b "`").
      * destruct (lex_quoted (s ++ q)) as [[n' t']|] eqn:L; [|discriminate]. inversion H; subst.
        destruct (IH (String.length s) ltac:(cbn; lia) s eq_refl q _ _ Hq L) as (u & -> & ->). now exists u.
      * inversion H; subst. now exists (String b s).
  - destruct (lex_quoted (s ++ q)) as [[n' t']|] eqn:L; [|discriminate]. inversion H; subst.
    destruct (IH (String.length s) ltac:(lia) s eq_refl q _ _ Hq L) as (u & -> & ->). now exists u.
Qed.

Lemma lex_literal_behind : forall c s q n t, c = "'"%char \/ c = ascii_of_nat 34 -> wides q -> lex_literal c (s ++ q) = Some (n, t) ->
  exists t', t = t' ++ q /\ lex_literal c s = Some (n, t').
Proof.
  intros c s. remember (String.length s) as k eqn:K. revert s K.
  induction k as [k IH] using lt_wf_ind. intros s K q n t C Hq H. destruct s as [|a s].
  { cbn [append] in H. rewrite lex_literal_wides in H by assumption. discriminate. }
  cbn [append lex_literal] in *. cbn in K. destruct (Ascii.eqb a c); [inversion H; subst; now exists s|].
  destruct (Ascii.eqb a "\").
  - destruct s as [|b s]; cbn [append] in H.
    + destruct q as [|d q]; [discriminate|]. destruct Hq as [W Q]. destruct (unescape d); [|discriminate].
      rewrite lex_literal_wides in H by assumption. discriminate.
    + destruct (unescape b); [|discriminate].
      destruct (lex_literal c (s ++ q)) as [[n' t']|] eqn:L; [|discriminate]. inversion H; subst.
      destruct (IH (String.length s) ltac:(cbn; lia) s eq_refl q _ _ C Hq L) as (u & -> & ->). now exists u.
  - destruct (lex_literal c (s ++ q)) as [[n' t']|] eqn:L; [|discriminate]. inversion H; subst.
    destruct (IH (String.length s) ltac:(lia) s eq_refl q _ _ C Hq L) as (u & -> & ->). now exists u.
Qed.

Definition behind (q : string) (p : string * string) : string * string := (fst p, snd p ++ q).

Lemma span_behind : forall q s, wides q -> span (s ++ q) = behind q (span s).
Proof.
  intros q s Hq. induction s as [|a s IH]; cbn [append].
  - destruct q as [|c q]; [reflexivity|]. destruct Hq as [W _]. cbn [span]. now rewrite wide_digit.
  - cbn [span]. destruct (digit_val a); [|reflexivity]. rewrite IH. unfold behind. now destruct (span s).
Qed.
Lemma fraction_behind : forall q s, wides q -> fraction (s ++ q) = behind q (fraction s).
Proof.
  intros q [|a s] Hq; cbn [append].
  - destruct q as [|c q]; [reflexivity|]. destruct Hq as [W _]. cbn [fraction]. now wide_ne W.
  - cbn [fraction]. destruct (Ascii.eqb a "."); [|reflexivity]. rewrite span_behind by exact Hq.
    unfold behind. destruct (span s) as [d t]. cbn [fst snd]. now destruct (String.eqb d "").
Qed.
Lemma sign_behind : forall q s, wides q -> sign (s ++ q) = behind q (sign s).
Proof.
  intros q [|a s] Hq; cbn [append].
  - destruct q as [|c q]; [reflexivity|]. destruct Hq as [W _]. cbn [sign]. wide_ne W. now wide_ne W.
  - cbn [sign]. now destruct (Ascii.eqb a "+" || Ascii.eqb a "-")%bool.
Qed.
Lemma exponent_behind : forall q s, wides q -> exponent (s ++ q) = behind q (exponent s).
Proof.
  intros q [|a s] Hq; cbn [append].
  - destruct q as [|c q]; [reflexivity|]. destruct Hq as [W _]. cbn [exponent]. wide_ne W. now wide_ne W.
  - cbn [exponent]. destruct (Ascii.eqb a "e" || Ascii.eqb a "E")%bool; [|reflexivity].
    rewrite sign_behind by exact Hq. unfold behind at 1. destruct (sign s) as [g r]. cbn [fst snd].
    rewrite span_behind by exact Hq. unfold behind. destruct (span r) as [d t]. cbn [fst snd]. now destruct (String.eqb d "").
Qed.
Lemma lex_number_behind : forall q s, wides q -> lex_number (s ++ q) = option_map (behind q) (lex_number s).
Proof.
  intros q s Hq. unfold lex_number. rewrite span_behind by exact Hq. unfold behind at 1. destruct (span s) as [i s1]. cbn [fst snd].
  rewrite fraction_behind by exact Hq. unfold behind at 1. destruct (fraction s1) as [f s2]. cbn [fst snd].
  destruct (String.eqb (i ++ f) ""); [reflexivity|]. rewrite exponent_behind by exact Hq.
  unfold behind. now destruct (exponent s2) as [x s3].
Qed.

Lemma range_fresh : forall lo x hi, (128 <= lo)%N -> (hi <= 191)%N -> (x < 128 \/ 192 <= x)%N -> in_range lo x hi = false.
Proof.
  intros lo x hi H1 H2 H3. unfold in_range. destruct (N.leb_spec lo x); destruct (N.leb_spec x hi); cbn [andb]; try reflexivity. lia.
Qed.
Lemma lo3 : forall x, (128 <= (if N.eqb x 224 then 160 else 128))%N.
Proof. intros. destruct (N.eqb x 224); lia. Qed.
Lemma hi3 : forall x, ((if N.eqb x 237 then 159 else 191) <= 191)%N.
Proof. intros. destruct (N.eqb x 237); lia. Qed.
Lemma lo4 : forall x, (128 <= (if N.eqb x 240 then 144 else 128))%N.
Proof. intros. destruct (N.eqb x 240); lia. Qed.
Lemma hi4 : forall x, ((if N.eqb x 244 then 143 else 191) <= 191)%N.
Proof. intros. destruct (N.eqb x 244); lia. Qed.

Lemma decode_behind : forall a r q, fresh q -> decode a (r ++ q) = decode a r.
Proof.
  intros a r q F. destruct q as [|b q]; [now rewrite sapp_nil_r|]. destruct F as [_ F].
  unfold decode. cbv zeta. destruct (N.ltb (byte a) 128); [reflexivity|].
  destruct r as [|b1 [|b2 [|b3 r]]]; cbn [append]; try reflexivity.
  - rewrite (range_fresh 128 (byte b) 191) by (auto; lia).
    rewrite (range_fresh _ (byte b) _ (lo3 _) (hi3 _) F), (range_fresh _ (byte b) _ (lo4 _) (hi4 _) F). cbn [andb].
    destruct (in_range 194 (byte a) 223); [reflexivity|]. destruct q as [|c [|d q]]; reflexivity.
  - rewrite (range_fresh 128 (byte b) 191) by (auto; lia). rewrite !andb_false_r. cbn [andb].
    destruct (in_range 194 (byte a) 223); [reflexivity|]. destruct (in_range 224 (byte a) 239); [reflexivity|]. destruct q as [|c q]; reflexivity.
  - rewrite (range_fresh 128 (byte b) 191) by (auto; lia). rewrite !andb_false_r. reflexivity.
Qed.

Lemma decode_width_le : forall a r, (snd (decode a r) <= S (String.length r))%nat.
Proof.
  intros a r. unfold decode. cbv zeta. destruct (N.ltb (byte a) 128); [cbn; lia|].
  destruct (in_range 194 (byte a) 223).
  { destruct r as [|b r]; [cbn; lia|]. destruct (in_range 128 (byte b) 191); cbn; lia. }
  destruct (in_range 224 (byte a) 239).
  { destruct r as [|b [|c r]]; [cbn; lia|cbn; lia|].
    match goal with |- context[if ?x then _ else _] => destruct x end; cbn; lia. }
  destruct (in_range 240 (byte a) 244); [|cbn; lia].
  destruct r as [|b [|c [|d r]]]; [cbn; lia|cbn; lia|cbn; lia|].
  match goal with |- context[if ?x then _ else _] => destruct x end; cbn; lia.
Qed.

(** White space starts with a rune of white space. *)
Ltac each := repeat (apply Forall_cons; [|]); try apply Forall_nil.
Lemma encodings_decode : Forall (fun e => forall r, match e ++ r with
    | "" => False | String a s => In (fst (decode a s)) space_code_points end) space_encodings.
Proof.
  assert (A : Forall (fun e => forall r, match e ++ r with
    | "" => False | String a s => existsb (N.eqb (fst (decode a s))) space_code_points = true end) space_encodings).
  { rewrite space_list_eq. unfold space_list. each; intros r; reflexivity. }
  rewrite Forall_forall in *. intros e I r. specialize (A e I r). destruct (e ++ r); [exact A|].
  apply existsb_exists in A. destruct A as (c & I2 & Q). apply N.eqb_eq in Q. now rewrite Q.
Qed.

Lemma space_first : forall E q, no_space_in_names E -> all_space q -> runs_on E q = false.
Proof.
  intros E q N H. destruct H as [|e s I A]; [reflexivity|]. pose proof encodings_decode as D. rewrite Forall_forall in D.
  specialize (D e I s). unfold runs_on. destruct (e ++ s) as [|a r]; [reflexivity|]. now apply N.
Qed.

Lemma runs_on_behind : forall E t q, no_space_in_names E -> all_space q -> runs_on E (t ++ q) = runs_on E t.
Proof.
  intros E [|a t] q N H; cbn [append]; [now apply space_first|]. unfold runs_on. now rewrite decode_behind by now apply all_space_fresh.
Qed.

Lemma id_span_behind : forall E q, no_space_in_names E -> all_space q -> forall s first skip, (skip <= String.length s)%nat ->
  id_span E first (s ++ q) skip = behind q (id_span E first s skip).
Proof.
  intros E q N H. induction s as [|a s IH]; intros first skip L; cbn [append].
  - cbn in L. assert (skip = 0)%nat by lia. subst skip. cbn [id_span]. unfold behind. cbn [fst snd append].
    pose proof (space_first E q N H) as R. destruct q as [|c q]; [reflexivity|]. cbn [id_span runs_on] in *.
    destruct (decode c q) as [x w]. cbn [fst] in R. destruct first.
    + destruct (id_startb E x) eqn:St; [|reflexivity]. apply startb_partb in St. congruence.
    + now rewrite R.
  - cbn [id_span]. destruct skip as [|k].
    + rewrite decode_behind by now apply all_space_fresh. pose proof (decode_width_le a s) as Wd.
      destruct (decode a s) as [c w] eqn:D. cbn [snd] in Wd.
      destruct (if first then id_startb E c else id_partb E c); [|reflexivity].
      rewrite IH by lia. unfold behind. now destruct (id_span E false s (pred w)).
    + cbn in L. rewrite IH by lia. unfold behind. now destruct (id_span E first s k).
Qed.

(** An encoding does not continue into white space. *)
Fixpoint tails (s : string) : list string := match s with "" => [] | String _ r => r :: tails r end.
Lemma app_cases : forall x q e r : string, x ++ q = e ++ r -> (exists r', x = e ++ r' /\ r = r' ++ q) \/ (exists e', e = x ++ e' /\ e' <> "" /\ q = e' ++ r).
Proof.
  induction x as [|a x IH]; intros q e r H; cbn [append] in *.
  - destruct e as [|b e]; [left; exists ""; now subst|]. right. exists (String b e). split; [reflexivity|split; [discriminate|exact H]].
  - destruct e as [|b e]; cbn [append] in H.
    + left. exists (String a x). now subst.
    + inversion H; subst b. destruct (IH _ _ _ H2) as [(r' & -> & ->)|(e' & -> & N & ->)].
      * left. now exists r'.
      * right. now exists e'.
Qed.
Lemma tails_spec : forall x e, x <> "" -> In e (tails (x ++ e)).
Proof.
  induction x as [|a x IH]; intros e H; [congruence|]. cbn [append tails]. destruct x as [|b x]; [now left|]. right. apply IH. discriminate.
Qed.
Definition continues (s : string) : bool := match s with "" => true | String a _ => in_range 128 (byte a) 191 end.
Lemma encodings_tails : Forall (fun e => Forall (fun t => continues t = true) (tails e)) space_encodings.
Proof. rewrite space_list_eq. unfold space_list. each; cbn [tails]; each; reflexivity. Qed.
Definition marks_second (s : string) : bool := match s with "" => true | String a _ => in_range 33 (byte a) 127 end.
Lemma marks_tails : Forall (fun e => Forall (fun t => marks_second t = true) (tails e)) long_marks.
Proof. unfold long_marks. each; cbn [tails]; each; reflexivity. Qed.

Lemma encodings_found : Forall (fun e => forall r, after_any space_encodings (e ++ r) = Some (e, r)) space_encodings.
Proof. rewrite space_list_eq. unfold space_list. each; intros r; reflexivity. Qed.
Lemma marks_found : Forall (fun e => forall r, after_any long_marks (e ++ r) = Some (e, r)) long_marks.
Proof. unfold long_marks at 2. each; intros r; reflexivity. Qed.

Lemma space_behind : forall x q e r, x <> "" -> all_space q -> after_any space_encodings (x ++ q) = Some (e, r) ->
  exists r', r = r' ++ q /\ after_any space_encodings x = Some (e, r').
Proof.
  intros x q e r Hx Hq H. apply after_any_app in H. destruct H as [I H].
  destruct (app_cases _ _ _ _ H) as [(r' & -> & ->)|(e' & -> & N & ->)].
  - exists r'. split; [reflexivity|]. pose proof encodings_found as F. rewrite Forall_forall in F. now apply F.
  - exfalso. apply all_space_fresh in Hq. destruct e' as [|b e']; [congruence|]. destruct Hq as [_ Hb].
    pose proof encodings_tails as F. rewrite Forall_forall in F. specialize (F _ I). rewrite Forall_forall in F.
    specialize (F _ (tails_spec x (String b e') Hx)). cbn in F. now rewrite (range_fresh 128 (byte b) 191) in F by (auto; lia).
Qed.
Lemma mark_behind : forall x q e r, x <> "" -> wides q -> after_any long_marks (x ++ q) = Some (e, r) ->
  exists r', r = r' ++ q /\ after_any long_marks x = Some (e, r').
Proof.
  intros x q e r Hx Hq H. apply after_any_app in H. destruct H as [I H].
  destruct (app_cases _ _ _ _ H) as [(r' & -> & ->)|(e' & -> & N & ->)].
  - exists r'. split; [reflexivity|]. pose proof marks_found as F. rewrite Forall_forall in F. now apply F.
  - exfalso. destruct e' as [|b e']; [congruence|]. destruct Hq as [Hb _].
    pose proof marks_tails as F. rewrite Forall_forall in F. specialize (F _ I). rewrite Forall_forall in F.
    specialize (F _ (tails_spec x (String b e') Hx)). cbn in F. unfold wide in Hb. unfold in_range in F.
    apply andb_true_iff in F. destruct F as [F1 F2]. apply N.leb_le in F1, F2. lia.
Qed.
Lemma none_behind : forall es x q, after_any es (x ++ q) = None -> after_any es x = None.
Proof.
  intros es x q H. apply after_any_none_inv. intros e r I ->. apply (after_any_none _ _ H e (r ++ q) I). apply sapp_assoc.
Qed.

Lemma lex_one_behind : forall E x q t r, no_space_in_names E -> x <> "" -> all_space q ->
  lex_one E (x ++ q) = Some (t, r) -> exists r', r = r' ++ q /\ lex_one E x = Some (t, r').
Proof.
  intros E x q t r N Hx Hq H. pose proof (all_space_wides q Hq) as W. destruct x as [|a x]; [congruence|].
  unfold lex_one in *. cbn [append] in H.
  change (String a (x ++ q)) with (String a x ++ q) in H.
  destruct (after_any space_encodings (String a x ++ q)) as [[e y]|] eqn:Sp.
  { destruct (space_behind _ _ _ _ Hx Hq Sp) as (r' & -> & ->). inversion H; subst. now exists r'. }
  rewrite (none_behind _ _ _ Sp). destruct (Ascii.eqb a "`").
  { destruct (lex_quoted (x ++ q)) as [[n y]|] eqn:Q; [|discriminate]. inversion H; subst.
    destruct (lex_quoted_behind _ _ _ _ W Q) as (r' & -> & ->). now exists r'. }
  destruct (Ascii.eqb a "'" || Ascii.eqb a (ascii_of_nat 34))%bool eqn:Qt.
  { destruct (lex_literal a (x ++ q)) as [[n y]|] eqn:Q; [|discriminate]. inversion H; subst.
    destruct (lex_literal_behind a x q n r) as (r' & -> & ->); auto; [|now exists r'].
    apply orb_true_iff in Qt. destruct Qt as [Qt|Qt]; apply Ascii.eqb_eq in Qt; auto. }
  rewrite lex_number_behind in H by exact W. destruct (lex_number (String a x)) as [[n y]|] eqn:Nu; cbn [option_map behind fst snd] in H.
  { rewrite runs_on_behind in H by assumption. destruct (runs_on E y); [discriminate|]. inversion H; subst. now exists y. }
  destruct (after_any comments (String a x ++ q)) eqn:C; [discriminate|]. rewrite (none_behind _ _ _ C).
  destruct (after_any long_marks (String a x ++ q)) as [[e y]|] eqn:M.
  { destruct (mark_behind _ _ _ _ Hx W M) as (r' & -> & ->). inversion H; subst. now exists r'. }
  rewrite (none_behind _ _ _ M). rewrite id_span_behind in H by (auto; lia).
  destruct (id_span E true (String a x) 0) as [n y]. unfold behind in H. cbn [fst snd] in H. destruct n as [|b n].
  - destruct (N.ltb (byte a) 128); [|discriminate]. inversion H; subst. now exists x.
  - inversion H; subst. now exists y.
Qed.

Lemma Lexes_space : forall E q ts, all_space q -> Lexes E q ts -> ts = [].
Proof.
  intros E q ts H. revert ts. induction H as [|e s I A IH]; intros ts L.
  - inversion L as [|s t r ts' H1 H2]; subst; [reflexivity|discriminate].
  - pose proof encodings_found as F. rewrite Forall_forall in F. specialize (F e I s).
    inversion L as [X|s0 t r ts' H1 H2]; subst.
    + reflexivity.
    + unfold lex_one in H1. pose proof encodings_nonempty as N. rewrite Forall_forall in N. specialize (N e I).
      destruct e as [|b e]; [congruence|]. cbn [append] in *. rewrite F in H1. inversion H1; subst. apply IH. exact H2.
Qed.

Lemma Lexes_behind : forall E x q ts, no_space_in_names E -> all_space q -> Lexes E (x ++ q) ts -> Lexes E x ts.
Proof.
  intros E x. remember (String.length x) as k eqn:K. revert x K.
  induction k as [k IH] using lt_wf_ind. intros x K q ts N Hq L. destruct x as [|a x].
  - cbn [append] in L. rewrite (Lexes_space _ _ _ Hq L). constructor.
  - inversion L as [|s t r ts' H1 H2]; subst.
    destruct (lex_one_behind E (String a x) q t r N ltac:(discriminate) Hq H1) as (r' & -> & H3).
    eapply lx_step; [exact H3|]. apply (IH (String.length r')) with (q := q); auto. now apply lex_one_len in H3.
Qed.

Lemma Lexes_before : forall E p x ts, all_space p -> Lexes E (p ++ x) ts -> Lexes E x ts.
Proof.
  intros E p x ts H. revert ts. induction H as [|e s I A IH]; intros ts L; [exact L|]. apply IH.
  rewrite sapp_assoc in L. pose proof encodings_found as F. rewrite Forall_forall in F. specialize (F e I (s ++ x)).
  pose proof encodings_nonempty as N. rewrite Forall_forall in N. specialize (N e I).
  destruct e as [|b e]; [congruence|]. cbn [append] in *. inversion L as [|s0 t r ts' H1 H2]; subst.
  unfold lex_one in H1. rewrite F in H1. inversion H1; subst. exact H2.
Qed.

(** White space at the ends of a text adds no token. *)
Theorem Lexes_trim : forall E s ts, no_space_in_names E -> Lexes E s ts -> Lexes E (trim_space s) ts.
Proof.
  intros E s ts N H. destruct (trim_space_spec s) as (p & q & Hp & Hq & Es & _). rewrite Es in H.
  apply Lexes_before in H; [|exact Hp]. now apply Lexes_behind in H.
Qed.
