(** The tokens of the texts a statement is made of, and what can stand behind
    them. *)

From Coq Require Import Ascii String List ZArith Bool Lia.
From Verif Require Import GoStr Escape Num SpecLex SpecNum SpecSpace SpecTokens EscapeProofs GoStrProofs NumRead TokenProofs.
Import ListNotations.
Open Scope string_scope.

Section Env.
Context (E : env) (NS : no_space_in_names E).

(** The tokens of [s] in front of any text, and in front of texts that stop. *)
Definition hard (s : string) (ts : list token) : Prop := forall b tb, Lexes E b tb -> Lexes E (s ++ b) (ts ++ tb).
Definition soft (s : string) (ts : list token) : Prop := forall b tb, stop b -> Lexes E b tb -> Lexes E (s ++ b) (ts ++ tb).
(** Texts that can stand behind any token, whatever follows them. *)
Definition strong (s : string) : Prop := forall b, stop (s ++ b).
Definition led (s : string) : Prop := s = "" \/ strong s.

Lemma hard_soft : forall s ts, hard s ts -> soft s ts.
Proof. intros s ts H b tb _ L. now apply H. Qed.
Lemma strong_led : forall s, strong s -> led s.
Proof. now right. Qed.
Lemma hard_nil : hard "" [].
Proof. intros b tb L. exact L. Qed.
Lemma led_nil : led "".
Proof. now left. Qed.
Lemma hard_app : forall a ta b tb, hard a ta -> hard b tb -> hard (a ++ b) (ta ++ tb).
Proof. intros a ta b tb Ha Hb c tc L. rewrite sapp_assoc, <- app_assoc. now apply Ha, Hb. Qed.
Lemma hard_soft_app : forall a ta b tb, hard a ta -> soft b tb -> soft (a ++ b) (ta ++ tb).
Proof. intros a ta b tb Ha Hb c tc S L. rewrite sapp_assoc, <- app_assoc. apply Ha. now apply Hb. Qed.
Lemma soft_strong_hard : forall a ta b tb, soft a ta -> strong b -> hard b tb -> hard (a ++ b) (ta ++ tb).
Proof. intros a ta b tb Ha S Hb c tc L. rewrite sapp_assoc, <- app_assoc. apply Ha; [apply S|]. now apply Hb. Qed.
Lemma led_stop : forall a b, led a -> stop b -> stop (a ++ b).
Proof. intros a b [->|H] S; [exact S|apply H]. Qed.
Lemma soft_led_soft : forall a ta b tb, soft a ta -> led b -> soft b tb -> soft (a ++ b) (ta ++ tb).
Proof. intros a ta b tb Ha S Hb c tc Sc L. rewrite sapp_assoc, <- app_assoc. apply Ha; [now apply led_stop|]. now apply Hb. Qed.
Lemma strong_app : forall a b, strong a -> strong (a ++ b).
Proof. intros a b H c. rewrite sapp_assoc. apply H. Qed.
Lemma led_app : forall a b, led a -> led b -> led (a ++ b).
Proof. intros a b [->|H] K; [exact K|]. right. now apply strong_app. Qed.

Lemma soft_Lexes : forall s ts, soft s ts -> Lexes E s ts.
Proof. intros s ts H. rewrite <- (sapp_nil_r s), <- (app_nil_r ts). apply H; [exact I|constructor]. Qed.
Lemma soft_tokens : forall s ts, soft s ts -> tokens E s = Some ts.
Proof. intros s ts H. now apply Lexes_tokens, soft_Lexes. Qed.

Lemma contained_soft : forall s, self_contained E s <-> exists ts, soft s ts.
Proof.
  intros s. split; intros [ts H]; exists ts; intros b tb S L.
  - apply tokens_Lexes, H; [exact S|now apply Lexes_tokens].
  - apply Lexes_tokens, H; [exact S|now apply tokens_Lexes].
Qed.

(** ** Steps *)

Lemma lx_skip : forall s r ts, lex_one E s = Some ([], r) -> Lexes E r ts -> Lexes E s ts.
Proof. intros s r ts H L. exact (lx_step E s [] r ts H L). Qed.
Lemma lx_tok : forall s t r ts, lex_one E s = Some ([t], r) -> Lexes E r ts -> Lexes E s (t :: ts).
Proof. intros s t r ts H L. exact (lx_step E s [t] r ts H L). Qed.

Lemma strong_by : forall a s, In a delimiters -> a <> "."%char -> strong (String a s).
Proof. intros a s H N b. cbn [append stop]. split; [exact H|]. intros ->. congruence. Qed.

Lemma one_hard : forall a t, (forall b, lex_one E (String a b) = Some ([t], b)) -> hard (String a "") [t].
Proof. intros a t H b tb L. cbn [append]. eapply lx_tok; [apply H|exact L]. Qed.

(** The first rune is a letter or an underscore. *)
Lemma start_not : forall a s c, id_startb E (fst (decode a s)) = true -> (byte c < 128)%N -> id_startb E (byte c) = false -> a <> c.
Proof.
  intros a s c H L N ->. unfold decode in H. cbv zeta in H. destruct (N.ltb_spec (byte c) 128); [|lia]. cbn [fst] in H. congruence.
Qed.
Ltac no_start H := match type of H with id_startb _ (fst (decode ?a ?s)) = true =>
  match goal with
  | |- context[Ascii.eqb a ?c] => destruct (Ascii.eqb_spec a c) as [X|_];
      [exfalso; revert X; apply (start_not a s c H); [reflexivity|reflexivity]|]
  | |- context[Ascii.eqb ?c a] => destruct (Ascii.eqb_spec c a) as [X|_];
      [exfalso; symmetry in X; revert X; apply (start_not a s c H); [reflexivity|reflexivity]|]
  end end.

Lemma start_no_digit : forall a s, id_startb E (fst (decode a s)) = true -> digit_val a = None.
Proof.
  intros a s H. unfold digit_val. cbv zeta. destruct (in_range 48 (byte a) 57) eqn:R; [|reflexivity]. exfalso.
  unfold in_range in R. apply andb_true_iff in R. destruct R as [R1 R2]. apply N.leb_le in R1, R2.
  unfold decode in H. cbv zeta in H. destruct (N.ltb_spec (byte a) 128); [|lia]. cbn [fst] in H.
  unfold id_startb, is_letter in H. destruct (N.ltb_spec (byte a) 128); [|lia].
  unfold in_range in H. destruct (N.eqb_spec (byte a) 95); [lia|].
  destruct (N.leb_spec 65 (byte a)); [lia|]. destruct (N.leb_spec 97 (byte a)); [lia|]. discriminate.
Qed.
Lemma start_no_number : forall a s, id_startb E (fst (decode a s)) = true -> lex_number (String a s) = None.
Proof.
  intros a s H. unfold lex_number. cbn [span]. rewrite (start_no_digit a s H). cbn [fraction]. no_start H. reflexivity.
Qed.
Lemma start_no_space : forall a s, id_startb E (fst (decode a s)) = true -> after_any space_encodings (String a s) = None.
Proof.
  intros a s H. apply after_any_none_inv. intros e r I X. pose proof encodings_decode as D. rewrite Forall_forall in D.
  specialize (D e I r). rewrite <- X in D. apply startb_partb in H. rewrite (NS _ D) in H. discriminate.
Qed.

Lemma stop_no_tick : forall b, stop b -> no_tick b.
Proof.
  intros [|a b] H; [exact I|]. cbn in *. destruct H as [H _]. intros ->. repeat (destruct H as [H|H]; [discriminate|]). exact H.
Qed.
Lemma stop_runs_on : forall b, stop b -> runs_on E b = false.
Proof.
  intros [|a b] H; [reflexivity|]. cbn in H. destruct H as [H _].
  repeat (destruct H as [<-|H]; [vm_compute; reflexivity|]). destruct H.
Qed.

(** ** Names *)

Lemma word_soft : forall n, is_identifier E n = true -> soft n [Word n].
Proof.
  intros n H b tb Sb L. destruct n as [|a n]; [discriminate|].
  assert (HS : id_span E true (String a n ++ b) 0 = (String a n, b)).
  { apply id_span_app; [cbn; lia| | |].
    - unfold is_identifier, runes in H. destruct (runes_from (String a n) 0); [discriminate|]. apply andb_true_iff in H. exact H.
    - unfold is_identifier, runes in H. intros N. rewrite N in H. discriminate.
    - apply stop_runs_on in Sb. destruct b; [exact I|exact Sb]. }
  assert (St : id_startb E (fst (decode a (n ++ b))) = true).
  { unfold is_identifier, runes in H. cbn [runes_from] in H. destruct (decode a n) as [c w] eqn:D. apply andb_true_iff in H. destruct H as [H _].
    rewrite ident_first_startb in H. pose proof (startb_partb _ _ H) as P.
    destruct (decode_ext a n b c w D (partb_not_error _ _ P)) as [-> _]. exact H. }
  apply lx_tok with (r := b); [|exact L]. cbn [append] in *. cbn [lex_one].
  rewrite (start_no_space a (n ++ b) St). no_start St. no_start St. no_start St. cbn [orb].
  rewrite (start_no_number a (n ++ b) St).
  assert (C : after_any comments (String a (n ++ b)) = None) by (cbn [after_any comments after]; no_start St; reflexivity).
  rewrite C.
  assert (M : after_any long_marks (String a (n ++ b)) = None) by (cbn [after_any long_marks after]; repeat no_start St; reflexivity).
  rewrite M, HS. reflexivity.
Qed.

Lemma quoted_soft : forall n, soft ("`" ++ replace_all backtick "``" n ++ "`") [Name n].
Proof.
  intros n b tb Sb L. rewrite !sapp_assoc. apply lx_tok with (r := b); [|exact L].
  change ("`" ++ replace_all backtick "``" n ++ "`" ++ b) with (String "`" (replace_all backtick "``" n ++ "`" ++ b)).
  cbn [lex_one]. rewrite (lex_quoted_escape n b) by now apply stop_no_tick.
  assert (A : after_any space_encodings (String "`" (replace_all backtick "``" n ++ "`" ++ b)) = None) by reflexivity.
  rewrite A. reflexivity.
Qed.

Lemma space_hard : forall n, all_space n -> hard n [].
Proof.
  induction 1 as [|e s I A IH]; [apply hard_nil|]. intros b tb L. rewrite sapp_assoc.
  apply lx_skip with (r := s ++ b); [|now apply IH].
  pose proof encodings_found as F. rewrite Forall_forall in F. specialize (F e I (s ++ b)).
  pose proof encodings_nonempty as N. rewrite Forall_forall in N. specialize (N e I).
  destruct e as [|x e]; [congruence|]. cbn [append lex_one] in *. now rewrite F.
Qed.

Definition name_tokens (n : string) : list token :=
  if blank n then [] else if is_identifier E n then [Word n] else [Name n].

Lemma name_soft : forall n, soft (escape_if_necessary E n) (name_tokens n).
Proof.
  intros n. unfold escape_if_necessary, name_tokens. destruct (blank n) eqn:B; cbn [orb].
  - apply hard_soft, space_hard. unfold blank in B. apply String.eqb_eq in B. now apply blank_iff.
  - destruct (is_identifier E n) eqn:Id; [now apply word_soft|apply quoted_soft].
Qed.

Lemma mark_colon : hard ":" [Mark ":"].
Proof. apply one_hard. reflexivity. Qed.
Lemma mark_bar : hard "|" [Mark "|"].
Proof. apply one_hard. reflexivity. Qed.
Lemma mark_minus : hard "-" [Mark "-"].
Proof. apply one_hard. reflexivity. Qed.
Lemma mark_star : hard "*" [Mark "*"].
Proof. apply one_hard. reflexivity. Qed.

Lemma label_soft : forall v, v <> "" -> soft (label_text v) [Mark ":"; Name v].
Proof.
  intros v H. unfold label_text. destruct (String.eqb_spec v ""); [contradiction|].
  apply (hard_soft_app ":" [Mark ":"] _ [Name v]); [apply mark_colon|apply quoted_soft].
Qed.
Lemma label_exists : forall v, exists ts, soft (label_text v) ts.
Proof.
  intros v. destruct (String.eqb_spec v "") as [->|N]; [exists []; apply hard_soft, hard_nil|].
  eexists. now apply label_soft.
Qed.
Lemma label_led : forall v, led (label_text v).
Proof.
  intros v. unfold label_text. destruct (String.eqb v ""); [now left|]. right. apply strong_by; [cbn; tauto|discriminate].
Qed.

Lemma bar_strong : strong "|".
Proof. apply strong_by; [cbn; tauto|discriminate]. Qed.
Lemma types_exist : forall vs, exists ts, soft (rel_types_text vs) ts.
Proof.
  intros vs. unfold rel_types_text. destruct vs as [|v vs]; [exists []; apply hard_soft, hard_nil|].
  generalize (filter (fun x => negb (String.eqb x "")) (v :: vs)). intros l.
  assert (J : exists ts, soft (join "|" (map escape_name l)) ts).
  { induction l as [|x l [ts IH]]; [exists []; apply hard_soft, hard_nil|].
    destruct l as [|y l]; [exists [Name x]; apply quoted_soft|].
    cbn [map]. rewrite join_cons2. cbn [map] in IH. exists ([Name x] ++ [Mark "|"] ++ ts)%list.
    apply soft_led_soft; [apply quoted_soft|right; apply strong_app; apply bar_strong|].
    apply hard_soft_app; [apply mark_bar|exact IH]. }
  destruct J as [ts J]. eexists. apply hard_soft_app; [apply mark_colon|exact J].
Qed.
Lemma types_led : forall vs, led (rel_types_text vs).
Proof.
  intros [|v vs]; [now left|]. right. unfold rel_types_text. apply strong_by; [cbn; tauto|discriminate].
Qed.

(** ** Literals *)

Lemma lex_literal_quote : forall s, lex_literal "'" s = lex_string_body s.
Proof.
  intros s. remember (String.length s) as k eqn:K. revert s K.
  induction k as [k IH] using lt_wf_ind. intros s K. destruct s as [|a s]; [reflexivity|].
  cbn [lex_literal lex_string_body]. cbn in K. destruct (Ascii.eqb a "'"); [reflexivity|]. destruct (Ascii.eqb a "\").
  - destruct s as [|b s]; [reflexivity|]. cbn in K. now rewrite (IH (String.length s)) by (auto; lia).
  - now rewrite (IH (String.length s)) by (auto; lia).
Qed.
Lemma literal_hard : forall s, hard (string_literal s) [Literal s].
Proof.
  intros s b tb L. pose proof (string_literal_lex s b) as H. unfold string_literal in *. rewrite !sapp_assoc in *.
  cbn [append lex_string] in *. rewrite Ascii.eqb_refl in H. rewrite <- lex_literal_quote in H.
  apply lx_tok with (r := b); [|exact L]. cbn [lex_one].
  assert (A : forall x, after_any space_encodings (String "'" x) = None) by reflexivity. rewrite A.
  assert (Q : forall x : string, Ascii.eqb "'" "`" = false) by reflexivity. rewrite (Q ""), Ascii.eqb_refl. cbn [orb]. now rewrite H.
Qed.

(** ** Numbers *)

Lemma lex_number_read : forall s m e t, read_decimal s = Some (m, e, t) ->
  match t with String "E" _ => False | _ => True end -> exists n, lex_number s = Some (n, t).
Proof.
  intros s m e t H NE. unfold read_decimal in H. unfold lex_number. destruct (span s) as [i s1].
  destruct (String.eqb_spec i "") as [|Ni]; [discriminate|].
  assert (F : exists f, fraction s1 = (f, snd (read_fraction s1))).
  { destruct s1 as [|a s1]; [now exists ""|]. cbn [fraction]. destruct (Ascii.eqb_spec a ".") as [->|Na].
    - cbn [read_fraction]. destruct (span s1) as [d u]. destruct (String.eqb d ""); eexists; reflexivity.
    - exists "". destruct a as [[] [] [] [] [] [] [] []]; try reflexivity; now destruct Na. }
  destruct F as [f ->]. destruct (read_fraction s1) as [f' s2]. cbn [snd].
  assert (X : read_exponent s2 = (fst (read_exponent s2), t) /\ exists x, exponent s2 = (x, t)).
  { destruct (read_exponent s2) as [x' s3] eqn:R. inversion H; subst. split; [reflexivity|].
    destruct s2 as [|a s2]; [inversion R; subst; now exists ""|].
    destruct (Ascii.eqb_spec a "e") as [->|Na].
    - cbn [exponent read_exponent] in *. rewrite Ascii.eqb_refl. cbn [orb].
      assert (G : exists g, sign s2 = (g, snd (match s2 with String "+" r' => (1, r') | String "-" r' => (-1, r') | _ => (1, s2) end)%Z)).
      { destruct s2 as [|c s2]; [now exists ""|]. cbn [sign]. destruct (Ascii.eqb_spec c "+") as [->|N1]; [now exists "+"|].
        destruct (Ascii.eqb_spec c "-") as [->|N2]; [now exists "-"|]. exists "". cbn [orb].
        destruct c as [[] [] [] [] [] [] [] []]; try reflexivity; congruence. }
      destruct G as [g ->]. destruct (match s2 with String "+" r' => (1, r') | String "-" r' => (-1, r') | _ => (1, s2) end)%Z as [sg r']. cbn [snd].
      destruct (span r') as [d u]. destruct (String.eqb d ""); inversion R; subst; eexists; reflexivity.
    - assert (T : t = String a s2).
      { destruct a as [[] [] [] [] [] [] [] []]; try (now inversion R); now destruct Na. }
      subst t. exists "". cbn [exponent]. destruct (Ascii.eqb_spec a "e"); [contradiction|].
      destruct (Ascii.eqb_spec a "E") as [->|]; [destruct NE|reflexivity]. }
  destruct X as [_ [x ->]]. destruct (String.eqb_spec (i ++ f) "") as [Z|_]; [destruct i; [congruence|discriminate]|]. eexists. reflexivity.
Qed.

Lemma stop_decimal : forall b, stop b -> ends_decimal b.
Proof.
  intros [|a b] H; [exact I|]. cbn in H. destruct H as [H D]. cbn [ends_decimal].
  split; [|split; [|exact D]]; repeat (destruct H as [<-|H]; [first [reflexivity|discriminate]|]); destruct H.
Qed.
Lemma stop_no_E : forall b, stop b -> match b with String "E" _ => False | _ => True end.
Proof.
  intros [|a b] H; [exact I|]. cbn in H. destruct H as [H D].
  repeat (destruct H as [<-|H]; [exact I|]). destruct H.
Qed.

Lemma app_cancel : forall a b c : string, a ++ c = b ++ c -> a = b.
Proof.
  induction a as [|x a IH]; intros [|y b] c H; cbn [append] in H; auto.
  - apply (f_equal String.length) in H. cbn in H. rewrite slen_app in H. lia.
  - apply (f_equal String.length) in H. cbn in H. rewrite slen_app in H. lia.
  - inversion H; subst. f_equal. eapply IH; eauto.
Qed.

(** A text that is read as one number is one token. *)
Lemma number_one : forall s, (forall b, stop b -> exists n, lex_number (s ++ b) = Some (n, b)) ->
  (exists a r d, s = String a r /\ digit_val a = Some d) -> soft s [Number s].
Proof.
  intros s H (a & r & d & -> & D) b tb Sb L. destruct (H b Sb) as [n N].
  pose proof (lex_number_app _ _ _ N) as [X _]. apply app_cancel in X. subst n.
  apply lx_tok with (r := b); [|exact L]. cbn [append] in *. cbn [lex_one].
  assert (R : (48 <= byte a <= 57)%N).
  { unfold digit_val in D. cbv zeta in D. unfold in_range in D.
    destruct (N.leb_spec 48 (byte a)); destruct (N.leb_spec (byte a) 57); cbn [andb] in D; try discriminate. lia. }
  assert (A : after_any space_encodings (String a (r ++ b)) = None).
  { apply after_any_none_inv. intros e x I Z. pose proof encodings_wide as W. rewrite Forall_forall in W.
    destruct (W e I) as [We _]. pose proof encodings_nonempty as Ne. rewrite Forall_forall in Ne. specialize (Ne e I).
    destruct e as [|y e]; [congruence|]. cbn [append] in Z. inversion Z; subst y. destruct We as [We _]. unfold wide in We. lia. }
  rewrite A.
  destruct (Ascii.eqb_spec a "`") as [->|_]; [cbn in R; lia|].
  destruct (Ascii.eqb_spec a "'") as [->|_]; [cbn in R; lia|].
  destruct (Ascii.eqb_spec a (ascii_of_nat 34)) as [->|_]; [cbn in R; lia|]. cbn [orb].
  rewrite N, (stop_runs_on b Sb). reflexivity.
Qed.

Lemma digits_soft : forall n, (0 <= n)%Z -> soft (digits n) [Number (digits n)].
Proof.
  intros n H. destruct (digits_value n H) as (D & _ & a & r & d & Ed & Da). apply number_one; [|now exists a, r, d].
  intros b Sb. pose proof (stop_decimal b Sb) as Eb.
  assert (R : read_decimal (digits n ++ b) = Some (value_from 0 (digits n), 0%Z, b)).
  { pose proof (read_fixed (digits n) "" b D) as F. cbn [String.eqb append String.length Z.of_nat] in F. rewrite sapp_nil_r in F.
    apply F; [rewrite Ed; discriminate|exact I|exact Eb]. }
  eapply lex_number_read; [exact R|now apply stop_no_E].
Qed.
Lemma itoa_exists : forall n, exists ts, soft (itoa n) ts.
Proof.
  intros n. unfold itoa. destruct (Z.ltb_spec n 0).
  - eexists. apply hard_soft_app; [apply mark_minus|apply digits_soft; lia].
  - eexists. now apply digits_soft.
Qed.

Definition number_tokens (x : num) : list token :=
  ((if n_neg x then [Mark "-"] else []) ++ [Number (text_g10 (n_mant x) (n_exp x))])%list.

Lemma read_decimal_digit : forall s m e t, read_decimal s = Some (m, e, t) -> exists a r d, s = String a r /\ digit_val a = Some d.
Proof.
  intros [|a s] m e t H; [discriminate|]. unfold read_decimal in H. cbn [span] in H.
  destruct (digit_val a) as [d|] eqn:D; [now exists a, s, d|]. discriminate.
Qed.

Lemma number_soft : forall x, (0 <= n_mant x)%Z -> soft (number_text x) (number_tokens x).
Proof.
  intros x H. unfold number_text, number_tokens.
  assert (T : soft (text_g10 (n_mant x) (n_exp x)) [Number (text_g10 (n_mant x) (n_exp x))]).
  { apply number_one.
    - intros b Sb. destruct (text_reads (n_mant x) (n_exp x) b H (stop_decimal b Sb)) as (m & e & q & k & R & _).
      eapply lex_number_read; [exact R|now apply stop_no_E].
    - destruct (text_reads (n_mant x) (n_exp x) "" H I) as (m & e & q & k & R & _). rewrite sapp_nil_r in R.
      eapply read_decimal_digit; eauto. }
  destruct (n_neg x); cbn [append app]; [|exact T].
  apply (hard_soft_app "-" [Mark "-"] _ _ mark_minus T).
Qed.

(** ** Lengths *)

Lemma dots_hard : hard ".." [Mark ".."].
Proof. intros b tb L. apply lx_tok with (r := b); [reflexivity|exact L]. Qed.
Lemma dots_strong : strong "..".
Proof. intros b. cbn [append stop]. split; [cbn; tauto|]. intros _. reflexivity. Qed.

Lemma length_exists : forall u lo hi, exists ts, soft (rel_length_text u lo hi) ts.
Proof.
  intros u lo hi. unfold rel_length_text. destruct u; [exists [Mark "*"]; apply hard_soft, mark_star|].
  assert (O : forall o : option Z, exists ts, soft (match o with Some m => itoa m | None => "" end) ts).
  { intros [m|]; [apply itoa_exists|exists []; apply hard_soft, hard_nil]. }
  destruct (O lo) as [t1 H1]. destruct (O hi) as [t2 H2].
  assert (G : exists ts, soft ("*" ++ (match lo with Some m => itoa m | None => "" end) ++ ".." ++ (match hi with Some m => itoa m | None => "" end)) ts).
  { eexists. apply hard_soft_app; [apply mark_star|]. apply soft_led_soft; [exact H1|right; apply strong_app, dots_strong|].
    apply hard_soft_app; [apply dots_hard|exact H2]. }
  destruct lo, hi; auto. exists []. apply hard_soft, hard_nil.
Qed.
Lemma length_led : forall u lo hi, led (rel_length_text u lo hi).
Proof.
  intros u lo hi. unfold rel_length_text. assert (S : forall s, strong (String "*" s)) by (intros; apply strong_by; [cbn; tauto|discriminate]).
  destruct u; [right; apply S|]. destruct lo, hi; try (right; apply S). now left.
Qed.

(** ** Properties *)

Lemma dot_hard : forall s ts, soft s ts -> (match s with "" => False | String a _ => digit_val a = None /\ a <> "."%char end) -> soft ("." ++ s) (Mark "." :: ts).
Proof.
  intros s ts H F b tb Sb L. cbn [append]. apply lx_tok with (r := s ++ b); [|now apply H].
  destruct s as [|a s]; [destruct F|]. destruct F as [D N]. cbn [append lex_one].
  assert (A : forall x, after_any space_encodings (String "." x) = None) by reflexivity. rewrite A.
  assert (Q : (Ascii.eqb "." "`" = false) /\ (Ascii.eqb "." "'" || Ascii.eqb "." (ascii_of_nat 34) = false)%bool) by (split; reflexivity).
  destruct Q as [-> ->].
  assert (M : lex_number (String "." (String a (s ++ b))) = None).
  { unfold lex_number. change (span (String "." (String a (s ++ b)))) with ("", String "." (String a (s ++ b))).
    cbn [fraction]. rewrite Ascii.eqb_refl. cbn [span]. rewrite D. reflexivity. }
  rewrite M. assert (C : forall x, after_any comments (String "." x) = None) by reflexivity. rewrite C.
  assert (K : after_any long_marks (String "." (String a (s ++ b))) = None).
  { cbn [after_any long_marks after]. rewrite Ascii.eqb_refl. destruct (Ascii.eqb_spec "." a) as [X|_]; [congruence|]. reflexivity. }
  rewrite K. reflexivity.
Qed.

Lemma name_first : forall n, n <> "" -> match escape_if_necessary E n with "" => False | String a _ => digit_val a = None /\ a <> "."%char end.
Proof.
  intros n H. unfold escape_if_necessary. destruct (blank n) eqn:B; cbn [orb].
  - unfold blank in B. apply String.eqb_eq in B. apply blank_iff in B. destruct n as [|a n]; [congruence|].
    apply all_space_wides in B. destruct B as [W _]. split; [now apply wide_digit|].
    intros ->. unfold wide in W. cbn in W. lia.
  - destruct (is_identifier E n) eqn:Id; [|split; [reflexivity|discriminate]]. destruct n as [|a n]; [congruence|].
    unfold is_identifier, runes in Id. cbn [runes_from] in Id. destruct (decode a n) as [c w] eqn:D. apply andb_true_iff in Id. destruct Id as [Id _].
    rewrite ident_first_startb in Id. assert (St : id_startb E (fst (decode a n)) = true) by (rewrite D; exact Id).
    split; [eapply start_no_digit; eauto|]. apply (start_not a n "." St); reflexivity.
Qed.

Lemma lookup_exists : forall n, n <> "" -> exists ts, soft (lookup_text E n) ts.
Proof.
  intros n H. unfold lookup_text. destruct (String.eqb_spec n "*") as [->|N].
  - eexists. apply dot_hard; [apply hard_soft, mark_star|]. split; [reflexivity|discriminate].
  - eexists. apply dot_hard; [apply name_soft|]. now apply name_first.
Qed.
Lemma lookup_strong : forall n, n <> "" -> strong (lookup_text E n).
Proof.
  intros n H b. unfold lookup_text. cbn [append stop]. split; [cbn; tauto|]. intros _.
  destruct (String.eqb_spec n "*") as [->|N]; [reflexivity|]. pose proof (name_first n H) as F.
  destruct (escape_if_necessary E n); [destruct F|]. cbn [append]. apply F.
Qed.

(** ** Arrows *)

Lemma arrow_soft : soft "->" [Mark "-"; Mark ">"].
Proof.
  apply (hard_soft_app "-" [Mark "-"] ">" [Mark ">"] mark_minus).
  intros b tb Sb L. cbn [append]. apply lx_tok with (r := b); [|exact L].
  destruct b as [|a b]; [reflexivity|]. cbn in Sb. destruct Sb as [H _].
  repeat (destruct H as [<-|H]; [reflexivity|]). destruct H.
Qed.

End Env.
