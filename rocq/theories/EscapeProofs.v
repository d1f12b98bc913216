(** Proofs about escaping: every escaped name or literal is read back by the
    lexers of SpecLex.v. *)

From Coq Require Import Ascii String List ZArith Bool Lia.
From Verif Require Import GoStr Escape SpecLex.
Import ListNotations.
Open Scope string_scope.

Lemma sapp_assoc : forall a b c : string, (a ++ b) ++ c = a ++ (b ++ c).
Proof. induction a; simpl; intros; [reflexivity | now rewrite IHa]. Qed.

Lemma sapp_nil_r : forall a : string, a ++ "" = a.
Proof. induction a; simpl; [reflexivity | now rewrite IHa]. Qed.

Lemma slen_app : forall a b, String.length (a ++ b) = String.length a + String.length b.
Proof. induction a; simpl; intros; [reflexivity | now rewrite IHa]. Qed.

(** ** Quoted names *)

Lemma lex_quoted_tick2 : forall r, lex_quoted (String "`" (String "`" r)) =
  match lex_quoted r with Some (n, t) => Some (String "`" n, t) | None => None end.
Proof. reflexivity. Qed.

Lemma lex_quoted_other : forall a r, a <> backtick -> lex_quoted (String a r) =
  match lex_quoted r with Some (n, t) => Some (String a n, t) | None => None end.
Proof.
  intros a r H. cbn [lex_quoted]. unfold backtick in H.
  destruct (Ascii.eqb_spec a "`"); [contradiction|reflexivity].
Qed.

Lemma lex_quoted_escape : forall n t, no_tick t ->
  lex_quoted (replace_all backtick "``" n ++ "`" ++ t) = Some (n, t).
Proof.
  induction n as [|a n IH]; intros t Ht.
  - simpl. destruct t as [|b t']; [reflexivity|].
    simpl in Ht. destruct (Ascii.eqb_spec b "`"); [contradiction|reflexivity].
  - cbn [replace_all]. destruct (Ascii.eqb_spec a backtick) as [->|Hne].
    + rewrite sapp_assoc. change ("``" ++ (replace_all backtick "``" n ++ "`" ++ t))
        with (String "`" (String "`" (replace_all backtick "``" n ++ "`" ++ t))).
      rewrite lex_quoted_tick2, IH by assumption. reflexivity.
    + change (String a (replace_all backtick "``" n) ++ "`" ++ t)
        with (String a (replace_all backtick "``" n ++ "`" ++ t)).
      rewrite lex_quoted_other by assumption. rewrite IH by assumption. reflexivity.
Qed.

Lemma lex_ident_escape_name : forall E n t, no_tick t ->
  lex_ident E (escape_name n ++ t) = Some (n, t).
Proof.
  intros. unfold escape_name. rewrite !sapp_assoc. cbn [append lex_ident].
  rewrite Ascii.eqb_refl. apply (lex_quoted_escape n t H).
Qed.

(** ** Unquoted names *)

(** A rune other than U+FFFD lies within the string and does not depend on
    what follows. *)
Lemma decode_ext : forall a r t c w, decode a r = (c, w) -> c <> runeError ->
  decode a (r ++ t) = (c, w) /\ (pred w <= String.length r)%nat.
Proof.
  intros a r t c w H Hc. unfold decode in *.
  destruct (N.ltb (byte a) 128). { inversion H; subst; split; [reflexivity | simpl; lia]. }
  destruct (in_range 194 (byte a) 223).
  { destruct r as [|b r]; [inversion H; subst; congruence|]. cbn [append].
    destruct (in_range 128 (byte b) 191); inversion H; subst; try congruence.
    split; [reflexivity | simpl; lia]. }
  destruct (in_range 224 (byte a) 239).
  { destruct r as [|b [|d r]]; try (inversion H; subst; congruence). cbn [append].
    match goal with |- context [if ?b then _ else _] => destruct b end;
      try (inversion H; subst; congruence).
    all: inversion H; subst; split; [reflexivity | simpl; lia]. }
  destruct (in_range 240 (byte a) 244).
  { destruct r as [|b [|d [|e r]]]; try (inversion H; subst; congruence). cbn [append].
    match type of H with context [if (?b && _)%bool then _ else _] => idtac end.
    revert H. match goal with |- context [if ?b then (_, 4) else _] => destruct b end;
      intros H; inversion H; subst; try congruence.
    split; [reflexivity | simpl; lia]. }
  inversion H; subst; congruence.
Qed.

Lemma decode_width_pos : forall a r c w, decode a r = (c, w) -> (1 <= w)%nat.
Proof.
  intros a r c w H. unfold decode in H.
  repeat match type of H with
  | context [if ?b then _ else _] => destruct b
  | context [match ?x with EmptyString => _ | String _ _ => _ end] => destruct x
  end; inversion H; subst; lia.
Qed.

Lemma not_part_error : forall E, id_partb E runeError = false.
Proof. intros. unfold id_partb, id_startb, is_letter, is_digit. reflexivity. Qed.

Lemma partb_not_error : forall E c, id_partb E c = true -> c <> runeError.
Proof. intros E c H ->. rewrite not_part_error in H. discriminate. Qed.

Lemma startb_partb : forall E c, id_startb E c = true -> id_partb E c = true.
Proof. intros E c H. unfold id_partb. now rewrite H. Qed.

Lemma ident_first_startb : forall E c, ident_first E c = id_startb E c.
Proof. reflexivity. Qed.

Lemma ident_next_partb : forall E c, ident_next E c = id_partb E c.
Proof. reflexivity. Qed.

Lemma id_partb_spec : forall E c, id_partb E c = true <-> id_part E c.
Proof.
  intros. unfold id_partb, id_startb, id_part, id_start.
  rewrite !orb_true_iff, N.eqb_eq. tauto.
Qed.

(** [id_span] reads all identifier runes of [n] and then stops at [t]. *)
Lemma id_span_app : forall E n skip t first,
  (skip <= String.length n)%nat ->
  (match runes_from n skip with
   | [] => first = false \/ n = ""
   | c :: l => (if first then id_startb E c else id_partb E c) = true
               /\ forallb (id_partb E) l = true
   end) ->
  (runes_from n skip = [] -> first = false) ->
  (match t with EmptyString => True | String a r => id_partb E (fst (decode a r)) = false end) ->
  id_span E first (n ++ t) skip = (n, t).
Proof.
  intros E n. induction n as [|a n IH]; intros skip t first Hs Hr Hf Ht.
  - simpl in Hs. assert (skip = 0) by lia. subst. simpl.
    destruct t as [|b t']; [reflexivity|]. cbn [id_span].
    rewrite (Hf eq_refl). destruct (decode b t') as [c w]. simpl in Ht. now rewrite Ht.
  - destruct skip as [|k].
    + cbn [runes_from append id_span] in *.
      destruct (decode a n) as [c w] eqn:D.
      destruct Hr as [H1 H2].
      assert (Hp : id_partb E c = true).
      { destruct first; [apply startb_partb|]; assumption. }
      destruct (decode_ext a n t c w D (partb_not_error _ _ Hp)) as [D' Hw].
      rewrite D'. rewrite H1. rewrite IH; auto.
      destruct (runes_from n (pred w)); [left; reflexivity|].
      simpl in H2. apply andb_true_iff in H2. exact H2.
    + cbn [runes_from append id_span] in *. simpl in Hs.
      rewrite IH; auto; try lia.
      destruct (runes_from n k); [left; apply Hf; reflexivity | exact Hr].
Qed.

Lemma ends_ident_partb : forall E t, ends_ident E t ->
  match t with EmptyString => True | String a r => id_partb E (fst (decode a r)) = false end.
Proof.
  intros E [|a r] H; [exact I|]. simpl in *. destruct H as [_ H].
  destruct (id_partb E (fst (decode a r))) eqn:P; [|reflexivity].
  exfalso. apply H. now apply id_partb_spec.
Qed.

Lemma ends_ident_no_tick : forall E t, ends_ident E t -> no_tick t.
Proof. intros E [|a r]; simpl; tauto. Qed.

Lemma lex_ident_plain : forall E n t,
  is_identifier E n = true -> ends_ident E t -> lex_ident E (n ++ t) = Some (n, t).
Proof.
  intros E n t Hn Ht. unfold is_identifier in Hn.
  destruct n as [|a n]; [discriminate|].
  assert (Hspan : id_span E true (String a n ++ t) 0 = (String a n, t)).
  { apply id_span_app.
    - simpl; lia.
    - unfold runes in Hn. destruct (runes_from (String a n) 0); [discriminate|].
      apply andb_true_iff in Hn. exact Hn.
    - unfold runes in Hn. intros Hnil. rewrite Hnil in Hn. discriminate.
    - now apply ends_ident_partb. }
  cbn [append lex_ident] in *.
  destruct (Ascii.eqb_spec a "`") as [->|Hne].
  - exfalso. unfold runes in Hn. cbn [runes_from] in Hn.
    assert (decode "`" n = (96%N, 1)) as D by reflexivity.
    rewrite D in Hn. apply andb_true_iff in Hn. destruct Hn as [Hn _].
    cbv in Hn. discriminate.
  - rewrite Hspan. reflexivity.
Qed.

Theorem escape_if_necessary_lex : forall E n t,
  trim_space n <> "" -> ends_ident E t ->
  lex_ident E (escape_if_necessary E n ++ t) = Some (n, t).
Proof.
  intros E n t Hb Ht. unfold escape_if_necessary, blank.
  destruct (String.eqb_spec (trim_space n) ""); [contradiction|]. simpl.
  destruct (is_identifier E n) eqn:I.
  - now apply lex_ident_plain.
  - apply lex_ident_escape_name. eapply ends_ident_no_tick; eauto.
Qed.

(** ** Labels and types *)

Theorem label_lex : forall E v t, v <> "" -> no_tick t ->
  lex_label E (label_text v ++ t) = Some (v, t).
Proof.
  intros E v t Hv Ht. unfold label_text.
  destruct (String.eqb_spec v ""); [contradiction|].
  rewrite sapp_assoc. cbn [append lex_label]. rewrite Ascii.eqb_refl.
  now apply lex_ident_escape_name.
Qed.

Lemma join_cons2 : forall sep x y l, join sep (x :: y :: l) = x ++ sep ++ join sep (y :: l).
Proof. reflexivity. Qed.

Lemma lex_bars_join : forall E vs t fuel,
  vs <> [] -> no_tick t -> no_bar t -> (length vs <= fuel)%nat ->
  lex_bars E fuel (join "|" (map escape_name vs) ++ t) = Some (vs, t).
Proof.
  intros E vs. induction vs as [|v vs IH]; intros t fuel Hne Ht Hb Hf; [congruence|].
  destruct fuel as [|f]; [simpl in Hf; lia|]. simpl in Hf.
  destruct vs as [|v2 vs].
  - cbn [map join lex_bars]. rewrite lex_ident_escape_name by assumption.
    destruct t as [|a r]; [reflexivity|]. simpl in Hb.
    destruct (Ascii.eqb_spec a "|"); [contradiction|reflexivity].
  - cbn [map]. rewrite join_cons2. rewrite !sapp_assoc.
    cbn [lex_bars]. rewrite lex_ident_escape_name by (simpl; discriminate).
    cbn [append]. rewrite Ascii.eqb_refl.
    change (escape_name v2 :: map escape_name vs) with (map escape_name (v2 :: vs)).
    rewrite IH; auto; [discriminate | simpl in *; lia].
Qed.

Lemma escape_name_len : forall n, (1 <= String.length (escape_name n))%nat.
Proof. intros. unfold escape_name. simpl. lia. Qed.

Lemma join_len : forall vs, (length vs <= String.length (join "|" (map escape_name vs)))%nat.
Proof.
  induction vs as [|v vs IH]; [simpl; lia|].
  destruct vs as [|v2 vs].
  - cbn [map join]. pose proof (escape_name_len v). simpl length. lia.
  - cbn [map]. rewrite join_cons2. rewrite !slen_app.
    pose proof (escape_name_len v). cbn [map] in IH. simpl length in *. lia.
Qed.

Theorem types_lex : forall E vs t,
  filter (fun v => negb (String.eqb v "")) vs <> [] -> no_tick t -> no_bar t ->
  lex_types E (rel_types_text vs ++ t)
  = Some (filter (fun v => negb (String.eqb v "")) vs, t).
Proof.
  intros E vs t Hne Ht Hb. unfold rel_types_text.
  destruct vs as [|v0 vs0]; [simpl in Hne; congruence|].
  set (fs := filter _ _) in *.
  rewrite sapp_assoc. cbn [append lex_types]. rewrite Ascii.eqb_refl.
  apply lex_bars_join; auto. rewrite slen_app.
  pose proof (join_len fs). lia.
Qed.

(** ** String literals *)

Theorem string_literal_lex : forall s t,
  lex_string (string_literal s ++ t) = Some (s, t).
Proof.
  intros s t. unfold string_literal. rewrite !sapp_assoc. cbn [append lex_string].
  rewrite Ascii.eqb_refl. induction s as [|a s IH].
  - reflexivity.
  - cbn [escape_string]. unfold backslash, quote, dquote.
    destruct (Ascii.eqb_spec a "\") as [->|H1].
    { cbn [orb append lex_string_body]. simpl (Ascii.eqb "\" "'").
      simpl (Ascii.eqb "\" "\"). cbn [unescape]. rewrite IH. reflexivity. }
    destruct (Ascii.eqb_spec a "'") as [->|H2].
    { cbn [orb append lex_string_body]. simpl (Ascii.eqb "\" "'").
      simpl (Ascii.eqb "\" "\"). rewrite IH. reflexivity. }
    destruct (Ascii.eqb_spec a (ascii_of_nat 34)) as [->|H3].
    { cbn [orb append lex_string_body]. simpl (Ascii.eqb "\" "'").
      simpl (Ascii.eqb "\" "\"). rewrite IH. reflexivity. }
    cbn [orb append lex_string_body].
    destruct (Ascii.eqb_spec a "'"); [contradiction|].
    destruct (Ascii.eqb_spec a "\"); [contradiction|].
    rewrite IH. reflexivity.
Qed.

Theorem string_literal_injective : forall s1 s2,
  string_literal s1 = string_literal s2 -> s1 = s2.
Proof.
  intros s1 s2 H.
  pose proof (string_literal_lex s1 "") as H1.
  pose proof (string_literal_lex s2 "") as H2.
  rewrite H in H1. rewrite H1 in H2. now inversion H2.
Qed.

(** ** Parameters *)

Theorem param_name_spec : forall name,
  (exists k, name = dollars k /\ param_name name = None)
  \/ (exists k rest, name = dollars k ++ rest /\ rest <> ""
      /\ (forall r, rest <> String "$" r)
      /\ param_name name = Some rest).
Proof.
  induction name as [|a r IH].
  - left. exists 0. split; reflexivity.
  - cbn [param_name]. destruct (Ascii.eqb_spec a "$") as [->|Hne].
    + destruct IH as [[k [H1 H2]]|[k [rest [H1 [H2 [H3 H4]]]]]].
      * left. exists (S k). split; [simpl; now rewrite H1 | exact H2].
      * right. exists (S k), rest. repeat split; auto. simpl. now rewrite H1.
    + right. exists 0, (String a r). repeat split; try discriminate.
      intros r0 H0. inversion H0. contradiction.
Qed.

(** ** Plain identifiers *)

Lemma is_identifier_iff : forall E n, is_identifier E n = true <-> plain_ident E n.
Proof.
  intros E n. unfold is_identifier, plain_ident. destruct (runes n) as [|c l]; [split; [discriminate|tauto]|].
  rewrite andb_true_iff, forallb_forall, Forall_forall. 
  assert (A : ident_first E c = true <-> id_start E c).
  { unfold ident_first, id_start. rewrite orb_true_iff, N.eqb_eq. tauto. }
  rewrite A. split; intros [H1 H2]; split; auto; intros x Hx.
  - apply id_partb_spec. rewrite <- ident_next_partb. auto.
  - rewrite ident_next_partb. apply id_partb_spec. auto.
Qed.

Theorem plain_lex : forall E n t, plain_ident E n -> ends_ident E t -> lex_ident E (n ++ t) = Some (n, t).
Proof. intros E n t H. apply lex_ident_plain. now apply is_identifier_iff. Qed.
