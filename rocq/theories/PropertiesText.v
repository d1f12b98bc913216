(** Headline theorems about the text of names, literals, numbers and
    parameters: C10-C15, C33, C34. *)

From Coq Require Import Ascii String List ZArith Bool Lia.
From Verif Require Import GoStr Escape Num SpecLex SpecSpace EscapeProofs GoStrProofs NumProofs.
Import ListNotations.
Open Scope string_scope.

(** An environment for the concrete cases. *)
Definition env0 : env := Env (fun _ => false) (fun _ => false) "guid" (fun _ => "op") "dots".

(** ** C10 *)

(** Trimming removes white space at both ends and nothing else. *)
Theorem C10_trim_exact : forall s, exists p q,
  all_space p /\ all_space q /\ s = p ++ trim_space s ++ q
  /\ ~ starts_with_space (trim_space s) /\ ~ ends_with_space (trim_space s).
Proof. exact trim_space_spec. Qed.
Print Assumptions C10_trim_exact.

Theorem C10_trim_idempotent : forall s, trim_space (trim_space s) = trim_space s.
Proof. exact trim_space_idem. Qed.
Print Assumptions C10_trim_idempotent.

Example C10_case : trim_space "  MATCH (n) " = "MATCH (n)".
Proof. reflexivity. Qed.

(** ** C11 *)

Theorem C11_name_denotes_itself : forall E n t,
  ~ all_space n -> ends_ident E t ->
  lex_ident E (escape_if_necessary E n ++ t) = Some (n, t).
Proof.
  intros E n t H. apply escape_if_necessary_lex. intros B. apply H. now apply blank_iff.
Qed.
Print Assumptions C11_name_denotes_itself.

Theorem C11_variable : forall E n t,
  ~ all_space n -> ends_ident E t -> lex_ident E (resolve E n ++ t) = Some (n, t).
Proof.
  intros E n t H Ht. unfold resolve. destruct (String.eqb_spec n "") as [->|].
  - exfalso. apply H. constructor.
  - now apply C11_name_denotes_itself.
Qed.
Print Assumptions C11_variable.

Theorem C11_property_key : forall E n t,
  ~ all_space n -> n <> "*" -> ends_ident E t ->
  exists r, lookup_text E n ++ t = "." ++ r /\ lex_ident E r = Some (n, t).
Proof.
  intros E n t H Hs Ht. exists (escape_if_necessary E n ++ t). split.
  - unfold lookup_text. destruct (String.eqb_spec n "*"); [contradiction|]. now rewrite sapp_assoc.
  - now apply C11_name_denotes_itself.
Qed.
Print Assumptions C11_property_key.

(** The excluded names are rendered as they are, which is not an identifier. *)
Theorem C11_blank_name_refuted : forall E, exists n t,
  all_space n /\ n <> "" /\ ends_ident E t
  /\ lex_ident E (escape_if_necessary E n ++ t) = None.
Proof.
  intros E. exists " ", ")". split; [|split; [discriminate|split]].
  - change " " with (" " ++ ""). constructor; [simpl; tauto|constructor].
  - split; [discriminate|]. vm_compute. intros [[H|H]|H]; discriminate.
  - reflexivity.
Qed.
Print Assumptions C11_blank_name_refuted.

Example C11_case_plain : escape_if_necessary env0 "name_1" = "name_1".
Proof. reflexivity. Qed.
Example C11_case_quoted : escape_if_necessary env0 "a`) DETACH DELETE (n" = "`a``) DETACH DELETE (n`".
Proof. reflexivity. Qed.
Lemma not_blank_by : forall s, trim_space s <> "" -> ~ all_space s.
Proof. intros s H B. apply H. now apply blank_iff. Qed.
Example C11_case_hyps : ~ all_space "a`) x" /\ ends_ident env0 ") RETURN 1".
Proof.
  split; [apply not_blank_by; vm_compute; discriminate|].
  split; [discriminate|]. vm_compute. intros [[H|H]|H]; discriminate.
Qed.

(** ** C12 *)

Theorem C12_label : forall E v t, v <> "" -> no_tick t ->
  lex_label E (label_text v ++ t) = Some (v, t).
Proof. exact label_lex. Qed.
Print Assumptions C12_label.

Theorem C12_types : forall E vs t,
  filter (fun v => negb (String.eqb v "")) vs <> [] -> no_tick t -> no_bar t ->
  lex_types E (rel_types_text vs ++ t)
  = Some (filter (fun v => negb (String.eqb v "")) vs, t).
Proof. exact types_lex. Qed.
Print Assumptions C12_types.

Example C12_case : rel_types_text ["A"; ""; "B`|:C"] = ":`A`|`B``|:C`".
Proof. reflexivity. Qed.
Example C12_case_label : label_text "My `Label`" = ":`My ``Label```".
Proof. reflexivity. Qed.

(** ** C13 *)

Theorem C13_string_literal : forall s t, lex_string (string_literal s ++ t) = Some (s, t).
Proof. exact string_literal_lex. Qed.
Print Assumptions C13_string_literal.

Theorem C13_string_literal_injective : forall s1 s2,
  string_literal s1 = string_literal s2 -> s1 = s2.
Proof. exact string_literal_injective. Qed.
Print Assumptions C13_string_literal_injective.

(** Neither kind of quote ends the literal early: every one between the outer
    quotes is escaped. *)
Theorem C13_quotes_escaped : forall s, exists body, string_literal s = "'" ++ body ++ "'"
  /\ bare quote body = false /\ bare dquote body = false.
Proof.
  intros s. exists (escape_string s). split; [reflexivity|].
  induction s as [|a s [IH1 IH2]]; [split; reflexivity|].
  cbn [escape_string]. unfold backslash, quote, dquote in *.
  destruct (Ascii.eqb_spec a "\") as [->|H1]; [split; assumption|].
  destruct (Ascii.eqb_spec a "'") as [->|H2]; [split; assumption|].
  destruct (Ascii.eqb_spec a (ascii_of_nat 34)) as [->|H3]; [split; assumption|].
  cbn [orb bare]. destruct (Ascii.eqb_spec a "\"); [contradiction|].
  destruct (Ascii.eqb_spec a "'"); [contradiction|].
  destruct (Ascii.eqb_spec a (ascii_of_nat 34)); [contradiction|]. split; assumption.
Qed.
Print Assumptions C13_quotes_escaped.

Example C13_case : string_literal "it's a \ ""x""" = "'it\'s a \\ \""x\""'".
Proof. reflexivity. Qed.

(** ** C14 *)

(** Names that need no quoting are safe where they are printed raw: behind '$',
    behind UNWIND ... AS and for a repeated node. *)
Theorem C14_plain_names_partial : forall E n t, plain_ident E n -> ends_ident E t ->
  lex_ident E (n ++ t) = Some (n, t) /\ lex_param E (param_text n ++ t) = Some (n, t).
Proof.
  intros E n t Hn Ht. split; [now apply plain_lex|].
  unfold param_text. rewrite sapp_assoc. cbn [append lex_param]. rewrite Ascii.eqb_refl.
  now apply plain_lex.
Qed.
Print Assumptions C14_plain_names_partial.

(** A parameter name is printed raw: it can end the token and carry on with
    syntax of its own. *)
Theorem C14_parameter_injection_refuted : forall E, exists name stored,
  param_name name = Some stored
  /\ lex_param E (param_text stored) = Some ("x", "}) DETACH DELETE (n").
Proof. intros E. exists "x}) DETACH DELETE (n", "x}) DETACH DELETE (n". split; reflexivity. Qed.
Print Assumptions C14_parameter_injection_refuted.

Example C14_case : plain_ident env0 "limit_1" /\ ends_ident env0 ", x".
Proof.
  split.
  - apply is_identifier_iff. reflexivity.
  - split; [discriminate|]. vm_compute. intros [[H|H]|H]; discriminate.
Qed.

(** ** C15 *)

(** Integers of at most ten digits keep their value.  Missing: the rest of the
    int64 range, for which the claim is false. *)
Theorem C15_integer_value_partial : forall z t,
  (Z.abs z < 10 ^ 10)%Z -> ends_number t ->
  lex_int (number_text (num_of_Z z) ++ t) = Some (z, t).
Proof. intros z t H Ht. rewrite number_text_small by assumption. now apply itoa_lex. Qed.
Print Assumptions C15_integer_value_partial.

Theorem C15_integer_injective_partial : forall x y,
  (Z.abs x < 10 ^ 10)%Z -> (Z.abs y < 10 ^ 10)%Z ->
  number_text (num_of_Z x) = number_text (num_of_Z y) -> x = y.
Proof. exact number_text_injective. Qed.
Print Assumptions C15_integer_injective_partial.

(** No integer of more than ten digits is rendered as an integer numeral. *)
Theorem C15_large_integers_refuted : forall z, (10 ^ 10 <= Z.abs z)%Z ->
  forall v rest, lex_int (number_text (num_of_Z z)) = Some (v, rest) -> rest <> "".
Proof. exact number_text_large. Qed.
Print Assumptions C15_large_integers_refuted.

Theorem C15_injective_refuted : exists x y,
  (- 2 ^ 63 <= x < 2 ^ 63)%Z /\ (- 2 ^ 63 <= y < 2 ^ 63)%Z /\ x <> y
  /\ number_text (num_of_Z x) = number_text (num_of_Z y).
Proof. exists 12345678901%Z, 12345678904%Z. repeat split; try reflexivity; discriminate. Qed.
Print Assumptions C15_injective_refuted.

Example C15_case : number_text (num_of_Z (-1234567890)) = "-1234567890".
Proof. reflexivity. Qed.
Example C15_case_large : number_text (num_of_Z 9223372036854775807) = "9.223372037e+18".
Proof. reflexivity. Qed.

(** ** C33 *)

Theorem C33_length_denotes_bounds : forall u lo hi v t,
  len_value u lo hi = Some v -> ends_length t ->
  lex_length (rel_length_text u lo hi ++ t) = Some (v, t).
Proof. exact rel_length_lex. Qed.
Print Assumptions C33_length_denotes_bounds.

Example C33_case : rel_length_text false (Some 2%Z) (Some 15%Z) = "*2..15".
Proof. reflexivity. Qed.
Example C33_case_hyps : len_value false None (Some 3%Z) = Some (Between None (Some 3%Z))
  /\ ends_length "]->(n)".
Proof. split; [reflexivity|]. repeat split; discriminate. Qed.

(** ** C34 *)

Theorem C34_parameter_name : forall name,
  (exists k, name = dollars k /\ param_name name = None)
  \/ (exists k rest, name = dollars k ++ rest /\ rest <> ""
      /\ (forall r, rest <> String "$" r)
      /\ param_name name = Some rest).
Proof. exact param_name_spec. Qed.
Print Assumptions C34_parameter_name.

Example C34_case : param_name "$$taxRate" = Some "taxRate" /\ param_name "$$" = None
  /\ param_text "taxRate" = "$taxRate".
Proof. repeat split. Qed.
