(** The tokens of names with dots. *)

From Coq Require Import Ascii String List ZArith Bool Lia.
From Verif Require Import GoStr Escape Num SpecLex SpecNum SpecSpace SpecTokens EscapeProofs GoStrProofs NumRead TokenProofs TokenTexts SpecShape SpecGrammar Ast SpecReading.
Import ListNotations.
Open Scope string_scope.
Section Env.
Context (E : env) (NS : no_space_in_names E).
Lemma identifier_start : forall n b, is_identifier E n = true -> exists a r, n ++ b = String a r /\ id_startb E (fst (decode a r)) = true.
Proof.
  intros [|a n] b H; [discriminate|]. exists a, (n ++ b). split; [reflexivity|].
  unfold is_identifier, runes in H. cbn [runes_from] in H. destruct (decode a n) as [c w] eqn:D. apply andb_true_iff in H. destruct H as [H _].
  rewrite ident_first_startb in H. pose proof (startb_partb _ _ H) as P.
  destruct (decode_ext a n b c w D (partb_not_error _ _ P)) as [-> _]. exact H.
Qed.
Lemma dot_step : forall a r, id_startb E (fst (decode a r)) = true -> lex_one E (String "." (String a r)) = Some ([Mark "."], String a r).
Proof.
  intros a r H. pose proof (start_no_digit E a r H) as D. pose proof (start_not E a r "."%char H eq_refl eq_refl) as N.
  assert (M : Ascii.eqb "." a = false) by (apply Ascii.eqb_neq; congruence).
  cbn [lex_one]. assert (S : after_any space_encodings (String "." (String a r)) = None) by reflexivity. rewrite S. clear S.
  change (Ascii.eqb "." "`") with false. cbv iota. change (Ascii.eqb "." "'" || Ascii.eqb "." (ascii_of_nat 34))%bool with false. cbv iota.
  assert (F : lex_number (String "." (String a r)) = None).
  { unfold lex_number. cbn [span]. change (digit_val ".") with (@None Z). cbn [fraction]. change (Ascii.eqb "." ".") with true. cbv iota.
    cbn [span]. rewrite D. reflexivity. }
  rewrite F. assert (C : after_any comments (String "." (String a r)) = None) by reflexivity. rewrite C.
  assert (LM : after_any long_marks (String "." (String a r)) = None).
  { cbn [after_any long_marks after]. rewrite M. reflexivity. }
  rewrite LM. reflexivity.
Qed.

Lemma dotted_soft : forall n l, is_identifier E n = true -> Forall (fun x => is_identifier E x = true) l ->
  soft E (String.concat "." (n :: l)) (spelling (n :: l)).
Proof.
  intros n l. revert n. induction l as [|m l IH]; intros n H F.
  - cbn. apply (word_soft E NS n H).
  - inversion F as [|? ? Hm Fl]; subst. specialize (IH m Hm Fl).
    change (String.concat "." (n :: m :: l)) with (n ++ "." ++ String.concat "." (m :: l)).
    change (spelling (n :: m :: l)) with (Word n :: Mark "." :: spelling (m :: l)).
    intros b tb Sb L. specialize (IH b tb Sb L). rewrite !sapp_assoc.
    destruct (identifier_start m (match l with [] => "" | _ => "." ++ String.concat "." l end ++ b) Hm) as (a & r & Er & St).
    assert (Eq : String.concat "." (m :: l) ++ b = String a r).
    { rewrite <- Er. destruct l; [reflexivity|]. cbn [String.concat]. now rewrite !sapp_assoc. }
    apply (word_soft E NS n H); [|].
    + rewrite Eq. cbn. split; [tauto|]. intros _. exact (start_no_digit E a r St).
    + rewrite Eq in *. apply lx_tok with (r := String a r); [now apply dot_step|exact IH].
Qed.
Lemma dotted_name : forall n l, is_identifier E n = true -> Forall (fun x => is_identifier E x = true) l ->
  self_contained E (String.concat "." (n :: l)) /\ procedure E (n :: l) None (String.concat "." (n :: l)).
Proof.
  intros n l H F. pose proof (dotted_soft n l H F) as D. split; [apply contained_soft; eauto|].
  split; [discriminate|]. exists [], (spelling (n :: l)). split; [reflexivity|]. split; [now apply soft_tokens|reflexivity].
Qed.
End Env.
