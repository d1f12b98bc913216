(** Headline theorems: C59. *)

From Coq Require Import Ascii String List ZArith Bool Lia.
From Verif Require Import GoStr Escape Num VTree WellKeyed SpecLex SpecNum SpecSpace SpecTokens EscapeProofs GoStrProofs Ast SpecDoc
  SpecPrint SpecShape TokenProofs TokenTexts TokenDocs TokenPrint VTreeProofs Alloc AllocProofs RenderProofs PrintProofs
  PropertiesText PropertiesRender PropertiesBrackets.
Import ListNotations.
Open Scope string_scope.

(** ** The texts that are made of what the caller gives *)

(** A name is one token that denotes it; a blank one is no token. *)
Theorem C59_name : forall E n b tb, no_space_in_names E -> stop b -> tokens E b = Some tb ->
  tokens E (escape_if_necessary E n ++ b) =
    Some ((if blank n then [] else if is_identifier E n then [Word n] else [Name n]) ++ tb)%list.
Proof. intros E n b tb NS S L. apply Lexes_tokens. now apply (name_soft E NS n); [|apply tokens_Lexes]. Qed.
Print Assumptions C59_name.

(** A string literal is one token that denotes the string, whatever follows. *)
Theorem C59_string_literal : forall E s b tb, tokens E b = Some tb ->
  tokens E (string_literal s ++ b) = Some (Literal s :: tb).
Proof. intros E s b tb L. apply Lexes_tokens. apply (literal_hard E s). now apply tokens_Lexes. Qed.
Print Assumptions C59_string_literal.

(** A label is a colon and one token that denotes it. *)
Theorem C59_label : forall E v b tb, v <> "" -> stop b -> tokens E b = Some tb ->
  tokens E (label_text v ++ b) = Some (Mark ":" :: Name v :: tb).
Proof. intros E v b tb H S L. apply Lexes_tokens. now apply (label_soft E v H); [|apply tokens_Lexes]. Qed.
Print Assumptions C59_label.

(** A number is one token, behind its sign. *)
Theorem C59_number : forall E x b tb, (0 <= n_mant x)%Z -> stop b -> tokens E b = Some tb ->
  exists d, tokens E (number_text x ++ b) = Some ((if n_neg x then [Mark "-"] else []) ++ Number d :: tb)%list.
Proof.
  intros E x b tb H S L. exists (text_g10 (n_mant x) (n_exp x)). apply Lexes_tokens.
  replace ((if n_neg x then [Mark "-"] else []) ++ Number (text_g10 (n_mant x) (n_exp x)) :: tb)%list
    with (number_tokens x ++ tb)%list by (unfold number_tokens; now rewrite <- app_assoc).
  now apply (number_soft E x H); [|apply tokens_Lexes].
Qed.
Print Assumptions C59_number.

Example C59_texts_case :
  tokens env0 (escape_if_necessary env0 "n`) //" ++ " = 1") = Some [Name "n`) //"; Mark "="; Number "1"]
  /\ tokens env0 (string_literal "' OR 1=1 //" ++ "x") = Some [Literal "' OR 1=1 //"; Word "x"]
  /\ tokens env0 (label_text "A`:B" ++ ")") = Some [Mark ":"; Name "A`:B"; Mark ")"]
  /\ stop " = 1" /\ stop ")".
Proof. repeat split; try (vm_compute; reflexivity); try (cbn; tauto); intros X; discriminate X. Qed.

(** ** Statements *)

(** The tokens of a statement's text are those of its pieces, each lexed by
    itself: no piece runs into the next one, ends a token of another piece, or
    starts a comment. *)
Theorem C59_statement_tokens_partial : forall E K q,
  no_space_in_names E -> self_contained E (e_guid E) -> shared_parts E K -> shaped_q E K q ->
  exists ts, tokens_each E (fst (pieces (print_query E q) nothing_written)) = Some ts
             /\ tokens E (statement_text E q) = Some ts.
Proof.
  intros E K q NS G S H. unfold statement_text. destruct (print_query_fits E NS G K S q H) as [F _]. exact (fits_tokens E NS K _ _ _ F).
Qed.
Print Assumptions C59_statement_tokens_partial.

(** What the pieces are. *)
Theorem C59_pieces_are_the_text : forall E q,
  statement_text E q = trim_space (glue (fst (pieces (print_query E q) nothing_written))).
Proof.
  intros E q. unfold statement_text, text. now destruct (pieces_write (print_query E q) nothing_written) as [<- _].
Qed.
Print Assumptions C59_pieces_are_the_text.

(** The same of the text the renderer writes. *)
Theorem C59_rendered_tokens_partial : forall (err : Type) E K q,
  no_space_in_names E -> self_contained E (e_guid E) -> shared_parts E K -> shaped_q E K q ->
  well_keyed (to_vtq E q) = true -> well_quiet (to_vtq E q) = true ->
  exists ts, tokens_each E (fst (pieces (print_query E q) nothing_written)) = Some ts
             /\ tokens E (fst (fst (render (err:=err) (SOk (to_vtq E q)) new_renderer))) = Some ts.
Proof.
  intros err E K q NS G S H W Q. rewrite (C01_rendering_prints_the_statement_partial err E q W Q). cbn [fst].
  now apply (C59_statement_tokens_partial E K).
Qed.
Print Assumptions C59_rendered_tokens_partial.

Theorem C59_built_statements_partial : forall (err : Type) E K q hp,
  no_space_in_names E -> self_contained E (e_guid E) -> shared_parts E K -> shaped_q E K q ->
  built false hp -> over hp (to_vtq E q) -> well_quiet (to_vtq E q) = true ->
  exists ts, tokens_each E (fst (pieces (print_query E q) nothing_written)) = Some ts
             /\ tokens E (fst (fst (render (err:=err) (SOk (to_vtq E q)) new_renderer))) = Some ts.
Proof.
  intros err E K q hp NS G S H B O Q. eapply C59_rendered_tokens_partial; eauto. now apply (built_well_keyed hp).
Qed.
Print Assumptions C59_built_statements_partial.

Lemma tokens_each_split : forall E a b ts, tokens_each E (a ++ b)%list = Some ts ->
  exists ta tb, tokens_each E a = Some ta /\ tokens_each E b = Some tb /\ ts = (ta ++ tb)%list.
Proof.
  intros E. induction a as [|s a IH]; intros b ts H; cbn [app tokens_each] in *; [exists [], ts; auto|].
  destruct (tokens E s) as [u|]; [|discriminate]. destruct (tokens_each E (a ++ b)) as [v|] eqn:V; [|discriminate].
  destruct (IH b v V) as (ta & tb & A & B & ->). inversion H; subst. rewrite A. exists (u ++ ta)%list, tb. now rewrite app_assoc.
Qed.

(** Wherever a statement writes a string, its text has one token for it, between
    the tokens of what is written before and after. *)
Theorem C59_strings_stay_strings_partial : forall E K q s before after,
  no_space_in_names E -> self_contained E (e_guid E) -> shared_parts E K -> shaped_q E K q ->
  fst (pieces (print_query E q) nothing_written) = (before ++ string_literal s :: after)%list ->
  exists tb ta, tokens_each E before = Some tb /\ tokens_each E after = Some ta
                /\ tokens E (statement_text E q) = Some (tb ++ Literal s :: ta)%list.
Proof.
  intros E K q s x y NS G S H P. destruct (C59_statement_tokens_partial E K q NS G S H) as (ts & T1 & T2).
  rewrite P in T1. destruct (tokens_each_split E x (string_literal s :: y) ts T1) as (tb & t & A & B & ->).
  cbn [tokens_each] in B. destruct (tokens E (string_literal s)) as [u|] eqn:U; [|discriminate].
  destruct (tokens_each E y) as [v|]; [|discriminate]. inversion B; subst.
  pose proof (C59_string_literal E s "" [] eq_refl) as L. rewrite sapp_nil_r, U in L. inversion L; subst.
  exists tb, v. auto.
Qed.
Print Assumptions C59_strings_stay_strings_partial.

(** ** A statement that meets the hypotheses *)

Lemma env0_names : no_space_in_names env0.
Proof. intros c H. repeat (destruct H as [<-|H]; [reflexivity|]). destruct H. Qed.
Lemma word_contained : forall E n, no_space_in_names E -> is_identifier E n = true -> self_contained E n.
Proof. intros E n NS H. apply contained_soft. eexists. now apply (word_soft E NS). Qed.

(** The keys of the aliased expressions of [q_tokens]. *)
Definition aliased_texts (k : key) : Prop := k = "li".

Definition q_tokens : query :=
  QSingle [QMatch "m1" false
             (EPattern "pa1" [ERel "r1" (ENode "n1" (Some ("s1", "u")) [("l1", "a`(b")] None)
                                (EDetails "d1" LTR None (Some ("t1", ["]"])) (Some ("ln", false, Some 1%Z, None)) None)
                                (ENode "n2" None [] (Some (EProps "pp" (EMap "mp" [EEntry "en" "k //" (EStr "st1" "' OR 1=1 //")]))))])
             (Some (EWhere "w" (EComparison "c" (Some (EProp "p0" (ESym "s1" "u") (ELookup "k0" "age"))) LessThan
                                  (Some (EOperation "o" (ENum "i0" (num_of_Z 3)) Subtraction (ENum "i1" (num_of_Z (-4)))))))) ]
          (Some (QReturn "ret1" true (Body (EExprs "es1"
             [EFun "f1" "sum" "fl1" [EProp "p1" (ESym "s1" "u") (ELookup "k1" ")")];
              EAlias "al1" "li" (EParam "pm" "rate") "list }"]) None None (Some (ELimit "lim" (ENum "i2" (num_of_Z 5))))))).

Ltac shape := repeat first
  [ progress cbn [children opt_list own_shape app flat_map fst snd b_items b_order b_skip b_limit num_of_Z n_mant infix attached clause]
  | match goal with
    | |- self_contained _ _ => apply word_contained; [exact env0_names|reflexivity]
    | |- ~ _ => intros Hneg; discriminate Hneg
    | |- (_ <= _)%Z => vm_compute; congruence
    | |- True => exact Logic.I
    | |- shaped _ _ _ => apply sh
    | |- shaped_q _ _ _ => constructor
    | |- Forall _ _ => constructor
    | |- all_attached _ _ => unfold all_attached
    | |- no_label_aliased _ _ => unfold no_label_aliased
    | |- shaped_behind _ _ _ => unfold shaped_behind
    | |- shaped_body _ _ _ => unfold shaped_body
    | |- aliased_texts _ => reflexivity
    | |- true = true \/ _ => left; reflexivity
    | |- _ /\ _ => split
    | |- ?a <> ?b => discriminate
    end
  | progress intros
  | match goal with
    | H : Some _ = Some _ |- _ => inversion H; subst; clear H
    | H : None = Some _ |- _ => discriminate H
    end ].

Example C59_case :
  no_space_in_names env0 /\ self_contained env0 (e_guid env0) /\ shared_parts env0 aliased_texts
  /\ shaped_q env0 aliased_texts q_tokens
  /\ well_keyed (to_vtq env0 q_tokens) = true /\ well_quiet (to_vtq env0 q_tokens) = true.
Proof.
  split; [exact env0_names|]. split; [shape|]. split.
  { unfold shared_parts, aliased_texts. split; [intros o H; discriminate H|]. repeat split; intros H; discriminate H. }
  split; [|split; vm_compute; reflexivity]. unfold q_tokens. shape.
Qed.

Example C59_case_tokens :
  fst (fst (render (err:=unit) (SOk (to_vtq env0 q_tokens)) new_renderer)) =
    "MATCH (u:`a``(b`)-[:`]`*1..]->( {`k //`: '\' OR 1=1 //'}) WHERE u.age < (3 - -4) RETURN DISTINCT sum(u.`)`), $rate AS `list }` LIMIT 5"
  /\ tokens env0 (fst (fst (render (err:=unit) (SOk (to_vtq env0 q_tokens)) new_renderer))) =
    Some [Word "MATCH"; Mark "("; Word "u"; Mark ":"; Name "a`(b"; Mark ")"; Mark "-"; Mark "["; Mark ":"; Name "]"; Mark "*";
          Number "1"; Mark ".."; Mark "]"; Mark "-"; Mark ">"; Mark "("; Mark "{"; Name "k //"; Mark ":"; Literal "' OR 1=1 //";
          Mark "}"; Mark ")"; Word "WHERE"; Word "u"; Mark "."; Word "age"; Mark "<"; Mark "("; Number "3"; Mark "-"; Mark "-";
          Number "4"; Mark ")"; Word "RETURN"; Word "DISTINCT"; Word "sum"; Mark "("; Word "u"; Mark "."; Name ")"; Mark ")";
          Mark ","; Mark "$"; Word "rate"; Word "AS"; Name "list }"; Word "LIMIT"; Number "5"].
Proof. split; vm_compute; reflexivity. Qed.


(** ** Where it fails *)

(** The name of a node that is written again has no quotes: here it starts a
    comment. *)
Theorem C59_repeated_node_refuted : exists q,
  well_keyed (to_vtq env0 q) = true /\ well_quiet (to_vtq env0 q) = true
  /\ fst (fst (render (err:=unit) (SOk (to_vtq env0 q)) new_renderer)) = "CREATE (`a//`), (a//)"
  /\ tokens env0 (fst (fst (render (err:=unit) (SOk (to_vtq env0 q)) new_renderer))) = None.
Proof.
  exists (QSingle [QCreate "c" (EPattern "pa" [ENode "n" (Some ("s", "a//")) [] None; ENode "n" (Some ("s", "a//")) [] None])] None).
  repeat split; vm_compute; reflexivity.
Qed.
Print Assumptions C59_repeated_node_refuted.

(** Names of parameters are written as they are: this one adds tokens. *)
Theorem C59_parameter_refuted : exists q,
  well_keyed (to_vtq env0 q) = true /\ well_quiet (to_vtq env0 q) = true
  /\ fst (fst (render (err:=unit) (SOk (to_vtq env0 q)) new_renderer)) = "RETURN $p DELETE n"
  /\ tokens env0 (fst (fst (render (err:=unit) (SOk (to_vtq env0 q)) new_renderer)))
     = Some [Word "RETURN"; Mark "$"; Word "p"; Word "DELETE"; Word "n"].
Proof.
  exists (QSingle [] (Some (QReturn "r" false (Body (EExprs "es" [EParam "p" "p DELETE n"]) None None None)))).
  repeat split; vm_compute; reflexivity.
Qed.
Print Assumptions C59_parameter_refuted.

(** The name [UNWIND] introduces is written as it is. *)
Theorem C59_unwind_refuted : exists q,
  well_keyed (to_vtq env0 q) = true /\ well_quiet (to_vtq env0 q) = true
  /\ fst (fst (render (err:=unit) (SOk (to_vtq env0 q)) new_renderer)) = "UNWIND $p AS a b RETURN `a b`"
  /\ tokens env0 (fst (fst (render (err:=unit) (SOk (to_vtq env0 q)) new_renderer)))
     = Some [Word "UNWIND"; Mark "$"; Word "p"; Word "AS"; Word "a"; Word "b"; Word "RETURN"; Name "a b"].
Proof.
  exists (QSingle [QUnwind "u" (EParam "p" "p") "a b"] (Some (QReturn "r" false (Body (EExprs "es" [ESym "s" "a b"]) None None None)))).
  repeat split; vm_compute; reflexivity.
Qed.
Print Assumptions C59_unwind_refuted.

(** An element at the address of an expression that was given an alias: the
    alias runs into the name before it. *)
Theorem C59_reused_address_refuted : exists q,
  fst (fst (render (err:=unit) (SOk (to_vtq env0 q)) new_renderer)) = "RETURN m AS x, nx"
  /\ tokens env0 (fst (fst (render (err:=unit) (SOk (to_vtq env0 q)) new_renderer)))
     = Some [Word "RETURN"; Word "m"; Word "AS"; Word "x"; Mark ","; Word "nx"]
  /\ tokens_each env0 (fst (pieces (print_query env0 q) nothing_written))
     = Some [Word "RETURN"; Word "m"; Word "AS"; Word "x"; Mark ","; Word "n"; Word "x"].
Proof.
  exists (QSingle [] (Some (QReturn "r" false (Body (EExprs "es"
            [EAlias "al" "k" (ESym "k" "m") "x"; EProp "p" (ESym "s" "n") (ELookup "k" "a")]) None None None)))).
  repeat split; vm_compute; reflexivity.
Qed.
Print Assumptions C59_reused_address_refuted.
