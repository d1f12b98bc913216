(** Headline theorems: C60. *)

From Coq Require Import Ascii String List ZArith Bool Lia.
From Verif Require Import GoStr Escape Num VTree WellKeyed SpecLex SpecNum SpecSpace SpecTokens EscapeProofs GoStrProofs Ast SpecDoc
  SpecPrint SpecShape TokenProofs TokenTexts TokenDocs TokenPrint VTreeProofs Alloc AllocProofs RenderProofs PrintProofs
  PropertiesText PropertiesRender PropertiesBrackets PropertiesTokens SpecOutline SpecClauses OutlineProofs OutlinePrint.
Import ListNotations.
Open Scope string_scope.

(** ** The clauses and items that a text has *)

(** Whoever reads the text of a statement finds the clauses that were built, in
    their order, with their parts and as many items. *)
Theorem C60_clauses_read_from_the_text_partial : forall E K q,
  no_space_in_names E -> self_contained E (e_guid E) -> calm_text E (e_guid E) -> shared_parts E K ->
  shaped_q E K q -> calm_q E K q ->
  exists ts, tokens E (statement_text E q) = Some ts /\ outline 0 ts = clause_outline q.
Proof.
  intros E K q NS G GC S H C. destruct (C59_statement_tokens_partial E K q NS G S H) as (ts & T1 & T2).
  exists ts. split; [exact T2|].
  destruct (print_query_says E NS K S GC q H C) as [_ R]. destruct (R nothing_written) as (_ & ts' & T & _ & O & _); [constructor|].
  assert (ts = ts') by congruence. subst ts'. specialize (O [] Logic.I). now rewrite !app_nil_r in O.
Qed.
Print Assumptions C60_clauses_read_from_the_text_partial.

Theorem C60_clauses_read_from_the_rendered_text_partial : forall (err : Type) E K q,
  no_space_in_names E -> self_contained E (e_guid E) -> calm_text E (e_guid E) -> shared_parts E K ->
  shaped_q E K q -> calm_q E K q -> well_keyed (to_vtq E q) = true -> well_quiet (to_vtq E q) = true ->
  exists ts, tokens E (fst (fst (render (err:=err) (SOk (to_vtq E q)) new_renderer))) = Some ts
             /\ outline 0 ts = clause_outline q.
Proof.
  intros err E K q NS G GC S H C W Q. rewrite (C01_rendering_prints_the_statement_partial err E q W Q). cbn [fst].
  now apply (C60_clauses_read_from_the_text_partial E K).
Qed.
Print Assumptions C60_clauses_read_from_the_rendered_text_partial.

(** Texts of the caller that change no outline: names that are no keywords,
    quoted names, numbers and strings. *)
Theorem C60_names_are_calm : forall E n, no_space_in_names E ->
  reserved n = false -> calm_text E (escape_if_necessary E n).
Proof. intros E n NS R. now apply name_calm. Qed.
Print Assumptions C60_names_are_calm.
Theorem C60_quoted_names_are_calm : forall E n, no_space_in_names E ->
  is_identifier E n = false -> calm_text E (escape_if_necessary E n).
Proof.
  intros E n NS R. exists (name_tokens E n). split; [apply soft_tokens, (name_soft E NS)|]. apply shift_calm. unfold name_tokens.
  destruct (blank n); [apply shift_nil|]. rewrite R. apply shift_name.
Qed.
Print Assumptions C60_quoted_names_are_calm.
Theorem C60_strings_are_calm : forall E s, calm_text E (string_literal s).
Proof. exact literal_calm. Qed.
Print Assumptions C60_strings_are_calm.
Theorem C60_labels_are_calm : forall E s, calm_text E (label_text s).
Proof. exact label_calm. Qed.
Print Assumptions C60_labels_are_calm.
Theorem C60_property_names_are_calm : forall E n, no_space_in_names E -> blank n = false -> calm_text E (lookup_text E n).
Proof. intros E n NS R. now apply lookup_calm. Qed.
Print Assumptions C60_property_names_are_calm.
Theorem C60_identifiers_are_calm : forall E n, no_space_in_names E -> is_identifier E n = true -> reserved n = false -> calm_text E n.
Proof.
  intros E n NS R H. exists [Word n]. split; [apply soft_tokens; now apply (word_soft E NS)|]. apply shift_calm. now apply shift_word.
Qed.
Print Assumptions C60_identifiers_are_calm.
Theorem C60_identifiers_are_calm_inside : forall E n, no_space_in_names E -> is_identifier E n = true -> calm_inside E n.
Proof.
  intros E n NS R. exists [Word n]. split; [apply soft_tokens; now apply (word_soft E NS)|]. apply shift_inside. apply shift_word_inside.
Qed.
Print Assumptions C60_identifiers_are_calm_inside.

(** ** A statement that meets the hypotheses *)

Definition q_outline : query :=
  QMulti [("k0",
           [QMatch "m1" true
             (EPattern "pa1" [ERel "r1" (ENode "n1" (Some ("s1", "u")) [("l1", "RETURN , (")] None)
                                (EDetails "d1" LTR None (Some ("t1", ["DELETE"])) None None)
                                (ENode "n2" None [] (Some (EProps "pp" (EMap "mp" [EEntry "en" "limit" (EStr "st1" "' DELETE u //")]))));
                              ENode "n3" (Some ("s3", "match")) [] None])
             (Some (EWhere "w" (EComparison "c" (Some (EProp "p0" (ESym "s1" "u") (ELookup "k0'" "return"))) StartsWith
                                  (Some (EStr "i0" "x, y WITH z")))))],
           QWith "w1" false (Body (EExprs "es0" [ESym "s1" "u"; EAlias "al1" "li" (EFun "f0" "coalesce" "fl0" [EParam "pm" "set"; ESym "s9" "skip"]) "list, ("])
                               None (Some (ESkip "sk" (ENum "i1" (num_of_Z 1)))) None) None)]
         (QSingle [QSubquery "sub" (QSingle [QMatch "m2" false (EPattern "pa2" [ENode "n4" (Some ("s4", "x")) [] None; ENode "n5" None [] None]) None]
                                       (Some (QReturn "ret0" false (Body (EExprs "es2" [ESym "s4" "x"; ENull "nu"]) None None None))));
                   QSet "set" (EExprs "es3" [EOperation "op" (EProp "p2" (ESym "s1" "u") (ELookup "k2" "a")) SetProp (ENull "nu2");
                                             EOperation "op2" (EProp "p3" (ESym "s1" "u") (ELookup "k3" "b")) SetProp (ENull "nu3")])]
          (Some (QReturn "ret1" true (Body (EExprs "es1"
             [ECase "ca" true None [("cb", EComparison "c2" None Not (Some (ESym "s1" "u")), EStr "st3" ", RETURN")] None;
              EFun "f1" "sum" "fl1" [EProp "p1" (ESym "s1" "u") (ELookup "k1" ")"); ESym "s1" "u"]])
             (Some (EOrder "ord" [ESort "so1" (ESym "s1" "u") (Some true); ESort "so2" (ESym "s8" "v") None])) None
             (Some (ELimit "lim" (ENum "i2" (num_of_Z 5)))))))).

Ltac calm_one := repeat first
  [ progress cbn [children opt_list own_calm open_part bracketed in_parens app flat_map fst snd b_items b_order b_skip b_limit negb andb
                  calm_items calm_part calm_at]
  | match goal with
    | |- calm_text _ _ => apply C60_identifiers_are_calm; [exact env0_names|reflexivity|reflexivity]
    | |- calm_inside _ _ => apply C60_identifiers_are_calm_inside; [exact env0_names|reflexivity]
    | |- ~ _ => intros Hneg; discriminate Hneg
    | |- True => exact Logic.I
    | |- calm _ _ _ => apply cm
    | |- calm_q _ _ _ => constructor
    | |- Forall _ _ => constructor
    | |- calm_parts _ _ => unfold calm_parts
    | |- calm_body _ _ _ => unfold calm_body
    | |- reserved _ = false => reflexivity
    | |- blank _ = false => reflexivity
    | |- false = false => reflexivity
    | |- _ = "" \/ _ => right; reflexivity
    | |- _ /\ _ => split
    | |- ?a <> ?b => discriminate
    end
  | progress intros
  | match goal with
    | H : In _ (_ :: _) |- _ => destruct H as [H|H]
    | H : In _ [] |- _ => destruct H
    | H : (_, _, _) = (_, _, _) |- _ => inversion H; subst; clear H
    | H : Some _ = Some _ |- _ => inversion H; subst; clear H
    | H : None = Some _ |- _ => discriminate H
    | H : false = true |- _ => discriminate H
    end ].
Ltac shape' := repeat first [ progress shape | match goal with
    | H : In _ (_ :: _) |- _ => destruct H as [H|H]
    | H : In _ [] |- _ => destruct H
    | H : (_, _, _) = (_, _, _) |- _ => inversion H; subst; clear H
    | |- false = true \/ _ => right
    | |- (?a = ?a /\ _) \/ _ => left; split; [reflexivity|]
    | |- ?a = ?a => reflexivity
    end ].

Example C60_case :
  no_space_in_names env0 /\ self_contained env0 (e_guid env0) /\ calm_text env0 (e_guid env0) /\ shared_parts env0 aliased_texts
  /\ shaped_q env0 aliased_texts q_outline /\ calm_q env0 aliased_texts q_outline
  /\ well_keyed (to_vtq env0 q_outline) = true /\ well_quiet (to_vtq env0 q_outline) = true.
Proof.
  split; [exact env0_names|]. split; [shape|]. split; [calm_one|]. split.
  { unfold shared_parts, aliased_texts. split; [intros o H; discriminate H|]. repeat split; intros H; discriminate H. }
  split; [unfold q_outline; shape'|]. split; [unfold q_outline; calm_one|split; vm_compute; reflexivity].
Qed.

Example C60_case_text :
  fst (fst (render (err:=unit) (SOk (to_vtq env0 q_outline)) new_renderer)) =
    "OPTIONAL MATCH (u:`RETURN , (`)-[:`DELETE`]->( {limit: '\' DELETE u //'}), (match) WHERE u.return STARTS WITH 'x, y WITH z' " ++
    "WITH u, coalesce($set, skip) AS `list, (` SKIP 1 CALL {MATCH (x), () RETURN x, NULL} SET u.a = NULL, u.b = NULL " ++
    "RETURN DISTINCT CASE WHEN NOT u THEN ', RETURN' END, sum(u.`)`, u) ORDER BY u DESC, v LIMIT 5"
  /\ clause_outline q_outline =
    ["OPTIONAL"; "MATCH"; ","; "WHERE"; "WITH"; ","; "SKIP"; "CALL"; "SET"; ","; "RETURN"; ","; "ORDER"; ","; "LIMIT"].
Proof. split; vm_compute; reflexivity. Qed.

(** ** Where it fails *)

Definition read_outline (q : query) : option (list string) :=
  option_map (outline 0) (tokens env0 (fst (fst (render (err:=unit) (SOk (to_vtq env0 q)) new_renderer)))).

(** Names of parameters are written as they are: this one adds a clause. *)
Theorem C60_parameter_refuted : exists q,
  well_keyed (to_vtq env0 q) = true /\ well_quiet (to_vtq env0 q) = true
  /\ fst (fst (render (err:=unit) (SOk (to_vtq env0 q)) new_renderer)) = "MATCH (n) RETURN $p DELETE n"
  /\ clause_outline q = ["MATCH"; "RETURN"] /\ read_outline q = Some ["MATCH"; "RETURN"; "DELETE"].
Proof.
  exists (QSingle [QMatch "m" false (EPattern "pa" [ENode "n" (Some ("s", "n")) [] None]) None]
            (Some (QReturn "r" false (Body (EExprs "es" [EParam "p" "p DELETE n"]) None None None)))).
  repeat split; vm_compute; reflexivity.
Qed.
Print Assumptions C60_parameter_refuted.

(** A name that is a keyword is not quoted: a variable called "limit" reads as
    the beginning of a LIMIT. *)
Theorem C60_keyword_refuted : exists q,
  well_keyed (to_vtq env0 q) = true /\ well_quiet (to_vtq env0 q) = true
  /\ fst (fst (render (err:=unit) (SOk (to_vtq env0 q)) new_renderer)) = "MATCH (limit) RETURN limit"
  /\ clause_outline q = ["MATCH"; "RETURN"] /\ read_outline q = Some ["MATCH"; "RETURN"; "LIMIT"].
Proof.
  exists (QSingle [QMatch "m" false (EPattern "pa" [ENode "n" (Some ("s", "limit")) [] None]) None]
            (Some (QReturn "r" false (Body (EExprs "es" [ESym "s" "limit"]) None None None)))).
  repeat split; vm_compute; reflexivity.
Qed.
Print Assumptions C60_keyword_refuted.

(** The names of functions are written as they are. *)
Theorem C60_function_name_refuted : exists q,
  well_keyed (to_vtq env0 q) = true /\ well_quiet (to_vtq env0 q) = true
  /\ fst (fst (render (err:=unit) (SOk (to_vtq env0 q)) new_renderer)) = "RETURN a, f()"
  /\ clause_outline q = ["RETURN"] /\ read_outline q = Some ["RETURN"; ","].
Proof.
  exists (QSingle [] (Some (QReturn "r" false (Body (EExprs "es" [EFun "f" "a, f" "fa" []]) None None None)))).
  repeat split; vm_compute; reflexivity.
Qed.
Print Assumptions C60_function_name_refuted.
