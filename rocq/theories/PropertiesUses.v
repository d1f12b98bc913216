(** Headline theorems: C68. *)

From Coq Require Import Ascii String List ZArith Bool Lia.
From Verif Require Import GoStr Escape Num VTree WellKeyed SpecLex SpecNum SpecSpace SpecTokens EscapeProofs GoStrProofs Ast SpecDoc
  SpecPrint SpecShape TokenProofs TokenTexts TokenDocs TokenPrint VTreeProofs RenderProofs PrintProofs
  PropertiesText PropertiesRender PropertiesTokens SpecUses UsesDocs UsesPrint.
Import ListNotations.
Open Scope string_scope.
Open Scope list_scope.

(** ** Shapes of the elements *)

Lemma shaped_part : forall E K e c, shaped E K e -> part e c -> own_shape E K c.
Proof.
  intros E K e c S P. induction P as [e|e c d C P IH]; [now inversion S|]. apply IH. inversion S as [? _ F]; subst. rewrite Forall_forall in F. auto.
Qed.
Lemma shaped_exprs : forall E K q e, shaped_q E K q -> In e (clause_exprs q) -> shaped E K e.
Proof.
  intros E K q e H J.
  assert (B : forall o, shaped_behind E K o -> In e (opt_list o) -> shaped E K e).
  { intros o X Y. unfold shaped_behind in X. rewrite Forall_forall in X. now apply X. }
  assert (D : forall b, shaped_body E K b -> In e (b_items b :: opt_list (b_order b) ++ opt_list (b_skip b) ++ opt_list (b_limit b)) -> shaped E K e).
  { intros b [X Y] [<-|Z]; [exact X|]. rewrite Forall_forall in Y. now apply Y. }
  inversion H; subst; cbn [clause_exprs] in J; try (destruct J; fail); try (destruct J as [<-|[]]; assumption).
  - destruct J as [<-|J]; eauto.
  - rewrite !app_assoc in J. rewrite app_comm_cons in J. apply in_app_or in J. destruct J as [J|J]; [apply (D b); auto; now rewrite !app_assoc|eauto].
  - eauto.
  - rewrite !in_app_iff in J. destruct J as [J|[J|J]]; eauto.
Qed.
Lemma shaped_clauses : forall E K q c, shaped_q E K q -> In c (clauses_of q) -> shaped_q E K c.
Proof.
  intros E K q c H J. inversion H; subst; cbn [clauses_of] in J; try (destruct J; fail); try (destruct J as [<-|[]]; assumption).
  - destruct J as [<-|J]; [constructor|]. match goal with F : Forall (shaped_q E K) evs |- _ => rewrite Forall_forall in F; auto end.
  - apply in_app_or in J. destruct J as [J|J]; match goal with F : Forall (shaped_q E K) ?l, I : In c ?l |- _ => rewrite Forall_forall in F; auto end.
  - apply in_app_or in J. destruct J as [J|[<-|[]]]; [|assumption]. apply in_flat_map in J. destruct J as ([[k cs] w] & Y & J).
    destruct (H0 _ _ _ Y) as (_ & _ & X & _ & W). cbn [fst snd] in J. apply in_app_or in J. destruct J as [J|[<-|[]]]; [|exact W]. rewrite Forall_forall in X. auto.
  - destruct J as [<-|J]; [assumption|]. apply in_map_iff in J. destruct J as ([[k1 a] w] & <- & Y). now apply (H1 k1 a w).
Qed.
Lemma shaped_element : forall E K q e, shaped_q E K q -> element q e -> own_shape E K e.
Proof.
  intros E K q e S (c & d & W & D & P). assert (SC : shaped_q E K c).
  { clear D. induction W as [q|q c c' C W IH]; [exact S|]. apply IH. eapply shaped_clauses; eauto. }
  eapply shaped_part; [|exact P]. eapply shaped_exprs; eauto.
Qed.

(** ** What a list of texts asks for *)

Lemma asked_mute : forall a b, ~ In (Mark "$") a -> asked (a ++ b) = asked b.
Proof.
  induction a as [|t a IH]; intros b N; [reflexivity|]. cbn [app asked]. rewrite IH by (intros J; apply N; now right).
  destruct t; try reflexivity. destruct (String.eqb_spec s "$") as [->|M]; [destruct N; now left|].
  destruct (a ++ b) as [|[] r]; reflexivity.
Qed.

Definition good_piece (E : env) (t : string) : Prop := asks_nothing E t \/ exists y, is_identifier E y = true /\ t = ("$" ++ y)%string.

Lemma asked_each : forall E, no_space_in_names E -> forall ps ts, Forall (good_piece E) ps -> tokens_each E ps = Some ts ->
  forall x, In x (asked ts) <-> is_identifier E x = true /\ In ("$" ++ x)%string ps.
Proof.
  intros E NS ps. induction ps as [|p ps IH]; intros ts F T x; cbn [tokens_each] in T.
  - injection T as <-. cbn. tauto.
  - inversion F as [|? ? G F']; subst. destruct (tokens E p) as [u|] eqn:U; [|discriminate]. destruct (tokens_each E ps) as [v|]; [|discriminate].
    injection T as <-. specialize (IH v F' eq_refl x). destruct G as [(tp & TP & N)|(y & Y & ->)].
    + rewrite U in TP. injection TP as <-. rewrite asked_mute by exact N. rewrite IH. split; [intros [A B]; split; [exact A|now right]|].
      intros [A [->|B]]; [|auto]. rewrite (param_tokens E NS x A) in U. injection U as <-. destruct N. now left.
    + rewrite (param_tokens E NS y Y) in U. injection U as <-. cbn [app asked String.eqb Ascii.eqb Bool.eqb]. change (In x (y :: asked v) <-> is_identifier E x = true /\ In ("$" ++ x)%string (("$" ++ y)%string :: ps)).
      cbn [In]. rewrite IH. split.
      * intros [<-|[A B]]; auto.
      * intros [A [B|B]]; [left; now injection B|auto].
Qed.

(** ** Statements *)

(** Who reads the text finds behind dollar signs the names of the parameters the
    statement uses, and no others. *)
Theorem C68_text_asks_for_the_parameters_partial : forall E K q,
  no_space_in_names E -> self_contained E (e_guid E) -> asks_nothing E (e_guid E) -> shared_parts E K -> shaped_q E K q ->
  plain_names E q -> told_apart q ->
  exists ts, tokens E (statement_text E q) = Some ts
             /\ forall x, In x (asked ts) <-> exists k, element q (EParam k x).
Proof.
  intros E K q NS SG GD SP SQ [PE PC] TA. destruct (C59_statement_tokens_partial E K q NS SG SP SQ) as (ts & T1 & T2).
  exists ts. split; [exact T2|]. intros x.
  assert (S : forall e, element q e -> sound E K e) by (intros e J; split; [eapply shaped_element; eauto|auto]).
  rewrite (asked_each E NS _ ts) with (2 := T1).
  - split.
    + intros [IX J]. destruct (piece_named E NS GD K x IX q S PC _ J) as [M|(k & y & P & Y)]; [destruct (param_loud E NS x IX M)|].
      injection Y as <-. eauto.
    + intros [k P]. assert (IX : is_identifier E x = true) by exact (PE _ P). split; [exact IX|].
      exact (parameter_kept E NS GD K x IX q S PC TA k P).
  - apply Forall_forall. intros t J.
    destruct (piece_named E NS GD K "a" eq_refl q S PC t J) as [M|(k & y & P & ->)]; [now left|right]. exists y. split; [exact (PE _ P)|reflexivity].
Qed.
Print Assumptions C68_text_asks_for_the_parameters_partial.

(** The same of the text the renderer writes. *)
Theorem C68_rendered_text_asks_for_the_parameters_partial : forall (err : Type) E K q,
  no_space_in_names E -> self_contained E (e_guid E) -> asks_nothing E (e_guid E) -> shared_parts E K -> shaped_q E K q ->
  plain_names E q -> told_apart q -> well_keyed (to_vtq E q) = true -> well_quiet (to_vtq E q) = true ->
  exists ts, tokens E (fst (fst (render (err:=err) (SOk (to_vtq E q)) new_renderer))) = Some ts
             /\ forall x, In x (asked ts) <-> exists k, element q (EParam k x).
Proof.
  intros err E K q NS SG GD SP SQ PN TA W Q. rewrite (C01_rendering_prints_the_statement_partial err E q W Q). cbn [fst].
  now apply (C68_text_asks_for_the_parameters_partial E K).
Qed.
Print Assumptions C68_rendered_text_asks_for_the_parameters_partial.

(** ** A statement that meets the hypotheses *)

(** The node is written twice, the aliased expression three times; one of the
    parameters stands in both. *)
Definition node_u : expr :=
  ENode "n1" (Some ("s1", "u")) [("l1", "User")] (Some (EProps "pp" (EMap "mp" [EEntry "en" "id" (EParam "pm1" "id")]))).
Definition rating : expr := EOperation "rt" (EProp "p1" (ESym "s1" "u") (ELookup "k1" "age")) Multiplication (EParam "pm2" "rate").
Definition q_uses : query :=
  QSingle [QMatch "m1" false
             (EPattern "pa1" [node_u; ERel "r1" node_u (EDetails "d1" LTR None None None None) (ENode "n2" None [] None)])
             (Some (EWhere "w" (EComparison "c" (Some rating) LessThan (Some (EStr "st" "$none")))))]
          (Some (QReturn "ret1" false (Body (EExprs "es1" [EAlias "al1" "rt" rating "rating"; EListLit "li" [EParam "pm3" "id"; rating]])
             (Some (EOrder "or" [ESort "so" rating None])) None (Some (ELimit "lim" (EParam "pm4" "max")))))).
Definition aliased_rating (k : key) : Prop := k = "rt".

Fixpoint parts_to (n : nat) (e : expr) : list expr := e :: match n with O => [] | S n => flat_map (parts_to n) (children e) end.
Definition elements_of (n : nat) (cs : list query) : list expr := flat_map (fun c => flat_map (parts_to n) (clause_exprs c)) cs.

Lemma elements_in : forall q cs L,
  In q cs -> (forall c, In c cs -> incl (clauses_of c) cs) -> (forall c, In c cs -> incl (clause_exprs c) L) ->
  (forall e, In e L -> incl (children e) L) ->
  (forall c, within q c -> In c cs) /\ (forall e, element q e -> In e L).
Proof.
  intros q cs L Q C X P. assert (W : forall c, within q c -> In c cs).
  { intros c W. induction W as [q|q c c' J W IH]; [exact Q|]. apply IH. exact (C q Q c J). }
  split; [exact W|]. intros e (c & d & V & D & Y). assert (Z : In d L) by exact (X c (W c V) d D).
  clear D. induction Y as [d|d c' e' J Y IH]; [exact Z|]. apply IH. exact (P d Z c' J).
Qed.

Definition uses_clauses : list query :=
  q_uses :: clauses_of q_uses.
Definition same_key (e d : expr) : bool :=
  match own_key e, own_key d with Some a, Some b => String.eqb a b | _, _ => false end.
Definition uses_elements : list expr := Eval vm_compute in
  fold_right (fun e l => if existsb (same_key e) l then l else e :: l) [] (elements_of 8 uses_clauses).

Lemma uses_within : (forall c, within q_uses c -> In c uses_clauses) /\ (forall e, element q_uses e -> In e uses_elements).
Proof.
  apply elements_in.
  - now left.
  - intros c H. unfold uses_clauses, q_uses in H. cbn [clauses_of app opt_list In] in H.
    repeat (destruct H as [<-|H]; [intros c J; cbn [clauses_of app opt_list In] in J; repeat (destruct J as [<-|J]; [unfold uses_clauses; cbn; auto|]); destruct J|]).
    destruct H.
  - intros c H. unfold uses_clauses, q_uses in H. cbn [clauses_of app opt_list In] in H.
    repeat (destruct H as [<-|H]; [intros e J; cbn [clause_exprs b_items b_order b_skip b_limit app opt_list In] in J;
      repeat (destruct J as [<-|J]; [unfold uses_elements; repeat first [left; reflexivity|right]|]); destruct J|]).
    destruct H.
  - intros e H. unfold uses_elements in H. cbn [In] in H.
    repeat (destruct H as [<-|H]; [intros c J; cbn [children app opt_list In] in J;
      repeat (destruct J as [<-|J]; [unfold uses_elements; repeat first [left; reflexivity|right]|]); destruct J|]).
    destruct H.
Qed.

Ltac each H := unfold uses_elements in H; cbn [In] in H; repeat (destruct H as [H|H]; [try discriminate H|]); try (destruct H; fail).

Example C68_case :
  no_space_in_names env0 /\ self_contained env0 (e_guid env0) /\ asks_nothing env0 (e_guid env0) /\ shared_parts env0 aliased_rating
  /\ shaped_q env0 aliased_rating q_uses /\ plain_names env0 q_uses /\ told_apart q_uses
  /\ well_keyed (to_vtq env0 q_uses) = true /\ well_quiet (to_vtq env0 q_uses) = true.
Proof.
  destruct uses_within as [WC WE].
  split; [exact env0_names|]. split; [shape|]. split; [eexists; split; [vm_compute; reflexivity|cbn; intuition discriminate]|]. split.
  { unfold shared_parts, aliased_rating. split; [intros o H; discriminate H|]. repeat split; intros H; discriminate H. }
  split; [unfold q_uses, node_u, rating; shape; reflexivity|].
  split.
  { split.
    - intros e H. apply WE in H. unfold uses_elements in H. cbn [In] in H.
      repeat (destruct H as [<-|H]; [cbn [own_names]; try exact Logic.I; try reflexivity; try (eexists; split; [vm_compute; reflexivity|cbn; intuition discriminate])|]). destruct H.
    - intros c H. apply WC in H. unfold uses_clauses, q_uses in H. cbn [clauses_of app opt_list In] in H.
      repeat (destruct H as [<-|H]; [exact Logic.I|]). destruct H. }
  split; [|split; vm_compute; reflexivity].
  split.
  - intros k n ls ps n' ls' ps' H H'. apply WE in H, H'. each H; each H'. all: congruence.
  - intros k d e a H. apply WE in H. each H. inversion H; subst. split; [|split; [|split]].
    + intros c C O. apply WE in C. unfold uses_elements in C. cbn [In] in C.
      repeat (destruct C as [<-|C]; [try discriminate O; try constructor|]). destruct C.
    + intros k' e' a' C. apply WE in C. each C. now inversion C.
    + intros c C F. apply WE in C. unfold uses_elements in C. cbn [In] in C.
      repeat (destruct C as [<-|C]; [cbn [frame_keys In] in F; try tauto|]). destruct C.
    + intros c C F. apply WC in C. unfold uses_clauses, q_uses in C. cbn [clauses_of app opt_list In] in C.
      repeat (destruct C as [<-|C]; [cbn in F; intuition discriminate|]). destruct C.
Qed.

Example C68_case_text :
  fst (fst (render (err:=unit) (SOk (to_vtq env0 q_uses)) new_renderer)) =
    "MATCH (u:`User` {id: $id}), (u)-->() WHERE (u.age * $rate) < '$none' RETURN (u.age * $rate) AS rating, [$id, rating] ORDER BY rating LIMIT $max"
  /\ option_map asked (tokens env0 (fst (fst (render (err:=unit) (SOk (to_vtq env0 q_uses)) new_renderer)))) =
    Some ["id"; "rate"; "rate"; "id"; "max"].
Proof. split; vm_compute; reflexivity. Qed.

(** ** Where it fails *)

(** Two nodes at one address: the second one is taken for the first, and its
    parameter is not asked for. *)
Theorem C68_reused_address_refuted : exists q k,
  element q (EParam k "b")
  /\ fst (fst (render (err:=unit) (SOk (to_vtq env0 q)) new_renderer)) = "MATCH (n {id: $a}) CREATE (m)"
  /\ option_map asked (tokens env0 (fst (fst (render (err:=unit) (SOk (to_vtq env0 q)) new_renderer)))) = Some ["a"].
Proof.
  exists (QSingle [QMatch "m" false (EPattern "p" [ENode "n" (Some ("s", "n")) [] (Some (EProps "pp" (EMap "mp" [EEntry "en" "id" (EParam "pa" "a")])))]) None;
                   QCreate "c" (EPattern "q" [ENode "n" (Some ("t", "m")) [] (Some (EProps "pq" (EMap "mq" [EEntry "ew" "id" (EParam "pb" "b")])))])] None), "pb".
  split; [|split; vm_compute; reflexivity].
  eexists (QCreate _ _), (EPattern _ _). split; [eapply within_clause; [right; left; reflexivity|constructor]|]. split; [left; reflexivity|].
  repeat (eapply part_of_child; [left; reflexivity|]). constructor.
Qed.
Print Assumptions C68_reused_address_refuted.

(** Names of parameters are written as they are: this one asks for two. *)
Theorem C68_parameter_refuted : exists q k,
  element q (EParam k "p + $q")
  /\ well_keyed (to_vtq env0 q) = true /\ well_quiet (to_vtq env0 q) = true
  /\ fst (fst (render (err:=unit) (SOk (to_vtq env0 q)) new_renderer)) = "RETURN $p + $q"
  /\ option_map asked (tokens env0 (fst (fst (render (err:=unit) (SOk (to_vtq env0 q)) new_renderer)))) = Some ["p"; "q"].
Proof.
  exists (QSingle [] (Some (QReturn "r" false (Body (EExprs "es" [EParam "p" "p + $q"]) None None None)))), "p".
  split; [|repeat split; vm_compute; reflexivity].
  eexists (QReturn _ _ _), (EExprs _ _). split; [eapply within_clause; [left; reflexivity|constructor]|]. split; [left; reflexivity|].
  eapply part_of_child; [left; reflexivity|]. constructor.
Qed.
Print Assumptions C68_parameter_refuted.

(** A dollar sign in a name is quoted, one in the variable of [UNWIND] is not. *)
Theorem C68_unwind_refuted : exists q,
  (forall k x, ~ element q (EParam k x))
  /\ fst (fst (render (err:=unit) (SOk (to_vtq env0 q)) new_renderer)) = "UNWIND [1] AS $x RETURN `$x`"
  /\ option_map asked (tokens env0 (fst (fst (render (err:=unit) (SOk (to_vtq env0 q)) new_renderer)))) = Some ["x"].
Proof.
  exists (QSingle [QUnwind "u" (EListLit "l" [ENum "i" (num_of_Z 1)]) "$x"] (Some (QReturn "r" false (Body (EExprs "es" [ESym "s" "$x"]) None None None)))).
  split; [|split; vm_compute; reflexivity].
  intros k x H. apply (proj2 (elements_in _
    [QSingle [QUnwind "u" (EListLit "l" [ENum "i" (num_of_Z 1)]) "$x"] (Some (QReturn "r" false (Body (EExprs "es" [ESym "s" "$x"]) None None None)));
     QUnwind "u" (EListLit "l" [ENum "i" (num_of_Z 1)]) "$x"; QReturn "r" false (Body (EExprs "es" [ESym "s" "$x"]) None None None)]
    [EListLit "l" [ENum "i" (num_of_Z 1)]; ENum "i" (num_of_Z 1); EExprs "es" [ESym "s" "$x"]; ESym "s" "$x"]
    ltac:(now left) ltac:(intros c C d D; cbn in C; intuition (subst; cbn in *; intuition))
    ltac:(intros c C d D; cbn in C; intuition (subst; cbn in *; intuition)) ltac:(intros c C d D; cbn in C; intuition (subst; cbn in *; intuition)))) in H.
  cbn [In] in H. intuition discriminate.
Qed.
Print Assumptions C68_unwind_refuted.
