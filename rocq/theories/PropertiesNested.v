(** Headline theorems: C72. *)

From Coq Require Import Ascii String List ZArith Bool Lia.
From Verif Require Import PropertiesRender GoStr Escape Num VTree WellKeyed SpecLex SpecNum SpecSpace SpecTokens EscapeProofs GoStrProofs Ast SpecDoc
  SpecPrint SpecShape SpecOutline SpecGrammar SpecReading GoVal Maps Slices Patterns SpecPattern PatternProofs ChainProofs Cond Queries Builder BuilderText SpecBuilder SpecPhrases SpecCalled
  PropertiesText PropertiesTokens TokenTexts SpecCond PropertiesExpr PropertiesBuilder PropertiesGrammar PropertiesCalled Exprs Functions SpecCalls FunctionProofs
  SpecAsked AskedProofs PropertiesAsked SpecDrawn DrawnProofs DrawnClauses PropertiesDrawn SpecUnited UnitedProofs PropertiesUnited SpecNested NestedProofs.
Import ListNotations.
Open Scope string_scope.
Open Scope nat_scope.
Open Scope list_scope.

(** The text of a statement that calls subqueries, in subqueries to any depth, is
    read as exactly the clauses asked for, the subqueries with theirs. *)
Theorem C72_statements_partial : forall E Kp ks p i cs,
  no_space_in_names E -> SpecTokens.self_contained E (e_guid E) ->
  shared_parts E (fun k => exists a, called p k a) -> (forall k a, called p k a -> variable a) ->
  compiles IStart p = Some i -> buildable i = true -> orderly p = true ->
  nested_all E (called p) (written p) cs ->
  exists q, build_program Kp ks p = Some (Returns (Built (StOk q)))
    /\ (kept_apart E (called p) q -> nodes_once E (calls E p q) (SpecBuilder.clauses q) -> ~ renamed (calls E p q) ->
        is_statement E (statement_text E q) (CQuery cs [])).
Proof.
  intros E Kp ks p i cs NS G SP AN C B O H.
  assert (NK : unaliased (called p) "") by (intros a X; apply (proj1 (proj2 SP)); now exists a).
  destruct (told_all E (Register (called p) (fun _ => False)) (written p) cs) as (R & P & _); [now apply (nested_told E (Register (called p) (fun _ => False)) NS NK)|].
  destruct (calls_read E Kp ks p i NS G SP AN C B O P R) as (q & Q & T). exists q. split; [exact Q|]. intros KA On NR.
  destruct (T KA) as (l & St & S & _ & Fa). assert (l = cs) as ->; [|exact St].
  destruct (told_all E (calls E p q) (written p) cs) as (_ & _ & U); [now apply (nested_told E (calls E p q) NS NK)|]. now apply (U NR (SpecBuilder.clauses q)).
Qed.
Print Assumptions C72_statements_partial.

(** The same of the text the renderer writes. *)
Theorem C72_rendered_statements_partial : forall (err : Type) E Kp ks p i cs,
  no_space_in_names E -> SpecTokens.self_contained E (e_guid E) ->
  shared_parts E (fun k => exists a, called p k a) -> (forall k a, called p k a -> variable a) ->
  compiles IStart p = Some i -> buildable i = true -> orderly p = true ->
  nested_all E (called p) (written p) cs ->
  exists q, build_program Kp ks p = Some (Returns (Built (StOk q)))
    /\ (kept_apart E (called p) q -> well_keyed (to_vtq E q) = true -> well_quiet (to_vtq E q) = true ->
        nodes_once E (calls E p q) (SpecBuilder.clauses q) -> ~ renamed (calls E p q) ->
        is_statement E (fst (fst (render (err:=err) (SOk (to_vtq E q)) new_renderer))) (CQuery cs [])).
Proof.
  intros err E Kp ks p i cs NS G SP AN C B O H. destruct (C72_statements_partial E Kp ks p i cs NS G SP AN C B O H) as (q & Q & T). exists q. split; [exact Q|].
  intros KA W Qt On NR. rewrite (C01_rendering_prints_the_statement_partial err E q W Qt). cbn [fst]. now apply T.
Qed.
Print Assumptions C72_rendered_statements_partial.

(** Unions of such statements. *)
Theorem C72_unions_partial : forall E ku all xs css,
  no_space_in_names E -> SpecTokens.self_contained E (e_guid E) ->
  shared_parts E (fun k => exists a, called_in xs k a) -> (forall k a, called_in xs k a -> variable a) ->
  2 <= length xs -> Forall proper xs -> nested_chains E (called_in xs) xs css ->
  exists qs u, Forall2 builds xs qs /\ union_impl ku all (map StOk qs) = StOk u
    /\ (union_apart E (called_in xs) u -> Forall (fun q => nodes_once E (in_union E xs u) (SpecBuilder.clauses q)) qs -> ~ renamed (in_union E xs u) ->
        is_statement E (statement_text E u) (union_of all css)).
Proof.
  intros E ku all xs css NS G SP AN L PR H.
  assert (NK : unaliased (called_in xs) "") by (intros a X; apply (proj1 (proj2 SP)); now exists a).
  assert (PH : forall x, List.In x xs -> Forall (in_place_phrase E (called_in xs)) (written (program x)) /\ Forall (readable_phrase E (called_in xs)) (written (program x))).
  { pose proof (proj2 (proj2 (nested_told E (Register (called_in xs) (fun _ => False)) NS NK)) xs css H) as F. revert F. generalize (called_in xs). clear. intros A F.
    induction F as [|x cs xs css T F IH]; intros y J; [destruct J|]. destruct J as [->|J]; [|now apply IH]. destruct (told_all E _ _ _ T) as (R & P & _). now split. }
  destruct (C71_unions_partial E ku all xs NS G SP AN L PR PH) as (qs & u & BU & UN & T). exists qs, u. split; [exact BU|]. split; [exact UN|]. intros KA On NR.
  destruct (T KA) as (ls & St & Fa). assert (ls = css) as ->; [|exact St].
  assert (F : Forall2 (fun x cs => Forall2 (told E (in_union E xs u)) (written (program x)) cs) xs css) by now apply (nested_told E (in_union E xs u) NS NK).
  revert F Fa On NR. generalize (in_union E xs u). clear - PR BU. intros A F. revert qs ls BU. induction F as [|x cs xs css Tx F IH]; intros qs ls BU Fa On NR; inversion Fa; subst; [reflexivity|].
  inversion BU as [|? q ? ? Bx BU']; subst. inversion On; subst. inversion PR as [|? ? Px PR']; subst. f_equal; [|eapply IH; eassumption].
  destruct (told_all E A _ _ Tx) as (_ & _ & U). destruct x as [Kp ks p], Px as ((i & C & B) & O). cbn [program] in *.
  destruct (C26_clauses_in_call_order_partial Kp ks p i C B O) as (q' & Q & S). unfold builds in Bx. cbn [making closing program] in Bx. rewrite Q in Bx. injection Bx as ->. now apply (U NR (SpecBuilder.clauses q)).
Qed.
Print Assumptions C72_unions_partial.

(** ** A chain that meets the hypotheses: a union with a subquery in a subquery *)

Definition city : node := node_named_by_string (kt "cb") (Patterns.a_node (kt "ca") "City") "c".
(** Another property that has the address [x]. *)
Definition size (x : key) : value := property_by_expression (first_key x (kt "sz")) (sy "c") "size".
Definition deepest : list Builder.call := [Match false [node_value city]; Returning false [GOk (good_of (as_ (kt "v") (size "!z") "s"))]].
Definition middle : list Builder.call := [Sub (StOk (statement_by (Chain K0 (K0 97) deepest))); Returning false [GOk (good_of (as_ (kt "w") (sym_value (symbolic_name_create "!m" "s")) "y"))]].
Definition counting : list Builder.call := [Unwind (GOk (good_of pair_list)) "x"; Returning false [GOk (good_of (as_ (kt "z") (sum "!s") "y"))]].
Definition inner : list chain := [Chain K0 (K0 98) counting; Chain K0 (K0 96) middle].
Definition outer : list Builder.call :=
  [Match false [node_value person]; Sub (StOk (union_by true inner)); Returning false [GOk (good_of (of_n "a1" "name")); GOk (good_of (sy "y"))]].
Definition deepest_clauses : list cclause :=
  [CMatch false [CPart None None (CNode (Some "c") ["City"] None) []] None; CReturn (CBody false [CItem (XProp (XVar "c") "size") (Some "s")] [] None None)].
Definition middle_clauses : list cclause := [CSub deepest_clauses []; CReturn (CBody false [CItem (XVar "s") (Some "y")] [] None None)].
Definition counting_clauses : list cclause :=
  [CUnwind (XList [XNum "1"; XNum "2"]) "x"; CReturn (CBody false [CItem (XBin OAdd (XVar "x") (XNum "1")) (Some "y")] [] None None)].
Definition outer_clauses : list cclause :=
  [CMatch false [CPart None None (CNode (Some "n") ["Person"] None) []] None; CSub counting_clauses [(true, middle_clauses)];
   CReturn (CBody false [CItem (XProp (XVar "n") "name") None; CItem (XVar "y") None] [] None None)].

Ltac drawable_now := cbn; repeat (first [split|constructor]); try reflexivity; try discriminate; try lia.
Ltac apart_now U := let k := fresh "k" in let J := fresh "J" in intros k J; vm_compute in J; repeat (destruct J as [<-|J]; [apply U; reflexivity|]); destruct J.
Ltac proper_now := split; [eexists; split; vm_compute; reflexivity|vm_compute; reflexivity].

Section Outer.
Context (A : key -> string -> Prop) (U : forall k, prefix "!" k = false -> unaliased A k).
Ltac free := first [apply U; reflexivity|intros ?; apply U; reflexivity|discriminate].
Ltac props := apply (of_n_asked A U); [reflexivity|reflexivity|discriminate|intros ?; apply U; reflexivity].
Ltac names := apply (name_good A U); [reflexivity|discriminate].
Ltac returning := apply ca_return; eexists _, []; split; [reflexivity|]; split; [|constructor].

Lemma node_clause : forall n k1 k2 x l, n = node_named_by_string k1 (Patterns.a_node k2 l) x -> GOk (element (node_value n)) = node_value n -> fresh A k1 -> fresh A k2 -> x <> "" -> l <> "" ->
  clause_asked A (PMatch false [element (node_value n)] None) (CMatch false [CPart None None (CNode (Some x) [l] None) []] None).
Proof.
  intros n k1 k2 x l Q X F1 F2 Nx Nl. apply ca_match; [|constructor]. constructor; [|constructor]. unfold pattern_asked. rewrite X, Q.
  apply pa_chain, ca_node. apply (na_named A k1 x None); [exact F1|exact Nx|]. now apply na_label.
Qed.

Lemma deepest_nested : A "!z" "s" -> nested_all env0 A (written deepest) deepest_clauses.
Proof.
  intros Az. assert (W : written deepest = [PMatch false [element (node_value city)] None; PReturn false [good_of (as_ (kt "v") (size "!z") "s")] unsorted]) by (vm_compute; reflexivity).
  rewrite W. apply nl_cons; [apply ne_clause; [|drawable_now]|apply nl_cons; [apply ne_clause; [|drawable_now]|apply nl_nil]].
  - apply (node_clause city (kt "cb") (kt "ca")); [reflexivity|reflexivity|free|free|free|free].
  - returning. constructor; [|constructor]. eapply (ia_alias A (kt "v") "!z" _ (good_of (size "f")) "s" _ NilValue); [free| |discriminate|exact Az|reflexivity].
    apply (asked_good A U). apply q_property; [intros [|n]; free|names|discriminate].
Qed.
Lemma middle_nested : A "!z" "s" -> A "!m" "y" -> nested_all env0 A (written middle) middle_clauses.
Proof.
  intros Az Am. assert (W : written middle = [PSubquery (statement_by (Chain K0 (K0 97) deepest)); PReturn false [good_of (as_ (kt "w") (sym_value (symbolic_name_create "!m" "s")) "y")] unsorted]) by (vm_compute; reflexivity).
  rewrite W. apply nl_cons; [|apply nl_cons; [apply ne_clause; [|drawable_now]|apply nl_nil]].
  - apply (ne_statement env0 A (Chain K0 (K0 97) deepest)); [proper_now|vm_compute; reflexivity|vm_compute; reflexivity|apart_now U|now apply deepest_nested].
  - returning. constructor; [|constructor]. eapply (ia_alias A (kt "w") "!m" _ (ESym "f" "s") "y" _ NilValue); [free| |discriminate|exact Am|reflexivity].
    apply (asked_good A U (XVar "s") (sym_value (symbolic_name_create "f" "s"))). apply (q_name A "f" "s"); free.
Qed.
Lemma counting_nested : A "!s" "y" -> nested_all env0 A (written counting) counting_clauses.
Proof.
  intros As. assert (W : written counting = [PUnwind (good_of pair_list) "x"; PReturn false [good_of (as_ (kt "z") (sum "!s") "y")] unsorted]) by (vm_compute; reflexivity).
  rewrite W. apply nl_cons; [apply ne_clause; [|drawable_now]|apply nl_cons; [apply ne_clause; [|drawable_now]|apply nl_nil]].
  - apply ca_unwind. apply (asked_good A U). apply (q_list A (kt "pl") _ [int_value "i1" 1; int_value "i2" 2]); [free| |reflexivity].
    apply q_cons; [apply (small A U "i1" 1); [reflexivity|unfold short; lia]|]. apply q_cons; [apply (small A U "i2" 2); [reflexivity|unfold short; lia]|apply q_nil].
  - returning. constructor; [|constructor]. eapply (ia_alias A (kt "z") "!s" _ (good_of (sum "f")) "y" _ NilValue); [free| |discriminate|exact As|reflexivity].
    apply (asked_good A U). apply (q_compute A (first_key "f" (kt "su")) Add); [intros [|n]; free|names|]. apply (small A U "on" 1); [reflexivity|unfold short; lia].
Qed.
Lemma outer_nested : A "!z" "s" -> A "!m" "y" -> A "!s" "y" -> nested_all env0 A (written outer) outer_clauses.
Proof.
  intros Az Am As. assert (W : written outer = [PMatch false [element (node_value person)] None; PSubquery (union_by true inner); PReturn false [good_of (of_n "a1" "name"); good_of (sy "y")] unsorted]) by (vm_compute; reflexivity).
  rewrite W. apply nl_cons; [apply ne_clause; [|drawable_now]|apply nl_cons; [|apply nl_cons; [apply ne_clause; [|drawable_now]|apply nl_nil]]].
  - apply (node_clause person (kt "pb") (kt "pa")); [reflexivity|reflexivity|free|free|free|free].
  - apply (ne_union env0 A (kt "un") true inner (map statement_by inner) (union_by true inner) counting_clauses [middle_clauses]).
    + cbn; lia.
    + constructor; [|constructor; [|constructor]]; proper_now.
    + constructor; [|constructor; [|constructor]]; vm_compute; reflexivity.
    + constructor; [|constructor; [|constructor]]; vm_compute; reflexivity.
    + constructor; [|constructor; [|constructor]]; apart_now U.
    + free.
    + vm_compute; reflexivity.
    + apply nc_cons; [now apply counting_nested|]. apply nc_cons; [now apply middle_nested|apply nc_nil].
  - returning. constructor; [|constructor; [|constructor]]; apply ia_plain; apply (asked_good A U); [props|names].
Qed.
End Outer.

Lemma outer_aliases : forall k a, called outer k a -> List.In (k, a) [("!z", "s"); ("!m", "y"); ("!s", "y")].
Proof.
  intros k a (ph & J & G). concrete outer. destruct G as [(e & Q & G)|G].
  - repeat (destruct J as [<-|J]; [cbn [phrase_exprs condition_exprs map snd cond_expr app flat_map item_exprs sorting_exprs s_items fst] in Q; hunt; cbn; auto; fail|]). destruct J.
  - repeat (destruct J as [<-|J]; [first [destruct G; fail|hunt; cbn; auto; fail]|]). destruct J.
Qed.
Lemma outer_given : called outer "!z" "s" /\ called outer "!m" "y" /\ called outer "!s" "y".
Proof.
  repeat split; unfold called; concrete outer; (eexists; split; [right; left; reflexivity|]; right).
  - eapply gs_query; [right; left; reflexivity|]. eapply gs_query; [left; reflexivity|]. eapply gs_query; [left; reflexivity|]. eapply gs_query; [right; left; reflexivity|].
    eapply gs_expr; [left; reflexivity|]. eapply ge_inside; [left; reflexivity|]. constructor.
  - eapply gs_query; [right; left; reflexivity|]. eapply gs_query; [right; left; reflexivity|]. eapply gs_expr; [left; reflexivity|]. eapply ge_inside; [left; reflexivity|]. constructor.
  - eapply gs_query; [left; reflexivity|]. eapply gs_query; [right; left; reflexivity|]. eapply gs_expr; [left; reflexivity|]. eapply ge_inside; [left; reflexivity|]. constructor.
Qed.

Example C72_case :
  shared_parts env0 (fun k => exists a, called outer k a) /\ (forall k a, called outer k a -> variable a)
  /\ (exists i, compiles IStart outer = Some i /\ buildable i = true) /\ orderly outer = true
  /\ nested_all env0 (called outer) (written outer) outer_clauses
  /\ kept_apart env0 (called outer) (statement_of outer)
  /\ nodes_once env0 (calls env0 outer (statement_of outer)) (SpecBuilder.clauses (statement_of outer))
  /\ ~ renamed (calls env0 outer (statement_of outer))
  /\ statement_text env0 (statement_of outer)
     = "MATCH (n:`Person`) CALL {UNWIND [1, 2] AS x RETURN (x + 1) AS y UNION ALL CALL {MATCH (c:`City`) RETURN c.size AS s} RETURN s AS y} RETURN n.name, y"
  /\ is_statement env0 (statement_text env0 (statement_of outer)) (CQuery outer_clauses []).
Proof.
  pose proof outer_aliases as NA. destruct outer_given as (G1 & G2 & G3).
  assert (U : forall k, prefix "!" k = false -> unaliased (called outer) k).
  { intros k P a G. apply NA in G. repeat (destruct G as [G|G]; [injection G as <- <-; discriminate P|]). destruct G. }
  assert (H1 : shared_parts env0 (fun k => exists a, called outer k a)).
  { split; [intros o [a G]; apply NA in G; repeat (destruct G as [G|G]; [injection G as G _; destruct o; discriminate G|]); destruct G|].
    repeat split; intros [a G]; apply NA in G; repeat (destruct G as [G|G]; [discriminate G|]); destruct G. }
  assert (H2 : forall k a, called outer k a -> variable a).
  { intros k a G. apply NA in G. repeat (destruct G as [G|G]; [injection G as _ <-; split; reflexivity|]). destruct G. }
  assert (H3 : exists i, compiles IStart outer = Some i /\ buildable i = true) by (eexists; split; vm_compute; reflexivity).
  assert (H4 : orderly outer = true) by (vm_compute; reflexivity).
  assert (H5 : nested_all env0 (called outer) (written outer) outer_clauses) by now apply outer_nested.
  assert (H7 : kept_apart env0 (called outer) (statement_of outer)).
  { split; [split|]; [intros k J [a G]| |intros k a J G].
    - apply NA in G. vm_compute in J. repeat (destruct G as [G|G]; [injection G as <- <-; repeat (destruct J as [J|J]; [discriminate J|]); destruct J|]). destruct G.
    - intros k J X. vm_compute in X. vm_compute in J. repeat (destruct X as [<-|X]; [repeat (destruct J as [J|J]; [discriminate J|]); destruct J|]). destruct X.
    - apply NA in G. vm_compute in J. repeat (destruct G as [G|G]; [injection G as <- <-; repeat (destruct J as [J|J]; [discriminate J|]); destruct J|]). destruct G. }
  assert (H8 : nodes_once env0 (calls env0 outer (statement_of outer)) (SpecBuilder.clauses (statement_of outer))).
  { intros k Y Ag. vm_compute in Y. repeat (destruct Y as [<-|Y]; [destruct Ag as [Ag|Ag]; vm_compute in Ag; lia|]). destruct Y. }
  assert (H9 : ~ renamed (calls env0 outer (statement_of outer))).
  { intros (k & a & G & Ag). cbn [calls again aliases] in *. apply NA in G. repeat (destruct G as [G|G]; [injection G as <- <-; destruct Ag as [Ag|Ag]; vm_compute in Ag; lia|]). destruct G. }
  repeat (split; [first [assumption|vm_compute; reflexivity]|]).
  destruct H3 as (i & C1 & C2). assert (C : SpecTokens.self_contained env0 (e_guid env0)) by (apply word_contained; [exact env0_names|reflexivity]).
  destruct (C72_statements_partial env0 K0 (K0 99) outer i outer_clauses env0_names C H1 H2 C1 C2 H4 H5) as (q & Q & G).
  assert (X : q = statement_of outer) by (unfold statement_of, result_of; now rewrite Q). subst q. now apply G.
Qed.

(** ** What is missing *)

(** A node of the outer statement that is used in a subquery is written there by
    its name only.  A subquery that begins with MATCH knows no variable of the
    statement that calls it: the label asked for is lost. *)
Definition inside : list Builder.call := [Match false [node_value person]; Returning false [GOk (good_of (of_n "a2" "age"))]].
Definition around : list Builder.call :=
  [Match false [node_value person]; Sub (StOk (statement_by (Chain K0 (K0 97) inside))); Returning false [GOk (good_of (of_n "a1" "name"))]].
Definition around_clauses (ls : list string) : list cclause :=
  [CMatch false [CPart None None (CNode (Some "n") ["Person"] None) []] None;
   CSub [CMatch false [CPart None None (CNode (Some "n") ls None) []] None; CReturn (CBody false [CItem (XProp (XVar "n") "age") None] [] None None)] [];
   CReturn (CBody false [CItem (XProp (XVar "n") "name") None] [] None None)].
Theorem C72_shared_node_refuted :
  (forall A, (forall k, prefix "!" k = false -> unaliased A k) -> nested_all env0 A (written around) (around_clauses ["Person"]))
  /\ result_of around = Some (Returns (Built (StOk (statement_of around))))
  /\ rendered (statement_of around) = "MATCH (n:`Person`) CALL {MATCH (n) RETURN n.age} RETURN n.name"
  /\ is_statement env0 (rendered (statement_of around)) (CQuery (around_clauses []) [])
  /\ ~ is_statement env0 (rendered (statement_of around)) (CQuery (around_clauses ["Person"]) []).
Proof.
  split; [|split; [vm_compute; reflexivity|split; [vm_compute; reflexivity|split; [reads 80|]]]].
  - intros A U. assert (X : clause_asked A (PMatch false [element (node_value person)] None) (CMatch false [CPart None None (CNode (Some "n") ["Person"] None) []] None)).
    { apply (node_clause A person (kt "pb") (kt "pa")); [reflexivity|reflexivity|intros ?; apply U; reflexivity|intros ?; apply U; reflexivity|discriminate|discriminate]. }
    assert (Y : forall k x, x <> "" -> (forall n, unaliased A (kt k n)) -> clause_asked A (PReturn false [good_of (of_n k x)] unsorted) (CReturn (CBody false [CItem (XProp (XVar "n") x) None] [] None None))).
    { intros k x N F. apply ca_return. eexists _, []. split; [reflexivity|]. split; [|constructor]. constructor; [|constructor]. apply ia_plain. apply (asked_good A U).
      apply q_property; [exact F| |exact N]. apply (name_good A U); [reflexivity|discriminate]. }
    assert (W : written around = [PMatch false [element (node_value person)] None; PSubquery (statement_by (Chain K0 (K0 97) inside)); PReturn false [good_of (of_n "a1" "name")] unsorted]) by (vm_compute; reflexivity).
    assert (W' : written inside = [PMatch false [element (node_value person)] None; PReturn false [good_of (of_n "a2" "age")] unsorted]) by (vm_compute; reflexivity).
    rewrite W. apply nl_cons; [apply ne_clause; [exact X|drawable_now]|]. apply nl_cons; [|apply nl_cons; [apply ne_clause; [apply Y; [discriminate|intros n; apply U; reflexivity]|drawable_now]|apply nl_nil]].
    apply (ne_statement env0 A (Chain K0 (K0 97) inside)); [proper_now|vm_compute; reflexivity|vm_compute; reflexivity|apart_now U|]. cbn [program]. rewrite W'.
    apply nl_cons; [apply ne_clause; [exact X|drawable_now]|]. apply nl_cons; [apply ne_clause; [apply Y; [discriminate|intros n; apply U; reflexivity]|drawable_now]|apply nl_nil].
  - intros (ts & n & T & H). vm_compute in T. injection T as <-. specialize (H (80 + n) ltac:(lia)). vm_compute in H. discriminate H.
Qed.
Print Assumptions C72_shared_node_refuted.
