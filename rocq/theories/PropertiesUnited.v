(** Headline theorems: C71. *)

From Coq Require Import Ascii String List ZArith Bool Lia.
From Verif Require Import PropertiesRender GoStr Escape Num VTree WellKeyed SpecLex SpecNum SpecSpace SpecTokens EscapeProofs GoStrProofs Ast SpecDoc
  SpecPrint SpecShape SpecOutline SpecGrammar SpecReading GoVal Maps Slices Patterns SpecPattern PatternProofs ChainProofs Cond Queries Builder BuilderText SpecBuilder SpecPhrases SpecCalled
  PropertiesText PropertiesTokens TokenTexts SpecCond PropertiesExpr PropertiesBuilder PropertiesGrammar PropertiesCalled Exprs Functions SpecCalls FunctionProofs
  SpecAsked AskedProofs PropertiesAsked SpecDrawn DrawnProofs DrawnClauses PropertiesDrawn SpecUnited UnitedProofs.
Import ListNotations.
Open Scope string_scope.
Open Scope nat_scope.
Open Scope list_scope.

(** Two or more chains are built and joined by Union or UnionAll.  Who reads the
    text reads a union of as many statements, all joined alike, and the clauses of
    each are those its own calls ask for. *)
Theorem C71_unions_partial : forall E ku all xs,
  no_space_in_names E -> SpecTokens.self_contained E (e_guid E) ->
  shared_parts E (fun k => exists a, called_in xs k a) -> (forall k a, called_in xs k a -> variable a) ->
  2 <= length xs -> Forall proper xs ->
  (forall x, List.In x xs -> Forall (in_place_phrase E (called_in xs)) (written (program x))
                             /\ Forall (readable_phrase E (called_in xs)) (written (program x))) ->
  exists qs u, Forall2 builds xs qs /\ union_impl ku all (map StOk qs) = StOk u
    /\ (union_apart E (called_in xs) u ->
        exists ls, is_statement E (statement_text E u) (union_of all ls)
          /\ Forall2 (fun x l => Forall2 (asks E (in_union E xs u)) (written (program x)) l) xs ls).
Proof.
  intros E ku all xs NS G SP AN L PR PH.
  assert (B : exists qs, Forall2 builds xs qs).
  { clear - PR. induction PR as [|[Kp ks p] xs ((i & C & B) & O) _ (qs & IH)]; [now exists []|].
    destruct (C26_clauses_in_call_order_partial Kp ks p i C B O) as (q & Q & _). exists (q :: qs). now constructor. }
  destruct B as (qs & BU). destruct BU as [|x q xs qs B1 BU]; [cbn in L; lia|]. destruct BU as [|x2 q2 xs qs B2 BU]; [cbn in L; lia|].
  assert (N : match q with QUnion _ _ _ => False | _ => True end) by (inversion PR; subst; now apply (not_union x)).
  exists (q :: q2 :: qs), (QUnion (ku 0) q (part_list ku all (q2 :: qs))). split; [repeat (constructor; [assumption|]); exact BU|]. split; [now apply united|].
  intros KA. destruct (union_read E (x :: x2 :: xs) (ku 0) q (part_list ku all (q2 :: qs)) NS G SP AN PR) as (l & us & St & Us & Fa); [|exact PH|exact KA|].
  - cbn [members]. rewrite part_list_snd. repeat (constructor; [assumption|]). exact BU.
  - exists (l :: map snd us). split; [|exact Fa]. replace (union_of all (l :: map snd us)) with (CQuery l us); [exact St|]. cbn [union_of]. f_equal.
    assert (Al : Forall (fun b => b = all) (map fst us)).
    { rewrite Us. apply Forall_forall. intros b J. apply in_map_iff in J as (p & <- & J). now apply (part_list_all ku all (q2 :: qs)). }
    clear - Al. induction us as [|[b u] us IH]; [reflexivity|]. cbn in *. inversion Al; subst. now rewrite <- IH.
Qed.
Print Assumptions C71_unions_partial.

(** When the operands are made by calls, the union is read as the clauses asked
    for, part by part, and as nothing else. *)
Lemma asked_phrases : forall E (A : key -> string -> Prop), no_space_in_names E -> unaliased A "" -> forall xs css,
  Forall2 (fun x cs => Forall2 (clause_asked A) (written (program x)) cs) xs css -> Forall (Forall (drawable_clause E)) css ->
  forall x, List.In x xs -> Forall (in_place_phrase E A) (written (program x)) /\ Forall (readable_phrase E A) (written (program x)).
Proof.
  intros E A NS NK xs css F. induction F as [|y cs xs css H F IH]; intros D x J; [destruct J|]. inversion D as [|? ? Dy D']; subst. destruct J as [->|J]; [|now apply IH].
  apply Forall_and_inv. clear - H Dy NS NK. induction H as [|ph c phs cs H _ IH]; constructor; inversion Dy; subst; [|auto].
  destruct (clause_back E (Register A (fun _ => False)) NS NK ph c H); [assumption|]. now split.
Qed.
Lemma same_clauses : forall E (A : register), no_space_in_names E -> unaliased A "" -> ~ renamed A -> forall phs cs ts,
  Forall2 (clause_asked A) phs cs -> Forall (drawable_clause E) cs -> (forall ph, List.In ph phs -> ~ phrase_again E A ph) -> Forall2 (asks E A) phs ts -> ts = cs.
Proof.
  intros E A NS NK R phs cs ts F. revert ts. induction F as [|ph c phs cs H F IH]; intros ts D N M; inversion M; subst; [reflexivity|]. inversion D; subst. f_equal.
  - apply (near_clause_same (phrase_again E A ph) (renamed A)); [apply N; now left|exact R|]. now apply (clause_only E A NS NK).
  - apply IH; [assumption| |assumption]. intros x J. apply N. now right.
Qed.
Theorem C71_union_statements_partial : forall E ku all xs css,
  no_space_in_names E -> SpecTokens.self_contained E (e_guid E) ->
  shared_parts E (fun k => exists a, called_in xs k a) -> (forall k a, called_in xs k a -> variable a) ->
  2 <= length xs -> Forall proper xs ->
  Forall2 (fun x cs => Forall2 (clause_asked (called_in xs)) (written (program x)) cs) xs css -> Forall (Forall (drawable_clause E)) css ->
  exists qs u, Forall2 builds xs qs /\ union_impl ku all (map StOk qs) = StOk u
    /\ (union_apart E (called_in xs) u ->
        (forall x ph, List.In x xs -> List.In ph (written (program x)) -> ~ phrase_again E (in_union E xs u) ph) -> ~ renamed (in_union E xs u) ->
        is_statement E (statement_text E u) (union_of all css)).
Proof.
  intros E ku all xs css NS G SP AN L PR AS DR.
  assert (NK : unaliased (called_in xs) "") by (intros a X; apply (proj1 (proj2 SP)); now exists a).
  destruct (C71_unions_partial E ku all xs NS G SP AN L PR (asked_phrases E (called_in xs) NS NK xs css AS DR)) as (qs & u & BU & UN & T).
  exists qs, u. split; [exact BU|]. split; [exact UN|]. intros KA N R. destruct (T KA) as (ls & St & Fa). assert (ls = css) as ->; [|exact St].
  assert (AS' : Forall2 (fun x cs => Forall2 (clause_asked (in_union E xs u)) (written (program x)) cs) xs css) by exact AS.
  assert (NK' : unaliased (in_union E xs u) "") by exact NK.
  clear - NS NK' AS' DR N R Fa. revert NK' AS' DR N R Fa. generalize (in_union E xs u) as A. intros A NK AS DR N R. revert ls.
  induction AS as [|x cs xs css H AS IH]; intros ls Fa; inversion Fa; subst; [reflexivity|]. inversion DR; subst. f_equal.
  - apply (same_clauses E A NS NK R (written (program x))); [assumption|assumption| |assumption]. intros ph. apply N. now left.
  - apply IH; [assumption| |assumption]. intros z ph J. apply N. now right.
Qed.
Print Assumptions C71_union_statements_partial.

(** The same of the text the renderer writes. *)
Theorem C71_rendered_union_statements_partial : forall (err : Type) E ku all xs css,
  no_space_in_names E -> SpecTokens.self_contained E (e_guid E) ->
  shared_parts E (fun k => exists a, called_in xs k a) -> (forall k a, called_in xs k a -> variable a) ->
  2 <= length xs -> Forall proper xs ->
  Forall2 (fun x cs => Forall2 (clause_asked (called_in xs)) (written (program x)) cs) xs css -> Forall (Forall (drawable_clause E)) css ->
  exists qs u, Forall2 builds xs qs /\ union_impl ku all (map StOk qs) = StOk u
    /\ (union_apart E (called_in xs) u -> well_keyed (to_vtq E u) = true -> well_quiet (to_vtq E u) = true ->
        (forall x ph, List.In x xs -> List.In ph (written (program x)) -> ~ phrase_again E (in_union E xs u) ph) -> ~ renamed (in_union E xs u) ->
        is_statement E (fst (fst (render (err:=err) (SOk (to_vtq E u)) new_renderer))) (union_of all css)).
Proof.
  intros err E ku all xs css NS G SP AN L PR AS DR. destruct (C71_union_statements_partial E ku all xs css NS G SP AN L PR AS DR) as (qs & u & BU & UN & T).
  exists qs, u. split; [exact BU|]. split; [exact UN|]. intros KA W Qt N R. rewrite (C01_rendering_prints_the_statement_partial err E u W Qt). cbn [fst]. now apply T.
Qed.
Print Assumptions C71_rendered_union_statements_partial.

(** Statements that are added to such a union later are joined as if all had
    been given at once, so what is said above holds of them, too. *)
Theorem C71_adding_to_a_union : forall ku ku' all xs ys qs rs u,
  2 <= length xs -> ys <> [] -> Forall proper xs -> Forall2 builds xs qs -> Forall2 builds ys rs ->
  union_impl ku all (map StOk qs) = StOk u ->
  union_impl ku' all (StOk u :: map StOk rs) = union_impl ku' all (map StOk (qs ++ rs)).
Proof.
  intros ku ku' all xs ys qs rs u L Y PR BU BY UN. destruct BU as [|x q xs qs B1 BU]; [cbn in L; lia|]. destruct BU as [|x2 q2 xs qs B2 BU]; [cbn in L; lia|].
  assert (N : match q with QUnion _ _ _ => False | _ => True end) by (inversion PR; subst; now apply (not_union x)).
  rewrite (united ku all q q2 qs N) in UN. injection UN as <-. rewrite (united_more ku ku' all q q2 qs rs N). destruct BY; [now destruct Y|]. reflexivity.
Qed.
Print Assumptions C71_adding_to_a_union.

(** ** Chains that meet the hypotheses *)

Definition older : Builder.call := Where (Atom (good_of grown)).
Definition how_many : list Builder.call := [Match false [node_value person]; older; Returning false [GOk (good_of (as_ (kt "w") (counted "!c") "y"))]].
Definition increased : list Builder.call :=
  [Unwind (GOk (good_of pair_list)) "x"; With true [GOk (good_of (sy "x"))]; Returning false [GOk (good_of (as_ (kt "z") (sum "!s") "y"))]].
Definition both : list chain := [Chain K0 (K0 98) how_many; Chain K0 (K0 99) increased].
Definition both_clauses : list (list cclause) :=
  [[CMatch false [CPart None None (CNode (Some "n") ["Person"] None) []] (Some (XBin OGt (XProp (XVar "n") "age") (XNum "30")));
    CReturn (CBody false [CItem (XCall ["count"] false [XProp (XVar "n") "id"]) (Some "y")] [] None None)];
   [CUnwind (XList [XNum "1"; XNum "2"]) "x"; CWith (CBody true [CItem (XVar "x") None] [] None None) None;
    CReturn (CBody false [CItem (XBin OAdd (XVar "x") (XNum "1")) (Some "y")] [] None None)]].
Definition statement_by (x : chain) : query := match build_program (making x) (closing x) (program x) with Some (Returns (Built (StOk q))) => q | _ => QSingle [] None end.
Definition union_by (all : bool) (xs : list chain) : query := match union_impl (kt "un") all (map (fun x => StOk (statement_by x)) xs) with StOk u => u | _ => QSingle [] None end.

Section Both.
Context (A : key -> string -> Prop) (U : forall k, prefix "!" k = false -> unaliased A k).
Ltac free := first [apply U; reflexivity|intros ?; apply U; reflexivity|discriminate].
Ltac props := apply (of_n_asked A U); [reflexivity|reflexivity|discriminate|intros ?; apply U; reflexivity].
Ltac names := apply (name_good A U); [reflexivity|discriminate].
Lemma both_asked : A "!c" "y" -> A "!s" "y" -> Forall2 (fun x cs => Forall2 (clause_asked A) (written (program x)) cs) both both_clauses.
Proof.
  intros Ac As. constructor; [|constructor; [|constructor]]; cbn [program].
  - assert (W : written how_many = [PMatch false [element (node_value person)] (Some (Atom (good_of grown), [])); PReturn false [good_of (as_ (kt "w") (counted "!c") "y")] unsorted]) by (vm_compute; reflexivity).
    rewrite W. constructor; [|constructor; [|constructor]].
    + apply ca_match.
      * constructor; [|constructor]. apply pa_chain. apply (ca_node A _ person). apply (na_named A (kt "pb") "n" None); [free|free|]. apply na_label; free.
      * apply (wa_some A None _ (XBin OGt (XProp (XVar "n") "age") (XNum "30"))); [|constructor]. apply co_one, (asked_good A U). apply (q_compare A (kt "gr") Gt); [free|props|]. apply (small A U "th" 30); [reflexivity|unfold short; lia].
    + apply ca_return. eexists _, []. split; [reflexivity|]. split; [|constructor]. constructor; [|constructor].
      eapply (ia_alias A (kt "w") "!c" _ (good_of (counted "f")) "y" _ NilValue); [free| |discriminate|exact Ac|reflexivity].
      apply (asked_good A U). apply (q_fn1 A (first_key "f" (kt "cn")) CountByExpression _ (of_n "a3" "id")); [intros [|n]; free|props|discriminate|reflexivity].
  - assert (W : written increased = [PUnwind (good_of pair_list) "x"; PWith true [good_of (sy "x")] unsorted None; PReturn false [good_of (as_ (kt "z") (sum "!s") "y")] unsorted]) by (vm_compute; reflexivity).
    rewrite W. constructor; [|constructor; [|constructor; [|constructor]]].
    + apply ca_unwind. apply (asked_good A U). apply (q_list A (kt "pl") _ [int_value "i1" 1; int_value "i2" 2]); [free| |reflexivity].
      apply q_cons; [apply (small A U "i1" 1); [reflexivity|unfold short; lia]|]. apply q_cons; [apply (small A U "i2" 2); [reflexivity|unfold short; lia]|apply q_nil].
    + apply ca_with; [|constructor]. eexists _, []. split; [reflexivity|]. split; [|constructor]. constructor; [|constructor]. apply ia_plain. apply (asked_good A U). names.
    + apply ca_return. eexists _, []. split; [reflexivity|]. split; [|constructor]. constructor; [|constructor].
      eapply (ia_alias A (kt "z") "!s" _ (good_of (sum "f")) "y" _ NilValue); [free| |discriminate|exact As|reflexivity].
      apply (asked_good A U). apply (q_compute A (first_key "f" (kt "su")) Add); [intros [|n]; free|names|]. apply (small A U "on" 1); [reflexivity|unfold short; lia].
Qed.
End Both.

Lemma both_aliases : forall k a, called_in both k a -> List.In (k, a) [("!c", "y"); ("!s", "y")].
Proof.
  intros k a (x & [<-|[<-|[]]] & ph & J & G); cbn [program] in J; [concrete how_many|concrete increased].
  all: destruct G as [(e & Q & G)|G]; [repeat (destruct J as [<-|J]; [cbn [phrase_exprs condition_exprs map snd cond_expr app flat_map item_exprs sorting_exprs s_items fst] in Q; hunt; cbn; auto; fail|]); destruct J
    |repeat (destruct J as [<-|J]; [destruct G|]); destruct J].
Qed.
Lemma both_given : called_in both "!c" "y" /\ called_in both "!s" "y".
Proof.
  split; [exists (Chain K0 (K0 98) how_many); split; [now left|]|exists (Chain K0 (K0 99) increased); split; [right; now left|]]; unfold called; cbn [program]; [concrete how_many|concrete increased].
  - eexists. split; [right; left; reflexivity|]. left. eexists. split; [cbn [phrase_exprs app List.In]; left; reflexivity|]. constructor.
  - eexists. split; [right; right; left; reflexivity|]. left. eexists. split; [cbn [phrase_exprs app List.In]; left; reflexivity|]. constructor.
Qed.

Example C71_case :
  shared_parts env0 (fun k => exists a, called_in both k a) /\ (forall k a, called_in both k a -> variable a)
  /\ 2 <= length both /\ Forall proper both
  /\ Forall2 (fun x cs => Forall2 (clause_asked (called_in both)) (written (program x)) cs) both both_clauses /\ Forall (Forall (drawable_clause env0)) both_clauses
  /\ union_apart env0 (called_in both) (union_by true both)
  /\ (forall x ph, List.In x both -> List.In ph (written (program x)) -> ~ phrase_again env0 (in_union env0 both (union_by true both)) ph)
  /\ ~ renamed (in_union env0 both (union_by true both))
  /\ statement_text env0 (union_by true both)
     = "MATCH (n:`Person`) WHERE n.age > 30 RETURN count(n.id) AS y UNION ALL UNWIND [1, 2] AS x WITH DISTINCT x RETURN (x + 1) AS y"
  /\ is_statement env0 (statement_text env0 (union_by true both)) (union_of true both_clauses).
Proof.
  pose proof both_aliases as NA. destruct both_given as (G1 & G2).
  assert (U : forall k, prefix "!" k = false -> unaliased (called_in both) k).
  { intros k P a G. apply NA in G. repeat (destruct G as [G|G]; [injection G as <- <-; discriminate P|]). destruct G. }
  assert (H1 : shared_parts env0 (fun k => exists a, called_in both k a)).
  { split; [intros o [a G]; apply NA in G; repeat (destruct G as [G|G]; [injection G as G _; destruct o; discriminate G|]); destruct G|].
    repeat split; intros [a G]; apply NA in G; repeat (destruct G as [G|G]; [discriminate G|]); destruct G. }
  assert (H2 : forall k a, called_in both k a -> variable a).
  { intros k a G. apply NA in G. repeat (destruct G as [G|G]; [injection G as _ <-; split; reflexivity|]). destruct G. }
  assert (H3 : 2 <= length both) by (cbn; lia).
  assert (H4 : Forall proper both) by (constructor; [|constructor; [|constructor]]; (split; [eexists; split; vm_compute; reflexivity|vm_compute; reflexivity])).
  assert (H5 : Forall2 (fun x cs => Forall2 (clause_asked (called_in both)) (written (program x)) cs) both both_clauses) by now apply both_asked.
  assert (H6 : Forall (Forall (drawable_clause env0)) both_clauses).
  { unfold both_clauses. repeat constructor; cbn; repeat (first [split|constructor]); try reflexivity; try discriminate; try lia. }
  assert (H7 : union_apart env0 (called_in both) (union_by true both)).
  { split; [|split].
    - intros q k a J I G. apply NA in G. assert (Y : List.In k (flat_map (fun q => flat_map clause_keys (SpecBuilder.clauses q) ++ flat_map inner_clause_keys (SpecBuilder.clauses q)) (members (union_by true both)))) by (apply in_flat_map; eauto).
      clear - Y G. vm_compute in Y. repeat (destruct G as [G|G]; [injection G as <- <-; repeat (destruct Y as [Y|Y]; [discriminate Y|]); destruct Y|]). destruct G.
    - intros k a J G. apply NA in G. vm_compute in J. repeat (destruct G as [G|G]; [injection G as <- <-; repeat (destruct J as [J|J]; [discriminate J|]); destruct J|]). destruct G.
    - intros k J X. vm_compute in X. vm_compute in J. repeat (destruct X as [<-|X]; [repeat (destruct J as [J|J]; [discriminate J|]); destruct J|]). destruct X. }
  assert (H8 : forall x ph, List.In x both -> List.In ph (written (program x)) -> ~ phrase_again env0 (in_union env0 both (union_by true both)) ph).
  { intros x ph Jx J X. apply Exists_exists in X as (e & I & k & Ik & Ag).
    assert (Y : List.In k (flat_map (fun x => flat_map (fun ph => flat_map (fun e => node_mentions (print env0 e)) (phrase_patterns ph)) (written (program x))) both)).
    { apply in_flat_map. exists x. split; [exact Jx|]. apply in_flat_map. exists ph. split; [exact J|]. apply in_flat_map. eauto. }
    clear - Y Ag. vm_compute in Y. repeat (destruct Y as [<-|Y]; [destruct Ag as [Ag|Ag]; vm_compute in Ag; lia|]). destruct Y. }
  assert (H9 : ~ renamed (in_union env0 both (union_by true both))).
  { intros (k & a & G & Ag). cbn [in_union again aliases] in *. apply NA in G. repeat (destruct G as [G|G]; [injection G as <- <-; destruct Ag as [Ag|Ag]; vm_compute in Ag; lia|]). destruct G. }
  repeat (split; [first [assumption|vm_compute; reflexivity]|]).
  assert (C : SpecTokens.self_contained env0 (e_guid env0)) by (apply word_contained; [exact env0_names|reflexivity]).
  destruct (C71_union_statements_partial env0 (kt "un") true both both_clauses env0_names C H1 H2 H3 H4 H5 H6) as (qs & u & BU & UN & T).
  assert (Q : qs = map statement_by both).
  { clear - BU. induction BU as [|x q xs qs B _ IH]; [reflexivity|]. cbn [map]. rewrite IH. f_equal. unfold statement_by. unfold builds in B. now rewrite B. }
  assert (X : u = union_by true both). { unfold union_by. rewrite <- (map_map statement_by StOk), <- Q, UN. reflexivity. } subst u. now apply T.
Qed.

(** ** What is missing *)

(** A node that occurs in two parts is written in full in the first one only,
    although the parts of a union know nothing of each other's variables: the label
    asked for in the second part is lost. *)
Definition by_age (k x : string) : list Builder.call := [Match false [node_value person]; Returning false [GOk (good_of (of_n k x))]].
Definition shared_node : list chain := [Chain K0 (K0 98) (by_age "a1" "age"); Chain K0 (K0 99) (by_age "a2" "name")].
Definition shared_clauses (ls : list string) : list (list cclause) :=
  [[CMatch false [CPart None None (CNode (Some "n") ["Person"] None) []] None; CReturn (CBody false [CItem (XProp (XVar "n") "age") None] [] None None)];
   [CMatch false [CPart None None (CNode (Some "n") ls None) []] None; CReturn (CBody false [CItem (XProp (XVar "n") "name") None] [] None None)]].
Theorem C71_shared_node_refuted :
  (forall A, (forall k, prefix "!" k = false -> unaliased A k) ->
    Forall2 (fun x cs => Forall2 (clause_asked A) (written (program x)) cs) shared_node (shared_clauses ["Person"]))
  /\ Forall (Forall (drawable_clause env0)) (shared_clauses ["Person"]) /\ Forall proper shared_node
  /\ Forall2 builds shared_node (map statement_by shared_node) /\ union_impl (kt "un") false (map StOk (map statement_by shared_node)) = StOk (union_by false shared_node)
  /\ rendered (union_by false shared_node) = "MATCH (n:`Person`) RETURN n.age UNION MATCH (n) RETURN n.name"
  /\ is_statement env0 (rendered (union_by false shared_node)) (union_of false (shared_clauses []))
  /\ ~ is_statement env0 (rendered (union_by false shared_node)) (union_of false (shared_clauses ["Person"])).
Proof.
  split; [|split; [|split; [|split; [|split; [|split; [|split]]]]]].
  - intros A U. assert (X : forall k x, x <> "" -> (forall n, unaliased A (kt k n)) -> Forall2 (clause_asked A) [PMatch false [element (node_value person)] None; PReturn false [good_of (of_n k x)] unsorted]
      [CMatch false [CPart None None (CNode (Some "n") ["Person"] None) []] None; CReturn (CBody false [CItem (XProp (XVar "n") x) None] [] None None)]).
    { intros k x N F. constructor; [|constructor; [|constructor]].
      - apply ca_match; [|constructor]. constructor; [|constructor]. apply pa_chain. apply (ca_node A _ person). apply (na_named A (kt "pb") "n" None); [intros ?; apply U; reflexivity|discriminate|]. apply na_label; [intros ?; apply U; reflexivity|discriminate].
      - apply ca_return. eexists _, []. split; [reflexivity|]. split; [|constructor]. constructor; [|constructor]. apply ia_plain. apply (asked_good A U).
        apply q_property; [exact F| |exact N]. apply (name_good A U); [reflexivity|discriminate]. }
    constructor; [|constructor; [|constructor]]; (apply X; [discriminate|intros n; apply U; reflexivity]).
  - unfold shared_clauses. repeat constructor; cbn; repeat (first [split|constructor]); try reflexivity; try discriminate; try lia.
  - constructor; [|constructor; [|constructor]]; (split; [eexists; split; vm_compute; reflexivity|vm_compute; reflexivity]).
  - constructor; [|constructor; [|constructor]]; vm_compute; reflexivity.
  - vm_compute; reflexivity.
  - vm_compute; reflexivity.
  - reads 80.
  - intros (ts & n & T & H). vm_compute in T. injection T as <-. specialize (H (80 + n) ltac:(lia)). vm_compute in H. discriminate H.
Qed.
Print Assumptions C71_shared_node_refuted.
