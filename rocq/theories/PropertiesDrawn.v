(** Headline theorems: C70. *)

From Coq Require Import Ascii String List ZArith Bool Lia.
From Verif Require Import PropertiesRender GoStr Escape Num VTree WellKeyed SpecLex SpecNum SpecSpace SpecTokens EscapeProofs GoStrProofs Ast SpecDoc
  SpecPrint SpecShape SpecOutline SpecGrammar SpecReading GoVal Maps Slices Patterns SpecPattern PatternProofs ChainProofs Cond Queries Builder SpecBuilder SpecPhrases SpecCalled
  PropertiesText PropertiesTokens TokenTexts SpecCond PropertiesExpr PropertiesBuilder PropertiesGrammar PropertiesCalled Exprs Functions SpecCalls FunctionProofs
  SpecAsked AskedProofs PropertiesAsked SpecDrawn DrawnProofs DrawnClauses.
Import ListNotations.
Open Scope string_scope.
Open Scope nat_scope.
Open Scope list_scope.

(** The calls that draw a pattern return it without an error.  A Cypher reader
    reads it as what was drawn, and as nothing else unless one of its named nodes
    is written more than once in the statement: then that node may be read by its
    name. *)
Theorem C70_patterns_partial : forall E (A : register) c g,
  no_space_in_names E -> unaliased A "" -> part_asked A c g -> drawable E c ->
  exists e, g = GOk e /\ SpecReading.readable E A PartP e /\ agrees_part E A c e
    /\ forall t, agrees_part E A t e -> near_part (node_again E (again A) e) t c.
Proof.
  intros E A c g NS NK H D. destruct (part_read A NK E NS c g H) as (e & -> & S & N & R). exists e. split; [reflexivity|]. split; [now apply R|]. auto.
Qed.
Print Assumptions C70_patterns_partial.

(** When no named node of it is written again, it is what was drawn. *)
Lemma near_same : forall (R : Prop) t c, ~ R -> near_part R t c -> t = c.
Proof.
  intros R [p f n h] [p' f' n' h'] N (-> & -> & Hn & F). assert (X : forall a b, near_node R a b -> a = b) by (intros a b [x|x ls ps r]; [reflexivity|now destruct N]).
  rewrite (X _ _ Hn). f_equal. induction F as [|[a b] [a' b'] l l' [Ea Eb] F IH]; [reflexivity|]. cbn in *. now rewrite Ea, (X _ _ Eb), IH.
Qed.
Theorem C70_patterns_once_partial : forall E (A : register) c g,
  no_space_in_names E -> unaliased A "" -> part_asked A c g -> drawable E c ->
  exists e, g = GOk e /\ (~ node_again E (again A) e -> forall t, agrees_part E A t e <-> t = c).
Proof.
  intros E A c g NS NK H D. destruct (part_read A NK E NS c g H) as (e & -> & S & N & R). exists e. split; [reflexivity|]. intros X t. split.
  - intros Ht. apply (near_same (node_again E (again A) e)); auto.
  - now intros ->.
Qed.
Print Assumptions C70_patterns_once_partial.

(** ** Clauses *)

(** The clause asked for is the one that is read, and the only one when no named
    node of the phrase and no element with an alias is written again. *)
Theorem C70_clauses_partial : forall E (A : register) ph c,
  no_space_in_names E -> unaliased A "" -> clause_asked A ph c -> drawable_clause E c ->
  readable_phrase E A ph /\ in_place_phrase E A ph /\ forall t, asks E A ph t -> near_clause (phrase_again E A ph) (renamed A) t c.
Proof.
  intros E A ph c NS NK H D. destruct (clause_back E A NS NK ph c H D) as [R P]. split; [exact R|]. split; [exact P|]. intros t. now apply clause_only.
Qed.
Print Assumptions C70_clauses_partial.

(** ** Chains of builder calls

    Each phrase is either made of what the calls above make, or can be read back
    as C65 asks. *)
Theorem C70_chains_partial : forall E Kp ks p i,
  no_space_in_names E -> SpecTokens.self_contained E (e_guid E) ->
  shared_parts E (fun k => exists a, called p k a) -> (forall k a, called p k a -> variable a) ->
  compiles IStart p = Some i -> buildable i = true -> orderly p = true ->
  Forall (fun ph => (exists c, clause_asked (called p) ph c /\ drawable_clause E c)
                    \/ (in_place_phrase E (called p) ph /\ readable_phrase E (called p) ph)) (written p) ->
  exists q, build_program Kp ks p = Some (Returns (Built (StOk q)))
    /\ (kept_apart E (called p) q ->
        exists l, is_statement E (statement_text E q) (CQuery l [])
          /\ Forall2 (fun ph t => asks E (calls E p q) ph t
               /\ forall c, clause_asked (called p) ph c -> drawable_clause E c -> near_clause (phrase_again E (calls E p q) ph) (renamed (calls E p q)) t c) (written p) l).
Proof.
  intros E Kp ks p i NS G SP AN C B O F.
  assert (NK : unaliased (called p) "") by (intros a X; apply (proj1 (proj2 SP)); now exists a).
  assert (F' : Forall (fun ph => in_place_phrase E (called p) ph /\ readable_phrase E (called p) ph) (written p)).
  { eapply Forall_impl; [|exact F]. intros ph [(c & H & D)|H]; [|exact H]. destruct (clause_back E (Register (called p) (fun _ => False)) NS NK ph c H D). split; assumption. }
  apply Forall_and_inv in F' as [F1 F2].
  destruct (C65_calls_read_from_the_text_partial E Kp ks p i NS G SP AN C B O F1 F2) as (q & Q & T). exists q. split; [exact Q|].
  intros KA. destruct (T KA) as (l & S & Fa). exists l. split; [exact S|]. eapply Forall2_impl; [|exact Fa]. intros ph t Ha. split; [exact Ha|].
  intros c Hc Dc. now apply (clause_only E (calls E p q) NS NK).
Qed.
Print Assumptions C70_chains_partial.

(** A chain all of whose operands are made by such calls: the text of the
    statement that is built is read as the clauses asked for. *)
Lemma all_same : forall X (R : X -> X -> Prop) l m, (forall x y, R x y -> x = y) -> Forall2 R l m -> l = m.
Proof. intros X R l m N F. induction F; f_equal; auto. Qed.
Lemma near_clause_same : forall (R S : Prop) t c, ~ R -> ~ S -> near_clause R S t c -> t = c.
Proof.
  intros R S t c N M H. assert (B : forall x, ~ by_alias S x) by (intros x [X _]; auto).
  assert (P : forall l m, Forall2 (near_part R) l m -> l = m) by (intros l m; apply all_same; intros x y; now apply near_same).
  assert (V : forall x y, near_condition S x y -> x = y) by (intros x y X; induction X as [x|x y X|b x y z X IH]; [reflexivity|destruct (B x X)|now rewrite IH]).
  assert (W : forall x y, near_where S x y -> x = y) by (intros [x|] [y|] X; [now rewrite (V x y X)|destruct X|destruct X|reflexivity]).
  assert (I : forall l m, Forall2 (near_item S) l m -> l = m).
  { intros l m. apply all_same. intros x y [X|(a & _ & X & _)]; [exact X|now destruct (B _ X)]. }
  assert (L : forall x y, near_labels S x y -> x = y) by (intros x y [X|(u & v & ls & _ & _ & X)]; [exact X|now destruct (B u)]).
  assert (T : forall l m, Forall2 (near_set S) l m -> l = m).
  { intros l m. apply all_same. intros x y [X|(u & v & -> & -> & X)]; [exact X|now rewrite (L u v X)]. }
  assert (D : forall x y, near_body S x y -> x = y).
  { intros [d its o s l] [d' its' o' s' l'] (-> & X & -> & -> & ->). now rewrite (I _ _ X). }
  destruct t, c; cbn [near_clause] in H; try exact H.
  - destruct H as (-> & F & X). now rewrite (P _ _ F), (W _ _ X).
  - now rewrite (P _ _ H).
  - destruct H as (F & X). rewrite (P _ _ F). f_equal. revert X. apply all_same. intros [x1 x2] [y1 y2] [Q X]. cbn in *. now rewrite Q, (T _ _ X).
  - now rewrite (T _ _ H).
  - f_equal. revert H. now apply all_same.
  - destruct H as (-> & [->|X]); [reflexivity|now destruct (B _ X)].
  - destruct H as (H & X). now rewrite (D _ _ H), (W _ _ X).
  - now rewrite (D _ _ H).
  - destruct H as (-> & -> & Y & X). rewrite (W _ _ X). f_equal. destruct yield, yield0; try now destruct Y. now rewrite (I _ _ Y).
Qed.
Theorem C70_statements_partial : forall E Kp ks p i cs,
  no_space_in_names E -> SpecTokens.self_contained E (e_guid E) ->
  shared_parts E (fun k => exists a, called p k a) -> (forall k a, called p k a -> variable a) ->
  compiles IStart p = Some i -> buildable i = true -> orderly p = true ->
  Forall2 (clause_asked (called p)) (written p) cs -> Forall (drawable_clause E) cs ->
  exists q, build_program Kp ks p = Some (Returns (Built (StOk q)))
    /\ (kept_apart E (called p) q ->
        (forall ph, List.In ph (written p) -> ~ phrase_again E (calls E p q) ph) -> ~ renamed (calls E p q) ->
        is_statement E (statement_text E q) (CQuery cs [])).
Proof.
  intros E Kp ks p i cs NS G SP AN C B O F D.
  destruct (C70_chains_partial E Kp ks p i NS G SP AN C B O) as (q & Q & T).
  { clear - F D. induction F as [|ph c l cs H F IH]; [constructor|]. inversion D; subst. constructor; [left; eauto|now apply IH]. }
  exists q. split; [exact Q|]. intros KA N M. destruct (T KA) as (l & S & Fa). assert (l = cs) as ->; [|exact S]. clear - F D Fa N M.
  revert l Fa. induction F as [|ph c phs cs H F IH]; intros l Fa; inversion Fa as [|? t ? l' [_ Ht] Fa']; subst; [reflexivity|]. inversion D; subst. f_equal.
  - apply (near_clause_same (phrase_again E (calls E p q) ph) (renamed (calls E p q))); [apply N; now left|exact M|now apply Ht].
  - apply IH; [assumption| |assumption]. intros x J. apply N. now right.
Qed.
Print Assumptions C70_statements_partial.

(** The same of the text the renderer writes. *)
Theorem C70_rendered_statements_partial : forall (err : Type) E Kp ks p i cs,
  no_space_in_names E -> SpecTokens.self_contained E (e_guid E) ->
  shared_parts E (fun k => exists a, called p k a) -> (forall k a, called p k a -> variable a) ->
  compiles IStart p = Some i -> buildable i = true -> orderly p = true ->
  Forall2 (clause_asked (called p)) (written p) cs -> Forall (drawable_clause E) cs ->
  exists q, build_program Kp ks p = Some (Returns (Built (StOk q)))
    /\ (kept_apart E (called p) q -> well_keyed (to_vtq E q) = true -> well_quiet (to_vtq E q) = true ->
        (forall ph, List.In ph (written p) -> ~ phrase_again E (calls E p q) ph) -> ~ renamed (calls E p q) ->
        is_statement E (fst (fst (render (err:=err) (SOk (to_vtq E q)) new_renderer))) (CQuery cs [])).
Proof.
  intros err E Kp ks p i cs NS G SP AN C B O F D. destruct (C70_statements_partial E Kp ks p i cs NS G SP AN C B O F D) as (q & Q & T).
  exists q. split; [exact Q|]. intros KA W Qt N M. rewrite (C01_rendering_prints_the_statement_partial err E q W Qt). cbn [fst]. now apply T.
Qed.
Print Assumptions C70_rendered_statements_partial.

(** ** A chain that meets the hypotheses *)

Definition a_map (p : string) (l : list any) : gmap := match new_map (KM p) l with Returns g => gmap_of g | _ => NoMap end.
Definition element (g : gval) : expr := match g with GOk e => e | GErr _ _ => ESym "" "" end.
Definition good_of (v : value) : expr := match v with Elem (Good e) _ => e | _ => ESym "" "" end.

Definition ann : node := node_named_by_string (kt "na") (node_with_properties (kt "np") "Person" (a_map "nm" [AString "name"; AString "Ann"]) ["Pilot"]) "n".
Definition other : node := node_named_by_string (kt "ob") (Patterns.a_node (kt "oa") "Person") "m".
Definition a_film : node := Patterns.a_node (kt "fl") "Film".
Definition knows : leg := Leg (kt "lk") LTR other ["KNOWS"; "LIKES"]
  [(kt "c1", SetName "r"); (kt "c2", SetMin 1); (kt "c3", SetMax 3); (kt "c4", SetProps (a_map "rm" [AString "since"; AInt 2000]))].
Definition saw : leg := Leg (kt "ls") RTL a_film [] [].
Definition chain_drawn : gval :=
  match chain_run go_grow [] [] (fluent ann knows saw []) with Some (h, cs) => chain_value h (last cs NoCells) | None => GErr TOther "" end.
Definition path_drawn : gval := given (path_value (path_create "pk" (a_path "px" "p") (Elem (Good (element chain_drawn)) NilValue))).
Definition town : node := Patterns.a_node (kt "tw") "Town".
Definition road : leg := Leg (kt "lr") UNI (Patterns.a_node (kt "tx") "Village") ["ROAD"] [(kt "d1", SetUnbounded)].
Definition shortest_drawn : gval := given (path_value (a_shortest_path (kt "sp") "s" (leg_rel town road))).
Definition old : value := compare (kt "cm") Gt (property_by_expression (kt "ag") (sy "m") "age") (int_value "th" 30).
Definition drawn : list Builder.call :=
  [Match false [path_drawn; shortest_drawn]; Where (Atom (good_of old));
   Builder.Create [node_value (node_named_by_string (kt "cb") (Patterns.a_node (kt "ca") "City") "c")];
   Returning false [GOk (good_of (sy "p")); GOk (good_of (property_by_expression (kt "cn") (sy "c") "name"))]].
Definition drawn_clauses : list cclause :=
  [CMatch false
     [CPart (Some "p") None (CNode (Some "n") ["Person"; "Pilot"] (Some [("name", XStr "Ann")]))
        [(CRel ToRight (Some "r") ["KNOWS"; "LIKES"] (Some (Some "1", true, Some "3")) (Some [("since", XNum "2000")]), CNode (Some "m") ["Person"] None);
         (CRel ToLeft None [] None None, CNode None ["Film"] None)];
      CPart (Some "s") (Some "shortestPath") (CNode None ["Town"] None) [(CRel Undirected None ["ROAD"] (Some (None, false, None)) None, CNode None ["Village"] None)]]
     (Some (XBin OGt (XProp (XVar "m") "age") (XNum "30")));
   CCreate [CPart None None (CNode (Some "c") ["City"] None) []];
   CReturn (CBody false [CItem (XVar "p") None; CItem (XProp (XVar "c") "name") None] [] None None)].

Section Case.
Context (A : key -> string -> Prop) (U : forall k, unaliased A k).
Lemma all_fresh : forall ks, fresh A ks. Proof. intros ks n. apply U. Qed.
Lemma all_fresh_keys : forall K, fresh_keys A K. Proof. intros K. repeat split; intros; apply U. Qed.
Ltac free := first [apply U|apply all_fresh|apply all_fresh_keys|discriminate|reflexivity].

Lemma ann_asked : node_asked A (CNode (Some "n") ["Person"; "Pilot"] (Some [("name", XStr "Ann")])) ann.
Proof.
  apply (na_named A (kt "na") "n" None); [free|free|]. apply na_properties; [free|free|repeat constructor; discriminate|].
  exists (KM "nm"), [AString "name"; AString "Ann"]. eexists. split; [free|]. split; [repeat constructor; intros []|].
  split; [repeat constructor|]. split; [vm_compute; reflexivity|vm_compute; reflexivity].
Qed.
Lemma other_asked : node_asked A (CNode (Some "m") ["Person"] None) other.
Proof. apply (na_named A (kt "ob") "m" None); [free|free|]. apply na_label; free. Qed.
Lemma knows_asked : leg_asked A (CRel ToRight (Some "r") ["KNOWS"; "LIKES"] (Some (Some "1", true, Some "3")) (Some [("since", XNum "2000")]), CNode (Some "m") ["Person"] None) knows.
Proof.
  exists ToRight, (Wish ToRight (Some "r") ["KNOWS"; "LIKES"] (Between (Some 1%Z) (Some 3%Z)) (Some [("since", XNum "2000")])). split; [free|]. split; [free|]. split.
  - eapply as_cons; [free|apply sd_name; discriminate|]. eapply as_cons; [free|apply sd_min|]. eapply as_cons; [free|apply sd_max|].
    eapply as_cons; [free| |apply as_nil]. cbn [upper lower]. apply sd_properties.
    exists (KM "rm"), [AString "since"; AInt 2000]. eexists. split; [free|]. split; [repeat constructor; intros []|].
    split; [|split; [vm_compute; reflexivity|vm_compute; reflexivity]]. apply q_literal_field; [|constructor]. apply (li_int 2000). unfold short. lia.
  - split; [vm_compute; reflexivity|apply other_asked].
Qed.
Lemma saw_asked : leg_asked A (CRel ToLeft None [] None None, CNode None ["Film"] None) saw.
Proof. exists ToLeft, (Wish ToLeft None [] OneHop None). split; [free|]. split; [free|]. split; [apply as_nil|]. split; [reflexivity|]. apply na_label; free. Qed.
Lemma road_asked : leg_asked A (CRel Undirected None ["ROAD"] (Some (None, false, None)) None, CNode None ["Village"] None) road.
Proof.
  exists Undirected, (Wish Undirected None ["ROAD"] AnyHops None). split; [free|]. split; [free|].
  split; [eapply as_cons; [free|apply sd_unbounded|apply as_nil]|]. split; [reflexivity|]. apply na_label; free.
Qed.

Lemma drawn_asked : Forall2 (clause_asked A) (written drawn) drawn_clauses.
Proof.
  assert (W : written drawn = [PMatch false [element path_drawn; element shortest_drawn] (Some (Atom (good_of old), []));
    PCreate [element (node_value (node_named_by_string (kt "cb") (Patterns.a_node (kt "ca") "City") "c"))];
    PReturn false [good_of (sy "p"); good_of (property_by_expression (kt "cn") (sy "c") "name")] unsorted]) by (vm_compute; reflexivity).
  rewrite W. unfold drawn_clauses. constructor; [|constructor; [|constructor; [|constructor]]].
  - apply ca_match.
    + constructor; [|constructor; [|constructor]]; unfold pattern_asked.
      * replace (GOk (element path_drawn)) with path_drawn by (vm_compute; reflexivity). unfold path_drawn. apply pa_path; [|free|free|free].
        replace (GOk (element chain_drawn)) with chain_drawn by (vm_compute; reflexivity). unfold chain_drawn.
        destruct (chain_run go_grow [] [] (fluent ann knows saw [])) as [[h cs]|] eqn:R; [|vm_compute in R; discriminate].
        apply (ca_chain A go_grow _ ann _ _ [] knows saw [] h cs); [apply ann_asked|apply knows_asked|apply saw_asked|constructor|exact R].
      * replace (GOk (element shortest_drawn)) with shortest_drawn by (vm_compute; reflexivity). apply pa_shortest; [apply na_label; free|apply road_asked|free|free].
    + apply (wa_some A None _ (XBin OGt (XProp (XVar "m") "age") (XNum "30"))); [|constructor]. apply co_one. exists NilValue. apply (q_copy _ _ _ (Elem (Good (good_of old)) NilValue)).
      apply (q_compare A (kt "cm") Gt (XProp (XVar "m") "age") (XNum "30") (property_by_expression (kt "ag") (sy "m") "age") (int_value "th" 30)); [free| |].
      * apply q_property; [free| |discriminate]. apply q_name; [free|discriminate].
      * apply (q_int A "th" 30); [free|unfold short; lia].
  - apply ca_create. constructor; [|constructor]. apply pa_chain. apply (ca_node A _ (node_named_by_string (kt "cb") (Patterns.a_node (kt "ca") "City") "c")).
    apply (na_named A (kt "cb") "c" None); [free|free|]. apply na_label; free.
  - apply ca_return. exists [CItem (XVar "p") None; CItem (XProp (XVar "c") "name") None], []. split; [reflexivity|]. split; [|constructor].
    constructor; [|constructor; [|constructor]].
    + apply ia_plain. eexists. apply (q_name A "p" "p"); [free|discriminate].
    + apply ia_plain. exists NilValue. apply (q_copy _ _ _ (Elem (Good (good_of (property_by_expression (kt "cn") (sy "c") "name"))) NilValue)).
      apply (q_property A (kt "cn") (XVar "c") (sy "c") "name"); [free| |discriminate]. apply q_name; [free|discriminate].
Qed.
End Case.

Lemma drawn_aliases : forall k a, ~ called drawn k a.
Proof.
  intros k a (ph & J & G). concrete drawn. destruct G as [(e & Q & G)|G].
  - repeat (destruct J as [<-|J]; [cbn [phrase_exprs condition_exprs map snd cond_expr app flat_map item_exprs sorting_exprs s_items fst unsorted] in Q; hunt; fail|]). destruct J.
  - repeat (destruct J as [<-|J]; [destruct G|]). destruct J.
Qed.

Example C70_case :
  shared_parts env0 (fun k => exists a, called drawn k a) /\ (forall k a, called drawn k a -> variable a)
  /\ (exists i, compiles IStart drawn = Some i /\ buildable i = true) /\ orderly drawn = true
  /\ Forall2 (clause_asked (called drawn)) (written drawn) drawn_clauses /\ Forall (drawable_clause env0) drawn_clauses
  /\ kept_apart env0 (called drawn) (statement_of drawn)
  /\ (forall ph, List.In ph (written drawn) -> ~ phrase_again env0 (calls env0 drawn (statement_of drawn)) ph)
  /\ ~ renamed (calls env0 drawn (statement_of drawn))
  /\ statement_text env0 (statement_of drawn)
     = "MATCH p = (n:`Person`:`Pilot` {name: 'Ann'})-[r:`KNOWS`|`LIKES`*1..3 {since: 2000}]->(m:`Person`)<--(:`Film`), s = shortestPath((:`Town`)-[:`ROAD`*]-(:`Village`)) WHERE m.age > 30 CREATE (c:`City`) RETURN p, c.name"
  /\ is_statement env0 (statement_text env0 (statement_of drawn)) (CQuery drawn_clauses []).
Proof.
  pose proof drawn_aliases as NA.
  assert (H1 : shared_parts env0 (fun k => exists a, called drawn k a)).
  { split; [intros o [a G]; destruct (NA _ _ G)|]. repeat split; intros [a G]; destruct (NA _ _ G). }
  assert (H2 : forall k a, called drawn k a -> variable a) by (intros k a G; destruct (NA _ _ G)).
  assert (H3 : exists i, compiles IStart drawn = Some i /\ buildable i = true) by (eexists; split; vm_compute; reflexivity).
  assert (H4 : orderly drawn = true) by (vm_compute; reflexivity).
  assert (H5 : Forall2 (clause_asked (called drawn)) (written drawn) drawn_clauses) by (apply drawn_asked; intros k a G; now apply (NA k a)).
  assert (H6 : Forall (drawable_clause env0) drawn_clauses).
  { unfold drawn_clauses. repeat (constructor; [cbn; repeat (first [split|constructor]); try reflexivity; try discriminate; try lia|]). constructor. }
  assert (H7 : kept_apart env0 (called drawn) (statement_of drawn)).
  { split; [split|]; [intros k J [a G]; destruct (NA _ _ G)| |intros k a J G; destruct (NA _ _ G)].
    intros k J X. vm_compute in X. vm_compute in J. repeat (destruct X as [<-|X]; [repeat (destruct J as [J|J]; [discriminate J|]); destruct J|]). destruct X. }
  assert (H8 : forall ph, List.In ph (written drawn) -> ~ phrase_again env0 (calls env0 drawn (statement_of drawn)) ph).
  { intros ph J X. apply Exists_exists in X as (e & I & k & Ik & Ag).
    assert (Y : List.In k (flat_map (fun ph => flat_map (fun e => node_mentions (print env0 e)) (phrase_patterns ph)) (written drawn))).
    { apply in_flat_map. exists ph. split; [exact J|]. apply in_flat_map. eauto. }
    clear - Y Ag. vm_compute in Y. repeat (destruct Y as [<-|Y]; [destruct Ag as [Ag|Ag]; vm_compute in Ag; lia|]). destruct Y. }
  assert (H9 : ~ renamed (calls env0 drawn (statement_of drawn))) by (intros (k & a & G & _); exact (NA k a G)).
  repeat (split; [first [assumption|vm_compute; reflexivity]|]).
  destruct H3 as (i & C1 & C2). assert (C : SpecTokens.self_contained env0 (e_guid env0)) by (apply word_contained; [exact env0_names|reflexivity]).
  destruct (C70_statements_partial env0 K0 (K0 99) drawn i drawn_clauses env0_names C H1 H2 C1 C2 H4 H5 H6) as (q & Q & G).
  assert (X : q = statement_of drawn) by (unfold statement_of, result_of; now rewrite Q). subst q. now apply G.
Qed.

(** ** Aliases, joined conditions, procedures, labels

    Keys that start with an exclamation mark are those of elements with an
    alias. *)
Definition person : node := node_named_by_string (kt "pb") (Patterns.a_node (kt "pa") "Person") "n".
Definition of_n (k x : string) : value := property_by_expression (kt k) (sy "n") x.
Definition grown : value := compare (kt "gr") Gt (of_n "a1" "age") (int_value "th" 30).
Definition is_bob : value := compare (kt "bo") IsEqualTo (of_n "a2" "name") (string_value "bs" "Bob").
(** The address of an element that is made is that of the alias. *)
Definition first_key (x : key) (ks : nat -> key) (n : nat) : key := match n with 0 => x | _ => ks n end.
Definition counted (x : key) : value := out (fn1_call (first_key x (kt "cn")) CountByExpression (of_n "a3" "id")).
Definition sum (x : key) : value := compute (first_key x (kt "su")) Add (sy "x") (int_value "on" 1).
Definition label_name (k : key) : value := sym_value (symbolic_name_create k "label").
Definition pair_list : value := out (list_of (kt "pl") [int_value "i1" 1; int_value "i2" 2]).
(** Conditions in groups, which are joined by another connective. *)
Definition is_called (k x : string) : value := compare (kt k) IsEqualTo (of_n (k ++ "n")%string "name") (string_value (k ++ "s")%string x).
Definition cnd_of (r : result cnd) : cnd := match r with Val c => c | Panic => Nil end.
Definition pair_of (k : string) (o : bop) (v w : value) : cnd := cnd_of (container_chain (kt k) o (Atom (good_of v)) (Atom (good_of w))).
Definition either : cnd := pair_of "ei" BOr grown is_bob.
Definition neither : cnd := comparison_not (kt "ng") (pair_of "ne" BAnd (is_called "al" "Al") (is_called "cy" "Cy")).
Definition one_of_two : cnd := pair_of "xo" BXor (is_called "di" "Di") (is_called "ed" "Ed").
Definition reported : list Builder.call :=
  [Match false [node_value person]; Where either; AndC neither; AndC one_of_two;
   Proc ["labels"]; Args (Some [GOk (good_of (string_value "ar" "it's"))]); Yield [GOk (good_of (as_ (kt "y") (label_name "!l") "l"))];
   With false [GOk (good_of (sy "n")); GOk (good_of (sy "l")); GOk (good_of (as_ (kt "w") (counted "!c") "total"))]; OrderBy (GOk (good_of (of_n "a4" "age"))); Descending; Limit 3;
   SetLabels (NodeNamed "sn" "n") ["Old"]; RemoveItems [GOk (good_of (of_n "a5" "age"))]; RemoveLabels (NodeNamed "sm" "n") ["New"; "Young"];
   With false [GOk (good_of (sy "total"))];
   Unwind (GOk (good_of pair_list)) "x";
   Returning false [GOk (good_of (sy "total")); GOk (good_of (as_ (kt "z") (sum "!s") "y"))]].
Definition called_ (x : string) : cx := XBin OEq (XProp (XVar "n") "name") (XStr x).
Definition reported_clauses : list cclause :=
  [CMatch false [CPart None None (CNode (Some "n") ["Person"] None) []]
     (Some (XBin OAnd (XBin OAnd (XBin OOr (XBin OGt (XProp (XVar "n") "age") (XNum "30")) (called_ "Bob"))
       (XNot (XBin OAnd (called_ "Al") (called_ "Cy")))) (XBin OXor (called_ "Di") (called_ "Ed"))));
   CCall ["labels"] (Some [XStr "it's"]) (Some [CItem (XVar "label") (Some "l")]) None;
   CWith (CBody false [CItem (XVar "n") None; CItem (XVar "l") None; CItem (XCall ["count"] false [XProp (XVar "n") "id"]) (Some "total")]
     [(XProp (XVar "n") "age", Some true)] None (Some (XNum "3"))) None;
   CSet [SLabels (XLabels (XVar "n") ["Old"])]; CRemove [XProp (XVar "n") "age"]; CRemove [XLabels (XVar "n") ["New"; "Young"]];
   CWith (CBody false [CItem (XVar "total") None] [] None None) None;
   CUnwind (XList [XNum "1"; XNum "2"]) "x";
   CReturn (CBody false [CItem (XVar "total") None; CItem (XBin OAdd (XVar "x") (XNum "1")) (Some "y")] [] None None)].

Section Reported.
Context (A : key -> string -> Prop) (U : forall k, prefix "!" k = false -> unaliased A k).
Ltac free := first [apply U; reflexivity|intros ?; apply U; reflexivity|discriminate].
Lemma asked_good : forall c v, asked A c v -> expr_asked A c (good_of v).
Proof. intros c v H. destruct (proj1 (asked_made (Register A (fun _ => False)) (U "" eq_refl)) c v H) as (e & i & -> & _). now exists i. Qed.
Lemma name_good : forall x, prefix "!" x = false -> x <> "" -> asked A (XVar x) (sy x).
Proof. intros x P N. apply q_name; [now apply U|exact N]. Qed.
Lemma of_n_asked : forall k x, prefix "!" (k ++ "k0") = false -> prefix "!" (k ++ "k1") = false -> x <> "" -> fresh A (kt k) -> asked A (XProp (XVar "n") x) (of_n k x).
Proof. intros k x P Q N F. apply q_property; [exact F| |exact N]. apply name_good; [reflexivity|discriminate]. Qed.
Lemma small : forall k z, prefix "!" k = false -> short z -> asked A (integer z) (int_value k z).
Proof. intros k z P S. apply q_int; [now apply U|exact S]. Qed.
Ltac props := apply of_n_asked; [reflexivity|reflexivity|discriminate|intros ?; apply U; reflexivity].
Ltac names := apply name_good; [reflexivity|discriminate].
Ltac plain := apply ia_plain; apply asked_good.

Lemma pair_asked : forall k o c d v w, fresh A (kt k) -> asked A c v -> asked A d w -> condition_asked A (Some o) (XBin (joined o) c d) (pair_of k (bop_of_conn o) v w).
Proof.
  intros k o c d v w F V W. apply (co_join A (kt k) o None None c d (Atom (good_of v)) (Atom (good_of w))); [exact F|now apply co_one, asked_good|now apply co_one, asked_good| |reflexivity].
  split; [discriminate|auto].
Qed.
Lemma called_asked : forall k x, fresh A (kt k) -> fresh A (kt (k ++ "n")%string) -> unaliased A (k ++ "s")%string -> asked A (called_ x) (is_called k x).
Proof.
  intros k x F G H. apply (q_compare A (kt k) IsEqualTo); [exact F| |now apply q_string].
  apply q_property; [exact G| |discriminate]. apply name_good; [reflexivity|discriminate].
Qed.

Lemma reported_asked : A "!l" "l" -> A "!c" "total" -> A "!s" "y" -> Forall2 (clause_asked A) (written reported) reported_clauses.
Proof.
  intros Al Ac As.
  assert (W : written reported = [PMatch false [element (node_value person)] (Some (either, [(CAnd, neither); (CAnd, one_of_two)]));
    PCall ["labels"] [good_of (string_value "ar" "it's")] [good_of (as_ (kt "y") (label_name "!l") "l")] None;
    PWith false [good_of (sy "n"); good_of (sy "l"); good_of (as_ (kt "w") (counted "!c") "total")] (Sorting [(good_of (of_n "a4" "age"), Some true)] None (Some 3%Z)) None;
    PSet [Labels "n" ["Old"]]; PRemove [Plain (good_of (of_n "a5" "age"))]; PRemove [Labels "n" ["New"; "Young"]]; PWith false [good_of (sy "total")] unsorted None;
    PUnwind (good_of pair_list) "x"; PReturn false [good_of (sy "total"); good_of (as_ (kt "z") (sum "!s") "y")] unsorted]) by (vm_compute; reflexivity).
  rewrite W. clear W. unfold reported_clauses.
  constructor; [|constructor; [|constructor; [|constructor; [|constructor; [|constructor; [|constructor; [|constructor; [|constructor; [|constructor]]]]]]]]].
  - apply ca_match.
    + constructor; [|constructor]. apply pa_chain. apply (ca_node A _ person). apply (na_named A (kt "pb") "n" None); [free|free|]. apply na_label; free.
    + apply (wa_some A (Some COr) _ (XBin OOr (XBin OGt (XProp (XVar "n") "age") (XNum "30")) (called_ "Bob"))).
      * apply (pair_asked "ei" COr); [free| |].
        -- apply (q_compare A (kt "gr") Gt); [free|props|]. apply (small "th" 30); [reflexivity|unfold short; lia].
        -- apply (q_compare A (kt "bo") IsEqualTo); [free|props|]. apply q_string; free.
      * apply (mo_more A _ _ CAnd None (XNot (XBin OAnd (called_ "Al") (called_ "Cy")))); [|split; [discriminate|auto]|].
        -- eapply (co_not A (kt "ng")); [free| |reflexivity]. apply (pair_asked "ne" CAnd); [free| |]; apply called_asked; free.
        -- apply (mo_more A _ _ CAnd (Some CXor) (XBin OXor (called_ "Di") (called_ "Ed"))); [|split; [discriminate|auto]|constructor].
           apply (pair_asked "xo" CXor); [free| |]; apply called_asked; free.
  - apply (ca_call A "labels" _ [XStr "it's"] _ [CItem (XVar "label") (Some "l")]); [| |constructor].
    + constructor; [|constructor]. apply asked_good. apply q_string; free.
    + constructor; [|constructor].
      eapply (ia_alias A (kt "y") "!l" (XVar "label") (ESym "f" "label") "l" _ NilValue); [free| |discriminate|exact Al|reflexivity].
      apply (asked_good (XVar "label") (label_name "f")). apply q_name; free.
  - apply ca_with; [|constructor]. eexists _, [(XProp (XVar "n") "age", Some true)]. split; [reflexivity|]. split.
    + constructor; [|constructor; [|constructor; [|constructor]]]; [plain; names|plain; names|].
      eapply (ia_alias A (kt "w") "!c" _ (good_of (counted "f")) "total" _ NilValue); [free| |discriminate|exact Ac|reflexivity].
      apply asked_good. apply (q_fn1 A (first_key "f" (kt "cn")) CountByExpression _ (of_n "a3" "id")); [intros [|n]; free|props|discriminate|reflexivity].
    + constructor; [|constructor]. split; [|reflexivity]. apply asked_good. props.
  - apply ca_set. constructor; [|constructor]. apply sa_labels.
  - apply ca_remove. constructor; [|constructor]. apply ra_property. apply asked_good. props.
  - apply ca_remove. constructor; [|constructor]. apply ra_labels.
  - apply ca_with; [|constructor]. eexists _, []. split; [reflexivity|]. split; [|constructor]. constructor; [plain; names|constructor].
  - apply ca_unwind. apply asked_good.
    apply (q_list A (kt "pl") _ [int_value "i1" 1; int_value "i2" 2]); [free| |reflexivity].
    apply q_cons; [apply (small "i1" 1); [reflexivity|unfold short; lia]|]. apply q_cons; [apply (small "i2" 2); [reflexivity|unfold short; lia]|apply q_nil].
  - apply ca_return. eexists _, []. split; [reflexivity|]. split; [|constructor]. constructor; [plain; names|constructor; [|constructor]].
    eapply (ia_alias A (kt "z") "!s" _ (good_of (sum "f")) "y" _ NilValue); [free| |discriminate|exact As|reflexivity].
    apply asked_good. apply (q_compute A (first_key "f" (kt "su")) Add); [intros [|n]; free|names|]. apply (small "on" 1); [reflexivity|unfold short; lia].
Qed.
End Reported.

Lemma reported_aliases : forall k a, called reported k a -> List.In (k, a) [("!l", "l"); ("!c", "total"); ("!s", "y")].
Proof.
  intros k a (ph & J & G). concrete reported. destruct G as [(e & Q & G)|G].
  - repeat (destruct J as [<-|J]; [cbn [phrase_exprs condition_exprs map snd cond_expr app flat_map item_exprs sorting_exprs s_items fst] in Q; hunt; cbn; auto; fail|]). destruct J.
  - repeat (destruct J as [<-|J]; [destruct G|]). destruct J.
Qed.
Lemma reported_given : called reported "!l" "l" /\ called reported "!c" "total" /\ called reported "!s" "y".
Proof.
  repeat split; unfold called; concrete reported.
  - eexists. split; [right; left; reflexivity|]. left. eexists. split; [cbn [phrase_exprs app List.In]; right; left; reflexivity|]. constructor.
  - eexists. split; [right; right; left; reflexivity|]. left. eexists. split; [cbn [phrase_exprs app List.In]; right; right; left; reflexivity|]. constructor.
  - eexists. split; [do 8 right; left; reflexivity|]. left. eexists. split; [cbn [phrase_exprs app List.In]; right; left; reflexivity|]. constructor.
Qed.

Example C70_case_aliases :
  shared_parts env0 (fun k => exists a, called reported k a) /\ (forall k a, called reported k a -> variable a)
  /\ (exists i, compiles IStart reported = Some i /\ buildable i = true) /\ orderly reported = true
  /\ Forall2 (clause_asked (called reported)) (written reported) reported_clauses /\ Forall (drawable_clause env0) reported_clauses
  /\ kept_apart env0 (called reported) (statement_of reported)
  /\ (forall ph, List.In ph (written reported) -> ~ phrase_again env0 (calls env0 reported (statement_of reported)) ph)
  /\ ~ renamed (calls env0 reported (statement_of reported))
  /\ statement_text env0 (statement_of reported)
     = "MATCH (n:`Person`) WHERE ((n.age > 30 OR n.name = 'Bob') AND NOT ((n.name = 'Al' AND n.name = 'Cy')) AND (n.name = 'Di' XOR n.name = 'Ed')) CALL labels('it\'s') YIELD label AS l WITH n, l, count(n.id) AS total ORDER BY n.age DESC LIMIT 3 SET n:`Old` REMOVE n.age REMOVE n:`New`:`Young` WITH total UNWIND [1, 2] AS x RETURN total, (x + 1) AS y"
  /\ is_statement env0 (statement_text env0 (statement_of reported)) (CQuery reported_clauses []).
Proof.
  pose proof reported_aliases as NA. destruct reported_given as (G1 & G2 & G3).
  assert (U : forall k, prefix "!" k = false -> unaliased (called reported) k).
  { intros k P a G. apply NA in G. repeat (destruct G as [G|G]; [injection G as <- <-; discriminate P|]). destruct G. }
  assert (H1 : shared_parts env0 (fun k => exists a, called reported k a)).
  { split; [intros o [a G]; apply NA in G; repeat (destruct G as [G|G]; [injection G as G _; destruct o; discriminate G|]); destruct G|].
    repeat split; intros [a G]; apply NA in G; repeat (destruct G as [G|G]; [discriminate G|]); destruct G. }
  assert (H2 : forall k a, called reported k a -> variable a).
  { intros k a G. apply NA in G. repeat (destruct G as [G|G]; [injection G as _ <-; split; reflexivity|]). destruct G. }
  assert (H3 : exists i, compiles IStart reported = Some i /\ buildable i = true) by (eexists; split; vm_compute; reflexivity).
  assert (H4 : orderly reported = true) by (vm_compute; reflexivity).
  assert (H5 : Forall2 (clause_asked (called reported)) (written reported) reported_clauses) by now apply reported_asked.
  assert (H6 : Forall (drawable_clause env0) reported_clauses).
  { unfold reported_clauses. repeat (constructor; [cbn; repeat (first [split|constructor]); try reflexivity; try discriminate; try lia|]). constructor. }
  assert (H7 : kept_apart env0 (called reported) (statement_of reported)).
  { split; [split|]; [intros k J [a G]| |intros k a J G].
    - apply NA in G. vm_compute in J. repeat (destruct G as [G|G]; [injection G as <- <-; repeat (destruct J as [J|J]; [discriminate J|]); destruct J|]). destruct G.
    - intros k J X. vm_compute in X. vm_compute in J. repeat (destruct X as [<-|X]; [repeat (destruct J as [J|J]; [discriminate J|]); destruct J|]). destruct X.
    - apply NA in G. vm_compute in J. repeat (destruct G as [G|G]; [injection G as <- <-; repeat (destruct J as [J|J]; [discriminate J|]); destruct J|]). destruct G. }
  assert (H8 : forall ph, List.In ph (written reported) -> ~ phrase_again env0 (calls env0 reported (statement_of reported)) ph).
  { intros ph J X. apply Exists_exists in X as (e & I & k & Ik & Ag).
    assert (Y : List.In k (flat_map (fun ph => flat_map (fun e => node_mentions (print env0 e)) (phrase_patterns ph)) (written reported))).
    { apply in_flat_map. exists ph. split; [exact J|]. apply in_flat_map. eauto. }
    clear - Y Ag. vm_compute in Y. repeat (destruct Y as [<-|Y]; [destruct Ag as [Ag|Ag]; vm_compute in Ag; lia|]). destruct Y. }
  assert (H9 : ~ renamed (calls env0 reported (statement_of reported))).
  { intros (k & a & G & Ag). cbn [calls again aliases] in *. apply NA in G. repeat (destruct G as [G|G]; [injection G as <- <-; destruct Ag as [Ag|Ag]; vm_compute in Ag; lia|]). destruct G. }
  repeat (split; [first [assumption|vm_compute; reflexivity]|]).
  destruct H3 as (i & C1 & C2). assert (C : SpecTokens.self_contained env0 (e_guid env0)) by (apply word_contained; [exact env0_names|reflexivity]).
  destruct (C70_statements_partial env0 K0 (K0 99) reported i reported_clauses env0_names C H1 H2 C1 C2 H4 H5 H6) as (q & Q & G).
  assert (X : q = statement_of reported) by (unfold statement_of, result_of; now rewrite Q). subst q. now apply G.
Qed.

(** ** What is missing *)

(** A node with another name keeps its address.  When both are used, the second
    one counts as written before: its label is lost. *)
Definition person_called (x : string) : node := node_named_by_string (kt x) (Patterns.a_node (kt "oa") "Person") x.
Definition two_names : list Builder.call := [Match false [node_value (person_called "a"); node_value (person_called "b")]; Returning false [GOk (good_of (sy "a"))]].
Definition two_asked (ls : list string) : list cclause :=
  [CMatch false [CPart None None (CNode (Some "a") ["Person"] None) []; CPart None None (CNode (Some "b") ls None) []] None;
   CReturn (CBody false [CItem (XVar "a") None] [] None None)].
Theorem C70_two_names_refuted :
  (forall A, (forall k, unaliased A k) -> Forall2 (clause_asked A) (written two_names) (two_asked ["Person"]))
  /\ Forall (drawable_clause env0) (two_asked ["Person"])
  /\ result_of two_names = Some (Returns (Built (StOk (statement_of two_names))))
  /\ rendered (statement_of two_names) = "MATCH (a:`Person`), (b) RETURN a"
  /\ is_statement env0 (rendered (statement_of two_names)) (CQuery (two_asked []) []).
Proof.
  split; [|split; [|split; [vm_compute; reflexivity|split; [vm_compute; reflexivity|reads 80]]]].
  - intros A U. assert (X : forall x, x <> "" -> pattern_asked A (CPart None None (CNode (Some x) ["Person"] None) []) (element (node_value (person_called x)))).
    { intros x N. unfold pattern_asked. replace (GOk (element (node_value (person_called x)))) with (node_value (person_called x)).
      - apply pa_chain, ca_node. apply (na_named A _ x None); [intros n; apply U|exact N|]. apply na_label; [intros n; apply U|discriminate].
      - unfold node_value, person_called, node_named_by_string. destruct (String.eqb_spec x "") as [->|_]; [now destruct N|]. reflexivity. }
    assert (W : written two_names = [PMatch false [element (node_value (person_called "a")); element (node_value (person_called "b"))] None; PReturn false [good_of (sy "a")] unsorted])
      by (vm_compute; reflexivity).
    rewrite W. constructor; [|constructor; [|constructor]].
    + apply ca_match; [|constructor]. constructor; [|constructor; [|constructor]]; apply X; discriminate.
    + apply ca_return. exists [CItem (XVar "a") None], []. split; [reflexivity|]. split; [|constructor]. constructor; [|constructor]. apply ia_plain. eexists. apply (q_name A "a" "a"); [apply U|discriminate].
  - unfold two_asked. repeat (constructor; [cbn; repeat (first [split|constructor]); try reflexivity; try discriminate; try lia|]). constructor.
Qed.
Print Assumptions C70_two_names_refuted.

(** Nodes made by NewNodeWithLabels are left out at the end of a chain: the text
    is not a statement. *)
Definition to_labels : gval :=
  match chain_run go_grow [] [] (fluent ann saw (Leg (kt "lx") LTR (node_with_labels "A" ["B"]) ["Y"] []) []) with
  | Some (h, cs) => chain_value h (last cs NoCells) | None => GErr TOther "" end.
Definition unfinished : list Builder.call := [Match false [to_labels]; Returning false [GOk (good_of (sy "n"))]].
Theorem C70_last_node_refuted :
  result_of unfinished = Some (Returns (Built (StOk (statement_of unfinished))))
  /\ rendered (statement_of unfinished) = "MATCH (n:`Person`:`Pilot` {name: 'Ann'})<--(:`Film`)-[:`Y`]-> RETURN n"
  /\ forall c, ~ is_statement env0 (rendered (statement_of unfinished)) c.
Proof.
  split; [vm_compute; reflexivity|]. split; [vm_compute; reflexivity|].
  intros c (ts & n & T & H). vm_compute in T. injection T as <-. specialize (H (60 + n) ltac:(lia)). vm_compute in H. discriminate H.
Qed.
Print Assumptions C70_last_node_refuted.
