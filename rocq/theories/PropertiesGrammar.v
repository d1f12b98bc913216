(** Headline theorems: C63. *)

From Coq Require Import Ascii String List ZArith Bool Lia.
From Verif Require Import GoStr Escape Num VTree WellKeyed SpecLex SpecNum SpecSpace SpecTokens EscapeProofs GoStrProofs Ast SpecDoc
  SpecPrint SpecShape SpecOutline SpecGrammar SpecReading TokenProofs TokenTexts TokenDocs TokenPrint VTreeProofs Alloc AllocProofs RenderProofs
  PrintProofs GrammarDocs ReadingClauses ReadingStatements DottedNames PropertiesText PropertiesRender PropertiesBrackets PropertiesTokens.
Import ListNotations.
Open Scope string_scope.

(** A text is read as one statement at most. *)
Theorem C63_one_reading : forall E s c d, is_statement E s c -> is_statement E s d -> c = d.
Proof.
  intros E s c d (ts & n & T & H) (ts' & m & T' & G). rewrite T in T'. injection T' as <-.
  specialize (H (n + m) ltac:(lia)). specialize (G (n + m) ltac:(lia)). congruence.
Qed.
Print Assumptions C63_one_reading.

(** The text of a statement is read as a statement, and as this one. *)
Theorem C63_text_is_the_statement_partial : forall E q,
  no_space_in_names E -> self_contained E (e_guid E) -> readable_statement E q ->
  exists c, is_statement E (statement_text E q) c /\ means E c q.
Proof.
  intros E q NS G (SP & AN & SH & RQ). destruct (C59_statement_tokens_partial E _ q NS G SP SH) as (ts & T1 & T2).
  set (A := Register (fun k a => gives_alias k a q) (written_again (print_query E q))).
  assert (W : GrammarDocs.writes E A (print_query E q) ts).
  { apply pieces_writes; [apply print_query_introduces; intros k a H; exact H|auto|exact T1]. }
  destruct (statement_back E NS A AN SP q ts RQ W) as (c & n & M & R). exists c. split; [|exact M]. exists ts, n. auto.
Qed.
Print Assumptions C63_text_is_the_statement_partial.

(** The same of the text the renderer writes. *)
Theorem C63_rendered_text_is_the_statement_partial : forall (err : Type) E q,
  no_space_in_names E -> self_contained E (e_guid E) -> readable_statement E q ->
  well_keyed (to_vtq E q) = true -> well_quiet (to_vtq E q) = true ->
  exists c, is_statement E (fst (fst (render (err:=err) (SOk (to_vtq E q)) new_renderer))) c /\ means E c q.
Proof.
  intros err E q NS G R W Q. rewrite (C01_rendering_prints_the_statement_partial err E q W Q). cbn [fst]. now apply C63_text_is_the_statement_partial.
Qed.
Print Assumptions C63_rendered_text_is_the_statement_partial.

Theorem C63_built_statements_partial : forall (err : Type) E q hp c,
  no_space_in_names E -> self_contained E (e_guid E) -> readable_statement E q ->
  built false hp -> over hp (to_vtq E q) -> well_quiet (to_vtq E q) = true ->
  is_statement E (fst (fst (render (err:=err) (SOk (to_vtq E q)) new_renderer))) c -> means E c q.
Proof.
  intros err E q hp c NS G R B O Q H.
  destruct (C63_rendered_text_is_the_statement_partial err E q NS G R (built_well_keyed hp _ B O) Q) as (d & D & M). now rewrite (C63_one_reading _ _ _ _ H D).
Qed.
Print Assumptions C63_built_statements_partial.

(** ** Statements that meet the hypotheses *)

Ltac hunt := repeat match goal with
  | H : In _ (_ :: _) |- _ => destruct H as [<-|H]
  | H : In _ [] |- _ => destruct H
  | H : In _ _ |- _ => progress cbn [exprs_of queries_of children opt_list app flat_map map fst snd b_items b_order b_skip b_limit] in H
  | H : In _ _ |- _ => progress unfold body_exprs in H
  | H : gives_alias _ _ ?q |- _ => tryif is_var q then fail else (inversion H; clear H; subst)
  | H : gives_alias_in _ _ ?e |- _ => tryif is_var e then fail else (inversion H; clear H; subst)
  end.

(** [al] lists the aliases. *)
Ltac unaliased_by al := let a := fresh "a" in let G := fresh "G" in intros a G; apply al in G; cbn [In] in G;
  repeat (destruct G as [G|G]; [discriminate G|]); destruct G.
Ltac side al := first
  [ exact Logic.I | reflexivity
  | match goal with |- unaliased _ _ => unaliased_by al end
  | match goal with |- labelling _ => solve [now left|now right] end
  | match goal with |- variable _ => split; reflexivity end
  | match goal with |- function_name _ ?n => exists n, []; split; reflexivity end
  | match goal with |- (_ <= _)%Z => vm_compute; congruence end
  | match goal with |- (_ <= _)%nat => cbn; lia end
  | match goal with |- _ <> _ => discriminate end
  | match goal with |- labels_ok _ _ => unfold labels_ok; repeat (apply Forall_cons; [split; [unaliased_by al|discriminate]|]); apply Forall_nil end
  | match goal with |- exists _, procedure _ _ _ _ => eexists; eassumption end
  | match goal with |- Forall (fun t => t <> _) _ => repeat (apply Forall_cons; [discriminate|]); apply Forall_nil end
  | match goal with |- _ = _ -> (_ <= _)%nat => intros; first [cbn; lia|discriminate] end
  | match goal with |- true = true -> None = None => reflexivity end
  | match goal with |- false = true -> _ => discriminate end
  | match goal with |- forall _ _, Some _ = Some _ -> _ => let H := fresh in intros ? ? H; inversion H; subst; clear H end
  | match goal with |- forall _ _, None = Some _ -> _ => let H := fresh in intros ? ? H; discriminate H end
  | match goal with |- forall _ _ _ _, Some _ = Some _ -> _ => let H := fresh in intros ? ? ? ? H; inversion H; subst; clear H end
  | match goal with |- forall _ _ _ _, None = Some _ -> _ => let H := fresh in intros ? ? ? ? H; discriminate H end ].
Ltac rd al := cbn [opt_list app first_place left_of right_of level_of fst snd flat_map b_items b_order b_skip b_limit]; solve [ side al | side al; rd al
  | match goal with
    | |- readable_body _ _ _ => unfold readable_body; repeat split; rd al
    | |- readable_action _ _ _ => do 5 eexists; repeat split; rd al
    | |- exists _ _, _ = _ /\ _ => do 2 eexists; repeat split; rd al
    | |- _ /\ _ => split; rd al
    end
  | econstructor; rd al ].

Lemma q_tokens_aliases : forall k a, gives_alias k a q_tokens -> In (k, a) [("li", "list }")].
Proof. intros k a H. unfold q_tokens in H. hunt; cbn; auto. Qed.

Lemma q_tokens_readable : readable_q env0 (fun k a => gives_alias k a q_tokens) q_tokens.
Proof. unfold q_tokens at 2. rd q_tokens_aliases. Qed.

Ltac pick := cbn [In exprs_of queries_of children opt_list app flat_map map fst snd b_items b_order b_skip b_limit body_exprs]; try unfold body_exprs;
  cbn [In exprs_of queries_of children opt_list app flat_map map fst snd b_items b_order b_skip b_limit body_exprs]; ((left; reflexivity) + (right; pick)).
Ltac find_alias := first
  [ apply ge_here
  | match goal with
    | |- gives_alias_in _ _ _ => eapply ge_inside; [pick|find_alias]
    | |- gives_alias _ _ _ => (eapply gs_expr; [pick|find_alias]) + (eapply gs_query; [pick|find_alias])
    end ].
Ltac shaped_by al := repeat first
  [ progress cbn [children opt_list own_shape app flat_map fst snd b_items b_order b_skip b_limit num_of_Z n_mant infix attached SpecShape.clause]
  | match goal with
    | |- self_contained _ _ => first [apply word_contained; [exact env0_names|reflexivity]|eassumption]
    | |- ~ _ => let G := fresh "G" in intros [? G]; apply al in G; cbn [In] in G; repeat (destruct G as [G|G]; [discriminate G|]); destruct G
    | |- (_ <= _)%Z => vm_compute; congruence
    | |- True => exact Logic.I
    | |- shaped _ _ _ => apply sh
    | |- shaped_q _ _ _ => constructor
    | |- Forall _ _ => constructor
    | |- all_attached _ _ => unfold all_attached
    | |- no_label_aliased _ _ => unfold no_label_aliased
    | |- shaped_behind _ _ _ => unfold shaped_behind
    | |- shaped_body _ _ _ => unfold shaped_body
    | |- exists a, gives_alias _ a _ => eexists; once find_alias
    | |- true = true \/ _ => left; reflexivity
    | |- false = true \/ (_ /\ _) => right; split; [auto|]
    | |- false = true \/ _ \/ _ => right; first [left; split; reflexivity|right; split; [auto|reflexivity]]
    | |- _ = _ \/ _ = _ => auto
    | |- _ /\ _ => split
    | |- ?a <> ?b => discriminate
    end
  | progress intros
  | match goal with
    | H : Some _ = Some _ |- _ => inversion H; subst; clear H
    | H : None = Some _ |- _ => discriminate H
    | H : _ = _ |- _ => discriminate H
    | H : In _ _ |- _ => progress cbn [In] in H
    | H : _ \/ _ |- _ => destruct H as [H|H]
    | H : (_, _) = (_, _) |- _ => inversion H; subst; clear H
    | H : False |- _ => destruct H
    end ].

Example C63_case : readable_statement env0 q_tokens /\ self_contained env0 (e_guid env0)
  /\ exists c, is_statement env0 (statement_text env0 q_tokens) c.
Proof.
  assert (R : readable_statement env0 q_tokens).
  { split; [|split; [|split]].
    - split; [intros o [a G]; apply q_tokens_aliases in G; destruct G as [G|[]]; destruct o; discriminate G|].
      repeat split; intros [a G]; apply q_tokens_aliases in G; destruct G as [G|[]]; discriminate G.
    - intros k a G. apply q_tokens_aliases in G. destruct G as [G|[]]. inversion G; subst. split; reflexivity.
    - unfold q_tokens at 2. shaped_by q_tokens_aliases.
    - exact q_tokens_readable. }
  assert (C : self_contained env0 (e_guid env0)) by (apply word_contained; [exact env0_names|reflexivity]).
  split; [exact R|]. split; [exact C|]. destruct (C63_text_is_the_statement_partial env0 q_tokens env0_names C R) as (c & H & _). eauto.
Qed.

(** A statement of most kinds of clauses, with aliases that are written again. *)
Definition sym (k x : string) : expr := ESym k x.
Definition prop (k c x : string) : expr := EProp k (sym ("s" ++ c) c) (ELookup ("k" ++ k) x).
Definition node_u : expr := ENode "n1" (Some ("su", "u")) [("l1", "User"); ("l2", "a b")] None.
Definition node_m : expr := ENode "n2" (Some ("sm", "m")) [] None.
Definition a_count : expr := EFun "fc" "count" "fa" [EDistinct "fd" (sym "sm" "m")].

Definition q_first : query :=
  QMulti
    [("mp", [QMatch "m1" true
               (EPattern "pa1"
                  [ENamedPath "np" (sym "sp" "p")
                     (EChain "ch" [(node_u, EDetails "d1" LTR (Some (sym "sr" "r")) (Some ("t1", ["KNOWS"; "LIKES"])) (Some ("ln", false, Some 1%Z, Some 3%Z)) None);
                                   (node_m, EDetails "d2" RTL None None None None)] (Some (ENode "n3" None [] (Some (EProps "pp" (EMap "mp1" [EEntry "en" "id" (EParam "pid" "id")]))))));
                   node_u])
               (Some (EWhere "w1" (ECompound "cc" And
                  [EComparison "c1" (Some (prop "pr1" "u" "age")) GreaterThan (Some (EOperation "o1" (ENum "i1" (num_of_Z 3)) Multiplication (ENum "i2" (num_of_Z 4))));
                   EComparison "c2" None Not (Some (EComparison "c3" (Some (prop "pr2" "m" "name")) IsNull None));
                   EFun "fall" "all" "fla" [EListPred "lp" (sym "sx" "x") (prop "pr3" "u" "tags") (EWhere "w2" (EComparison "c4" (Some (sym "sx" "x")) StartsWith (Some (EStr "st" "it's"))))]])));
             QCreate "cr" (EPattern "pa2" [ERel "re" node_u (EDetails "d3" UNI None (Some ("t2", ["HAS"])) None None) node_m]);
             QSet "se" (EExprs "ses" [EOperation "o2" (prop "pr4" "u" "seen") SetProp (EFun "ft" "timestamp" "fta" []);
                                      EOperation "o3" (sym "su" "u") SetLabel (ELabels "lb" [("l3", "Old")])]);
             QDelete "de" true (EExprs "des" [sym "sr" "r"])],
      QWith "wi" true (Body (EExprs "wes" [EAlias "al1" "fc" a_count "number"; sym "su" "u"])
                         (Some (EOrder "or" [ESort "so" a_count (Some true); ESort "so2" (prop "pr5" "u" "name") None]))
                         (Some (ESkip "sk" (ENum "i3" (num_of_Z 10)))) (Some (ELimit "li" (EParam "plim" "limit"))))
        (Some (EWhere "w3" (EComparison "c5" (Some a_count) GreaterThanOrEqualTo (Some (ENum "i4" (num_of_Z (-2))))))))]
    (QSingle
       [QUnwind "uw" (EListExpr "le" (EExprs "lees" [ENum "i5" (num_of_Z 1); EMap "mp2" []])) "row";
        QMerge "me" (EPattern "pa3" [ENode "n4" (Some ("sk", "k")) [("l4", "K")] None])
          [QBlank "bl"; QAction "ac" true (QSet "se2" (EExprs "ses2" [EOperation "o4" (prop "pr6" "k" "n") Mutate (EMap "mp3" [])]));
           QAction "ac2" false (QSet "se3" (EExprs "ses3" [EOperation "o5" (prop "pr7" "k" "n") SetProp (ENull "nu")]))];
        QCall "ca" "can" None "db.labels" (Some (EArgs "ar" [sym "srow" "row"; EBool "bo" true]))
          (Some (EYield "yi" [sym "slab" "label"; EAlias "al2" "sval" (sym "sval" "value") "v"])) None;
        QSubquery "sub" (QSingle [QRemove "rm" (EExprs "rms" [prop "pr8" "k" "n"; EOperation "o6" (sym "su" "u") RemoveLabel (ELabels "lb2" [("l5", "Old")])])]
                           (Some (QReturn "ret0" false (Body (EExprs "res0" [EListComp "lc" (sym "sx" "x") (prop "pr9" "u" "tags") None (Some (sym "sx" "x"))]) None None None))))]
       (Some (QReturn "ret" false (Body (EExprs "res"
          [EAlias "al1" "fc" a_count "number"; sym "sval" "value";
           ECase "ca1" true None [("wh", EHasLabel "hl" (sym "su" "u") [("l6", "Old")], EStr "st2" "old")] (Some ("el", EListOp "lo" (sym "srow" "row") "lod" (Some (ENum "i6" (num_of_Z 0))) true None));
           EMapProj "mpj" (sym "su" "u") (EMap "mp4" [ELookup "lk" "*"; EEntry "en4" "c" a_count]);
           EPatComp "pc" (ERel "re2" node_u (EDetails "d4" LTR None None None None) (ENode "n5" None [] None)) None (prop "pr10" "u" "name")]) None None None)))).

Definition q_clauses : query :=
  QUnion "un" q_first [("up", true, QSingle [] (Some (QReturn "ret9" false (Body (EExprs "res9" [EAsterisk "as"]) None None None))))].

Lemma q_clauses_aliases : forall k a, gives_alias k a q_clauses -> In (k, a) [("fc", "number"); ("sval", "v")].
Proof. intros k a H. unfold q_clauses, q_first, prop, sym, node_u, node_m, a_count in H. hunt; cbn; auto. Qed.

Lemma q_clauses_readable : readable_q env0 (fun k a => gives_alias k a q_clauses) q_clauses.
Proof.
  unfold q_clauses at 2. unfold q_first, prop, sym, node_u, node_m, a_count.
  pose proof (proj2 (dotted_name env0 env0_names "db" ["labels"] eq_refl ltac:(repeat constructor))). rd q_clauses_aliases.
Qed.

Lemma q_clauses_statement : readable_statement env0 q_clauses.
Proof.
  pose proof (proj1 (dotted_name env0 env0_names "db" ["labels"] eq_refl ltac:(repeat constructor))).
  split; [|split; [|split]].
  - split; [intros o [a G]; apply q_clauses_aliases in G; destruct G as [G|[G|[]]]; destruct o; discriminate G|].
    repeat split; intros [a G]; apply q_clauses_aliases in G; destruct G as [G|[G|[]]]; discriminate G.
  - intros k a G. apply q_clauses_aliases in G. destruct G as [G|[G|[]]]; inversion G; subst; split; reflexivity.
  - unfold q_clauses at 2. unfold q_first, prop, node_u, node_m, a_count, sym. shaped_by q_clauses_aliases.
    all: try reflexivity.
    all: try match goal with |- exists a, gives_alias _ a _ =>
      eexists; unfold q_clauses, q_first, prop, sym, node_u, node_m, a_count; once find_alias end.
  - exact q_clauses_readable.
Qed.

(** Reading a text whose tokens are known. *)
Ltac reads n := eexists; exists n; split; [vm_compute; reflexivity|];
  let f := fresh "f" in let L := fresh "L" in let g := fresh "g" in
  intros f L; replace f with (n + (f - n)) by lia; generalize (f - n); intro g; vm_compute; reflexivity.

Example C63_case_text :
  fst (fst (render (err:=unit) (SOk (to_vtq env0 q_clauses)) new_renderer)) =
    "OPTIONAL MATCH p = (u:`User`:`a b`)-[r:`KNOWS`|`LIKES`*1..3]->(m)<--( {id: $id}), (u) WHERE (u.age > (3 * 4) AND NOT m.name IS NULL AND all(x IN u.tags WHERE x STARTS WITH 'it\'s')) CREATE (u)-[:`HAS`]-(m) SET u.seen = timestamp(), u:`Old` DETACH DELETE r WITH DISTINCT count(DISTINCT m) AS number, u ORDER BY number DESC, u.name SKIP 10 LIMIT $limit WHERE number >= -2 UNWIND [1, {}] AS row MERGE (k:`K`) ON CREATE SET k.n += {} ON MATCH SET k.n = NULL CALL db.labels(row, true) YIELD label, value AS v CALL {REMOVE k.n, u:`Old` RETURN [x IN u.tags | x]} RETURN number, v, CASE WHEN u:`Old` THEN 'old' ELSE row[0..] END, u{.*, c: number}, [(u)-->() | u.name] UNION ALL RETURN *".
Proof. vm_compute. reflexivity. Qed.

Definition plain (x : cx) : citem := CItem x None.
Definition returns (l : list citem) : cclause := CReturn (CBody false l [] None None).
Definition c_clauses : cquery :=
  CQuery
    [CMatch true
       [CPart (Some "p") None (CNode (Some "u") ["User"; "a b"] None)
          [(CRel ToRight (Some "r") ["KNOWS"; "LIKES"] (Some (Some "1", true, Some "3")) None, CNode (Some "m") [] None);
           (CRel ToLeft None [] None None, CNode None [] (Some [("id", XParam "id")]))];
        CPart None None (CNode (Some "u") [] None) []]
       (Some (XBin OAnd (XBin OAnd (XBin OGt (XProp (XVar "u") "age") (XBin OMul (XNum "3") (XNum "4")))
                                   (XNot (XIsNull true (XProp (XVar "m") "name"))))
                (XFilter "all" "x" (XProp (XVar "u") "tags") (Some (XBin OStarts (XVar "x") (XStr "it's"))))));
     CCreate [CPart None None (CNode (Some "u") [] None) [(CRel Undirected None ["HAS"] None None, CNode (Some "m") [] None)]];
     CSet [SAssign (XProp (XVar "u") "seen") (XCall ["timestamp"] false []); SLabels (XLabels (XVar "u") ["Old"])];
     CDelete true [XVar "r"];
     CWith (CBody true [CItem (XCall ["count"] true [XVar "m"]) (Some "number"); plain (XVar "u")]
              [(XVar "number", Some true); (XProp (XVar "u") "name", None)] (Some (XNum "10")) (Some (XParam "limit")))
       (Some (XBin OGe (XVar "number") (XNeg (XNum "2"))));
     CUnwind (XList [XNum "1"; XMap []]) "row";
     CMerge [CPart None None (CNode (Some "k") ["K"] None) []]
       [(true, [SMutate (XProp (XVar "k") "n") (XMap [])]); (false, [SAssign (XProp (XVar "k") "n") XNull])];
     CCall ["db"; "labels"] (Some [XVar "row"; XBool true]) (Some [plain (XVar "label"); CItem (XVar "value") (Some "v")]) None;
     CSub [CRemove [XProp (XVar "k") "n"; XLabels (XVar "u") ["Old"]];
           returns [plain (XListComp "x" (XProp (XVar "u") "tags") None (Some (XVar "x")))]] [];
     returns [plain (XVar "number"); plain (XVar "v");
              plain (XCase None [(XLabels (XVar "u") ["Old"], XStr "old")] (Some (XSlice (XVar "row") (Some (XNum "0")) None)));
              plain (XProject "u" [PAll; PEntry "c" (XVar "number")]);
              plain (XPatComp None (CNode (Some "u") [] None) [(CRel ToRight None [] None None, CNode None [] None)] None
                       (Some (XProp (XVar "u") "name")))]]
    [(true, [returns [plain XStar]])].

Example C63_case_tree :
  is_statement env0 (fst (fst (render (err:=unit) (SOk (to_vtq env0 q_clauses)) new_renderer))) c_clauses /\ means env0 c_clauses q_clauses.
Proof.
  assert (T : is_statement env0 (fst (fst (render (err:=unit) (SOk (to_vtq env0 q_clauses)) new_renderer))) c_clauses) by reads 60.
  split; [exact T|]. assert (C : self_contained env0 (e_guid env0)) by (apply word_contained; [exact env0_names|reflexivity]).
  destruct (C63_rendered_text_is_the_statement_partial unit env0 q_clauses env0_names C q_clauses_statement) as (c & H & M);
    [vm_compute; reflexivity..|]. now rewrite (C63_one_reading _ _ _ _ T H).
Qed.

(** ** Where it fails: nothing separates the parts *)

Definition gives_back (e : expr) : query := QSingle [] (Some (QReturn "r" false (Body (EExprs "es" [e]) None None None))).
Definition read_back (x : cx) : cquery := CQuery [returns [plain x]] [].
Definition rendered (q : query) : string := fst (fst (render (err:=unit) (SOk (to_vtq env0 q)) new_renderer)).
Definition var (x : string) : expr := ESym ("s" ++ x) x.
Definition equal (k : key) (a b : expr) : expr := EComparison k (Some a) Equality (Some b).

Ltac known x := tryif is_var x then fail else idtac.
Ltac apart := match goal with H : _ |- _ => first
  [ discriminate H
  | match type of H with
    | gives_alias _ _ ?q => known q; inversion H; clear H; subst
    | gives_alias_in _ _ ?q => known q; inversion H; clear H; subst
    | In _ ?l => known l; progress cbn in H
    | _ \/ _ => destruct H
    | False => destruct H
    | agrees _ _ ?x ?e => known e; known x; inversion H; clear H; subst
    | agrees_chain _ _ _ _ ?e => known e; inversion H; clear H; subst
    | agrees_node _ _ _ ?e => known e; inversion H; clear H; subst
    | agrees_item _ _ _ ?e => known e; inversion H; clear H; subst
    | agrees_body _ _ _ _ ?e => known e; inversion H; clear H; subst
    | agrees_c _ _ _ ?e => known e; inversion H; clear H; subst
    | agrees_cs _ _ _ ?e => known e; inversion H; clear H; subst
    | agrees_q _ _ _ _ ?e => known e; inversion H; clear H; subst
    | binop_of _ = Some _ => progress cbn in H; injection H as <-
    | fold_left _ _ _ = _ => progress cbn in H; injection H; clear H; intros; subst
    | _ = fold_left _ _ _ => progress cbn in H; injection H; clear H; intros; subst
    | Forall2 _ _ ?e => known e; inversion H; clear H; subst
    end ] end.

(** What is written once is read in full: neither a node by its name only nor an
    expression by its alias only is what such a statement says. *)
Definition q_once : query :=
  QSingle [QMatch "m" false (EPattern "p" [ENode "n" (Some ("sn", "n")) [("l", "Person")] None]) None]
    (Some (QReturn "r" false (Body (EExprs "es" [EAlias "al" "pr" (EProp "pr" (ESym "s" "n") (ELookup "lk" "name")) "x"]) None None None))).
Definition c_once (ls : list string) (i : citem) : cquery := CQuery [CMatch false [CPart None None (CNode (Some "n") ls None) []] None; returns [i]] [].
Ltac not_again := match goal with
  | H : again ?A ?k, N : ~ again ?A ?k |- _ => destruct (N H)
  | H : agrees_part _ _ _ ?e |- _ => inversion H; clear H; subst
  end.
Lemma only_full : forall A : register, ~ again A "n" -> ~ again A "pr" ->
  ~ agrees_statement env0 A (c_once [] (CItem (XProp (XVar "n") "name") (Some "x"))) q_once
  /\ ~ agrees_statement env0 A (c_once ["Person"] (CItem (XVar "x") None)) q_once.
Proof.
  intros A N1 N2. unfold agrees_statement, c_once, q_once. cbn [cq_first cq_others]. split; intros H; repeat first [not_again|apart].
Qed.
Example C63_case_once :
  means env0 (c_once ["Person"] (CItem (XProp (XVar "n") "name") (Some "x"))) q_once
  /\ ~ means env0 (c_once [] (CItem (XProp (XVar "n") "name") (Some "x"))) q_once
  /\ ~ means env0 (c_once ["Person"] (CItem (XVar "x") None)) q_once.
Proof.
  split; [|split].
  - apply aq_one. apply at_single. cbn [app]. constructor; [|constructor; [|constructor]].
    + apply ac_match; [|constructor]. constructor; [|constructor]. apply ag_chain. apply ag_alone. apply (ag_node _ _ "n" (Some ("sn", "n")) [("l", "Person")] None); constructor.
    + apply ac_return. constructor; try constructor; [|constructor]. apply ai_alias. apply ag_prop. apply ag_sym.
  - intros H. unfold means in H. revert H. apply only_full; intros [H|H]; vm_compute in H; lia.
  - intros H. unfold means in H. revert H. apply only_full; intros [H|H]; vm_compute in H; lia.
Qed.

(** A list of a membership test is written like a list comprehension. *)
Theorem C63_list_refuted : exists q, well_keyed (to_vtq env0 q) = true /\ well_quiet (to_vtq env0 q) = true
  /\ rendered q = "RETURN [x IN y]"
  /\ is_statement env0 (rendered q) (read_back (XListComp "x" (XVar "y") None None))
  /\ ~ means env0 (read_back (XListComp "x" (XVar "y") None None)) q.
Proof.
  exists (gives_back (EListExpr "l" (EExprs "e" [EComparison "c" (Some (var "x")) InList (Some (var "y"))]))).
  split; [vm_compute; reflexivity|]. split; [vm_compute; reflexivity|]. split; [vm_compute; reflexivity|]. split; [reads 40|].
  unfold means, agrees_statement, read_back, gives_back. cbn [cq_first cq_others]. intros H.
  repeat apart.
Qed.
Print Assumptions C63_list_refuted.

(** A conjunction around a disjunction is written like a disjunction: both connectives are those of the inner one. *)
Theorem C63_mixed_refuted : exists q, well_keyed (to_vtq env0 q) = true /\ well_quiet (to_vtq env0 q) = true
  /\ rendered q = "RETURN (a OR (b OR c))"
  /\ is_statement env0 (rendered q) (read_back (XBin OOr (XVar "a") (XBin OOr (XVar "b") (XVar "c"))))
  /\ ~ means env0 (read_back (XBin OOr (XVar "a") (XBin OOr (XVar "b") (XVar "c")))) q.
Proof.
  exists (gives_back (ECompound "c" And [var "a"; ECompound "d" Or [var "b"; var "c"]])).
  split; [vm_compute; reflexivity|]. split; [vm_compute; reflexivity|]. split; [vm_compute; reflexivity|]. split; [reads 40|].
  unfold means, agrees_statement, read_back, gives_back. cbn [cq_first cq_others]. intros H.
  repeat apart.
Qed.
Print Assumptions C63_mixed_refuted.

(** A negation that is compared is written like the negation of a comparison. *)
Theorem C63_not_refuted : exists q, well_keyed (to_vtq env0 q) = true /\ well_quiet (to_vtq env0 q) = true
  /\ rendered q = "RETURN NOT a = b"
  /\ is_statement env0 (rendered q) (read_back (XNot (XBin OEq (XVar "a") (XVar "b"))))
  /\ ~ means env0 (read_back (XNot (XBin OEq (XVar "a") (XVar "b")))) q.
Proof.
  exists (gives_back (equal "c" (EComparison "n" None Not (Some (var "a"))) (var "b"))).
  split; [vm_compute; reflexivity|]. split; [vm_compute; reflexivity|]. split; [vm_compute; reflexivity|]. split; [reads 40|].
  unfold means, agrees_statement, read_back, gives_back. cbn [cq_first cq_others]. intros H.
  repeat apart.
Qed.
Print Assumptions C63_not_refuted.

(** A comparison tested for null is written like a comparison with such a test. *)
Theorem C63_is_null_refuted : exists q, well_keyed (to_vtq env0 q) = true /\ well_quiet (to_vtq env0 q) = true
  /\ rendered q = "RETURN a = b IS NULL"
  /\ is_statement env0 (rendered q) (read_back (XBin OEq (XVar "a") (XIsNull true (XVar "b"))))
  /\ ~ means env0 (read_back (XBin OEq (XVar "a") (XIsNull true (XVar "b")))) q.
Proof.
  exists (gives_back (EComparison "n" (Some (equal "c" (var "a") (var "b"))) IsNull None)).
  split; [vm_compute; reflexivity|]. split; [vm_compute; reflexivity|]. split; [vm_compute; reflexivity|]. split; [reads 40|].
  unfold means, agrees_statement, read_back, gives_back. cbn [cq_first cq_others]. intros H.
  repeat apart.
Qed.
Print Assumptions C63_is_null_refuted.

(** A power in an exponent is written like the power of a power. *)
Theorem C63_power_refuted : exists q, well_keyed (to_vtq env0 q) = true /\ well_quiet (to_vtq env0 q) = true
  /\ rendered q = "RETURN a^b^c"
  /\ is_statement env0 (rendered q) (read_back (XBin OPow (XBin OPow (XVar "a") (XVar "b")) (XVar "c")))
  /\ ~ means env0 (read_back (XBin OPow (XBin OPow (XVar "a") (XVar "b")) (XVar "c"))) q.
Proof.
  exists (gives_back (EOperation "o" (var "a") Exponentiation (EOperation "p" (var "b") Exponentiation (var "c")))).
  split; [vm_compute; reflexivity|]. split; [vm_compute; reflexivity|]. split; [vm_compute; reflexivity|]. split; [reads 40|].
  unfold means, agrees_statement, read_back, gives_back. cbn [cq_first cq_others]. intros H.
  repeat apart.
Qed.
Print Assumptions C63_power_refuted.

(** A test of a negative number is written like the negative of a test. *)
Theorem C63_negative_refuted : exists q, well_keyed (to_vtq env0 q) = true /\ well_quiet (to_vtq env0 q) = true
  /\ rendered q = "RETURN -1 IS NULL"
  /\ is_statement env0 (rendered q) (read_back (XNeg (XIsNull true (XNum "1"))))
  /\ ~ means env0 (read_back (XNeg (XIsNull true (XNum "1")))) q.
Proof.
  exists (gives_back (EComparison "n" (Some (ENum "i" (num_of_Z (-1)))) IsNull None)).
  split; [vm_compute; reflexivity|]. split; [vm_compute; reflexivity|]. split; [vm_compute; reflexivity|]. split; [reads 40|].
  unfold means, agrees_statement, read_back, gives_back. cbn [cq_first cq_others]. intros H.
  repeat apart.
Qed.
Print Assumptions C63_negative_refuted.

(** A name space and a name are written without a dot between them. *)
Theorem C63_name_space_refuted : exists q, well_keyed (to_vtq env0 q) = true /\ well_quiet (to_vtq env0 q) = true
  /\ rendered q = "CALL dblabels"
  /\ is_statement env0 (rendered q) (CQuery [CCall ["dblabels"] None None None] [])
  /\ ~ means env0 (CQuery [CCall ["dblabels"] None None None] []) q.
Proof.
  exists (QSingle [QCall "k" "kn" (Some ("ks", "db")) "labels" None None None] None).
  split; [vm_compute; reflexivity|]. split; [vm_compute; reflexivity|]. split; [vm_compute; reflexivity|]. split; [reads 40|].
  unfold means, agrees_statement, read_back, gives_back. cbn [cq_first cq_others]. intros H.
  repeat apart. match goal with P : procedure _ _ _ _ |- _ => revert P end. intros (_ & tx & tn & Tx & Tn & P).
  vm_compute in Tx, Tn. injection Tx as <-. injection Tn as <-. discriminate P.
Qed.
Print Assumptions C63_name_space_refuted.

(** A comparison of a comparison is not read at all. *)
Theorem C63_chained_refuted : exists q, well_keyed (to_vtq env0 q) = true /\ well_quiet (to_vtq env0 q) = true
  /\ rendered q = "RETURN a = b = c" /\ forall c, ~ is_statement env0 (rendered q) c.
Proof.
  exists (gives_back (equal "c" (equal "d" (var "a") (var "b")) (var "c"))).
  split; [vm_compute; reflexivity|]. split; [vm_compute; reflexivity|]. split; [vm_compute; reflexivity|].
  intros c (ts & n & T & H). vm_compute in T. injection T as <-. specialize (H (40 + n) ltac:(lia)). vm_compute in H. discriminate H.
Qed.
Print Assumptions C63_chained_refuted.
