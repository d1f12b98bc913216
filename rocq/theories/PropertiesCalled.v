(** Headline theorems: C65. *)

From Coq Require Import Ascii String List ZArith Bool Lia.
From Verif Require Import GoStr Escape Num VTree WellKeyed SpecLex SpecNum SpecSpace SpecTokens EscapeProofs GoStrProofs Ast SpecDoc
  SpecPrint SpecShape TokenProofs TokenTexts TokenDocs TokenPrint VTreeProofs Alloc AllocProofs RenderProofs PrintProofs
  PropertiesText PropertiesRender PropertiesBrackets PropertiesTokens SpecOutline SpecClauses OutlineProofs OutlinePrint PropertiesOutline
  GoVal SpecCond Cond Queries Builder BuilderText SpecBuilder BuilderProofs SpecPhrases BuilderOutline PropertiesBuilder PropertiesPhrases
  SpecGrammar SpecReading GrammarDocs ReadingClauses ReadingStatements DottedNames SpecCalled PhrasePlaces CalledProofs PropertiesGrammar.
Import ListNotations.
Open Scope string_scope.
Open Scope list_scope.

(** The clauses that are read are those of the statement that is built. *)
Lemma calls_read : forall E Kp ks p i,
  no_space_in_names E -> self_contained E (e_guid E) ->
  shared_parts E (fun k => exists a, called p k a) -> (forall k a, called p k a -> variable a) ->
  compiles IStart p = Some i -> buildable i = true -> orderly p = true ->
  Forall (in_place_phrase E (called p)) (written p) -> Forall (readable_phrase E (called p)) (written p) ->
  exists q, build_program Kp ks p = Some (Returns (Built (StOk q)))
    /\ (kept_apart E (called p) q ->
        exists l, is_statement E (statement_text E q) (CQuery l []) /\ Forall2 SpecBuilder.says (written p) (SpecBuilder.clauses q)
          /\ Forall2 (agrees_c E (calls E p q)) l (SpecBuilder.clauses q) /\ Forall2 (asks E (calls E p q)) (written p) l).
Proof.
  intros E Kp ks p i NS G SP AN C B O F R. destruct (C26_clauses_in_call_order_partial Kp ks p i C B O) as (q & Q & H).
  exists q. split; [exact Q|]. intros [KA KI].
  destruct (flattened_placed E (called p) (written p) q (written_last p i C) H F KA) as (a & r & Sh & T & Cl).
  assert (FC : free_of (calls E p q) (flat_map clause_keys (SpecBuilder.clauses q))).
  { intros k I x X. apply (proj1 KA k I). exists x. exact X. }
  assert (FI : free_of (calls E p q) (flat_map inner_clause_keys (SpecBuilder.clauses q))) by (intros k I x X; exact (KI k x I X)).
  assert (CV : covers_q (calls E p q) (QSingle a r)).
  { apply covers_q_by; [constructor|]. cbn [queries_of]. rewrite <- Cl. clear - H F. assert (X : forall k x ph, In ph (written p) -> phrase_gives k x ph -> calls E p q k x) by (intros k x ph I J; now exists ph).
    change (called p) with (aliases (calls E p q)) in F. revert X F. generalize (calls E p q) as A. revert H. generalize (SpecBuilder.clauses q) (written p). intros qs ph S. induction S as [|ph0 q0 ph qs S0 S IH]; intros A X F; [constructor|].
    inversion F; subst. constructor; [|apply IH; [intros k x y I; apply X; now right|assumption]]. apply (says_covers E A ph0 q0); [assumption|assumption|]. intros k x. apply X. now left. }
  assert (RQ : readable_q E (calls E p q) (QSingle a r)).
  { constructor. constructor. pose proof (clauses_readable E (calls E p q) _ _ H R FC FI) as X. rewrite Cl in X. destruct r; exact X. }
  destruct (C59_statement_tokens_partial E _ _ NS G SP Sh) as (ts & T1 & T2).
  assert (W : GrammarDocs.writes E (calls E p q) (print_query E (QSingle a r)) ts).
  { apply pieces_writes; [now apply print_query_introduces| |exact T1]. intros k. unfold calls. cbn [again]. rewrite Cl, map_app. destruct r; exact (fun X => X). }
  destruct (statement_back E NS (calls E p q) AN SP _ ts RQ W) as ([l us] & n & M & Rd).
  unfold agrees_statement in M. cbn [cq_first cq_others] in M. inversion M as [? ? Mc|]; subst. inversion Mc as [? ? ? Ml| |]; subst.
  exists l. split.
  - exists ts, n. split; [|exact Rd]. unfold statement_text in *. now rewrite <- T.
  - assert (Mq : Forall2 (agrees_c E (calls E p q)) l (SpecBuilder.clauses q)) by (rewrite Cl; destruct r; exact Ml).
    split; [exact H|]. split; [exact Mq|]. now apply (clauses_ask E (calls E p q) (written p) (SpecBuilder.clauses q)).
Qed.

(** Whoever reads the text of a statement made by a chain of calls reads one
    statement, and its clauses are those asked for, in the order of the calls. *)
Theorem C65_calls_read_from_the_text_partial : forall E Kp ks p i,
  no_space_in_names E -> self_contained E (e_guid E) ->
  shared_parts E (fun k => exists a, called p k a) -> (forall k a, called p k a -> variable a) ->
  compiles IStart p = Some i -> buildable i = true -> orderly p = true ->
  Forall (in_place_phrase E (called p)) (written p) -> Forall (readable_phrase E (called p)) (written p) ->
  exists q, build_program Kp ks p = Some (Returns (Built (StOk q)))
    /\ (kept_apart E (called p) q ->
        exists l, is_statement E (statement_text E q) (CQuery l []) /\ Forall2 (asks E (calls E p q)) (written p) l).
Proof.
  intros E Kp ks p i NS G SP AN C B O F R. destruct (calls_read E Kp ks p i NS G SP AN C B O F R) as (q & Q & H). exists q. split; [exact Q|].
  intros KA. destruct (H KA) as (l & T & _ & _ & X). eauto.
Qed.
Print Assumptions C65_calls_read_from_the_text_partial.

(** The same of the text the renderer writes. *)
Theorem C65_calls_read_from_the_rendered_text_partial : forall (err : Type) E Kp ks p i,
  no_space_in_names E -> self_contained E (e_guid E) ->
  shared_parts E (fun k => exists a, called p k a) -> (forall k a, called p k a -> variable a) ->
  compiles IStart p = Some i -> buildable i = true -> orderly p = true ->
  Forall (in_place_phrase E (called p)) (written p) -> Forall (readable_phrase E (called p)) (written p) ->
  exists q, build_program Kp ks p = Some (Returns (Built (StOk q)))
    /\ (kept_apart E (called p) q -> well_keyed (to_vtq E q) = true -> well_quiet (to_vtq E q) = true ->
        exists l, is_statement E (fst (fst (render (err:=err) (SOk (to_vtq E q)) new_renderer))) (CQuery l [])
                  /\ Forall2 (asks E (calls E p q)) (written p) l).
Proof.
  intros err E Kp ks p i NS G SP AN C B O F R. destruct (C65_calls_read_from_the_text_partial E Kp ks p i NS G SP AN C B O F R) as (q & Q & H).
  exists q. split; [exact Q|]. intros KA W Qt. rewrite (C01_rendering_prints_the_statement_partial err E q W Qt). cbn [fst]. now apply H.
Qed.
Print Assumptions C65_calls_read_from_the_rendered_text_partial.

(** ** A chain that meets the hypotheses *)

Definition total : expr := EFun "fc" "count" "fa" [nn].
Definition asked : list Builder.call :=
  [matched; Where (cond "a"); AndC (cond "b");
   Proc ["labels"]; Args (Some [GOk (EStr "st" "it's")]); Yield [GOk (EAlias "al2" "sl" (ESym "sl" "label") "l")];
   With true [GOk (EAlias "al" "fc" total "total"); GOk nn; GOk (ESym "sl" "label")]; OrderBy (GOk total); Descending; Limit 3;
   Unwind (GOk (EListLit "li" [num "i1" 1; num "i2" 2])) "x";
   Merge [GOk m_]; OnAction true [GOk (PropertiesBuilder.prop mm "z" "x"); GOk (ESym "sx" "x")];
   Create [GOk (ERel "re" n_ (EDetails "de" LTR None (Some ("ty", ["SAW"])) None None) m_)];
   SetItems [GOk (PropertiesBuilder.prop mm "y" "y"); GOk total];
   RemoveLabels (NodeNamed "sm" "m") ["A"; "B"];
   Returning false [GOk total; GOk mm]; OrderItems [Sort "s1" nn (Some true)]; Then (GOk mm); Skip 1; Limit 2].

Ltac concrete p := let w := eval vm_compute in (written p) in change (written p) with w in *.

Lemma asked_aliases : forall k a, called asked k a -> In (k, a) [("sl", "l"); ("fc", "total")].
Proof.
  intros k a (ph & J & G). concrete asked. destruct G as [(e & Q & G)|G].
  - repeat (destruct J as [<-|J]; [cbn [phrase_exprs condition_exprs map snd cond_expr app flat_map item_exprs sorting_exprs s_items fst] in Q; hunt; cbn; auto; fail|]). destruct J.
  - repeat (destruct J as [<-|J]; [destruct G|]). destruct J.
Qed.

Ltac fine_called al := repeat first
  [ match goal with
    | |- Forall _ _ => constructor
    | |- fine _ _ _ => split; [shaped_by al|calm_one]
    | |- fine_condition _ _ _ => split; [reflexivity|cbn [cond_expr map op_of]]
    | |- _ /\ _ => split
    | |- True => exact Logic.I
    | |- _ = "" \/ _ => right; reflexivity
    | |- self_contained _ _ => apply word_contained; [exact env0_names|reflexivity]
    | |- calm_text _ _ => apply C60_identifiers_are_calm; [exact env0_names|reflexivity|reflexivity]
    | |- exists x, [_] = [x] /\ _ => eexists; split; [reflexivity|]
    end
  | progress unfold fine_sorting
  | progress cbn [fine_phrase fine_conditions fine_item fst snd s_items map cond_expr] ].

Lemma asked_given : called asked "sl" "l" /\ called asked "fc" "total".
Proof.
  split; unfold called; concrete asked.
  - eexists. split; [cbn [In]; right; left; reflexivity|]. left. eexists. split; [cbn [phrase_exprs app In]; right; left; reflexivity|]. constructor.
  - eexists. split; [cbn [In]; right; right; left; reflexivity|]. left. eexists. split; [cbn [phrase_exprs app In]; left; reflexivity|]. constructor.
Qed.

Lemma asked_calm : Forall (fine_phrase env0 (fun k => exists a, called asked k a)) (written asked).
Proof.
  pose proof asked_aliases as AL. pose proof asked_given as [G1 G2]. generalize dependent (called asked). intros A AL G1 G2. concrete asked. fine_called AL; eexists; eassumption.
Qed.
Lemma asked_fine : Forall (in_place_phrase env0 (called asked)) (written asked).
Proof.
  apply Forall_impl with (2 := asked_calm). intros p. apply fine_placed.
Qed.

Ltac rd_conditions al := let z := fresh "z" in let H := fresh "H" in intros z H _; cbn [map snd] in H;
  repeat match goal with
  | H : chained _ (_ :: _) _ |- _ => inversion H; clear H; subst
  | H : chained _ [] _ |- _ => inversion H; clear H; subst
  | H : condition_chain _ _ _ _ = Val _ |- _ => vm_compute in H; injection H; clear H; intros; subst
  end; cbn [cond_expr map op_of]; rd al.
Ltac rd_phrases al := repeat first
  [ match goal with
    | |- Forall _ _ => constructor
    | |- readable_conditions _ _ _ => unfold readable_conditions; first [exact Logic.I|rd_conditions al]
    | |- SpecReading.readable _ _ _ _ => rd al
    | |- readable_item _ _ _ => rd al
    | |- readable_labels _ _ => split; [split; reflexivity|split; [discriminate|repeat constructor; discriminate]]
    | |- _ <> [] => discriminate
    | |- is_identifier _ _ = true => reflexivity
    | |- exists x w l, [_] = [x] /\ _ => do 3 eexists; split; [reflexivity|]
    | |- tokens _ ?x = _ => instantiate (2 := x); instantiate (1 := []); vm_compute; reflexivity
    | |- _ /\ _ => split
    end
  | progress unfold readable_sorting
  | progress cbn [readable_phrase readable_setting readable_removing fst snd s_items] ].

Lemma asked_readable : Forall (readable_phrase env0 (called asked)) (written asked).
Proof. pose proof asked_aliases as AL. generalize dependent (called asked). intros A AL. concrete asked. rd_phrases AL. Qed.

Example C65_case :
  shared_parts env0 (fun k => exists a, called asked k a) /\ (forall k a, called asked k a -> variable a)
  /\ (exists i, compiles IStart asked = Some i /\ buildable i = true) /\ orderly asked = true
  /\ Forall (in_place_phrase env0 (called asked)) (written asked) /\ Forall (readable_phrase env0 (called asked)) (written asked)
  /\ kept_apart env0 (called asked) (statement_of asked)
  /\ well_keyed (to_vtq env0 (statement_of asked)) = true /\ well_quiet (to_vtq env0 (statement_of asked)) = true.
Proof.
  split; [|split; [|split; [|split; [|split; [|split; [|split; [|split]]]]]]].
  - split; [intros o [a G]; apply asked_aliases in G; destruct G as [G|[G|[]]]; destruct o; discriminate G|].
    repeat split; intros [a G]; apply asked_aliases in G; destruct G as [G|[G|[]]]; discriminate G.
  - intros k a G. apply asked_aliases in G. destruct G as [G|[G|[]]]; inversion G; subst; split; reflexivity.
  - eexists. split; vm_compute; reflexivity.
  - vm_compute. reflexivity.
  - exact asked_fine.
  - exact asked_readable.
  - split; [split|].
    + intros k J [a G]. apply asked_aliases in G. vm_compute in J. destruct G as [G|[G|[]]]; injection G as <- <-; repeat (destruct J as [J|J]; [discriminate J|]); destruct J.
    + intros k J X. vm_compute in X. vm_compute in J. repeat (destruct X as [<-|X]; [repeat (destruct J as [J|J]; [discriminate J|]); destruct J|]). destruct X.
    + intros k a J G. apply asked_aliases in G. vm_compute in J. destruct G as [G|[G|[]]]; injection G as <- <-; repeat (destruct J as [J|J]; [discriminate J|]); destruct J.
  - vm_compute. reflexivity.
  - vm_compute. reflexivity.
Qed.

Definition asked_read : list cclause :=
  [CMatch false [CPart None None (CNode (Some "n") ["Person"] None) []]
     (Some (XBin OAnd (XBin OEq (XProp (XVar "n") "a") (XNum "1")) (XBin OEq (XProp (XVar "n") "b") (XNum "1"))));
   CCall ["labels"] (Some [XStr "it's"]) (Some [CItem (XVar "label") (Some "l")]) None;
   CWith (CBody true [CItem (XCall ["count"] false [XVar "n"]) (Some "total"); CItem (XVar "n") None; CItem (XVar "l") None]
                [(XVar "total", Some true)] None (Some (XNum "3"))) None;
   CUnwind (XList [XNum "1"; XNum "2"]) "x";
   CMerge [CPart None None (CNode (Some "m") ["Movie"] None) []] [(true, [SAssign (XProp (XVar "m") "x") (XVar "x")])];
   CCreate [CPart None None (CNode (Some "n") [] None) [(CRel ToRight None ["SAW"] None None, CNode (Some "m") [] None)]];
   CSet [SAssign (XProp (XVar "m") "y") (XVar "total")];
   CRemove [XLabels (XVar "m") ["A"; "B"]];
   CReturn (CBody false [CItem (XVar "total") None; CItem (XVar "m") None] [(XVar "n", Some true); (XVar "m", None)] (Some (XNum "1")) (Some (XNum "2")))].

Example C65_case_read :
  fst (fst (render (err:=unit) (SOk (to_vtq env0 (statement_of asked))) new_renderer)) =
    "MATCH (n:`Person`) WHERE (n.a = 1 AND n.b = 1) CALL labels('it\'s') YIELD label AS l WITH DISTINCT count(n) AS total, n, l ORDER BY total DESC LIMIT 3 UNWIND [1, 2] AS x MERGE (m:`Movie`) ON CREATE SET m.x = x CREATE (n)-[:`SAW`]->(m) SET m.y = total REMOVE m:`A`:`B` RETURN total, m ORDER BY n DESC, m SKIP 1 LIMIT 2"
  /\ is_statement env0 (fst (fst (render (err:=unit) (SOk (to_vtq env0 (statement_of asked))) new_renderer))) (CQuery asked_read [])
  /\ Forall2 (asks env0 (calls env0 asked (statement_of asked))) (written asked) asked_read.
Proof.
  split; [vm_compute; reflexivity|]. assert (T : is_statement env0 (fst (fst (render (err:=unit) (SOk (to_vtq env0 (statement_of asked))) new_renderer))) (CQuery asked_read [])) by reads 60.
  split; [exact T|]. assert (C : self_contained env0 (e_guid env0)) by (apply word_contained; [exact env0_names|reflexivity]).
  destruct C65_case as (H1 & H2 & (i & H3 & H4) & H5 & H6 & H7 & H8 & H9 & H10).
  destruct (C65_calls_read_from_the_rendered_text_partial unit env0 K0 (K0 99) asked i env0_names C H1 H2 H3 H4 H5 H6 H7) as (q & Q & G).
  assert (X : q = statement_of asked) by (unfold statement_of, result_of; now rewrite Q). subst q.
  destruct (G H8 H9 H10) as (l & D & M). pose proof (C63_one_reading _ _ _ _ T D) as X. injection X as X. now rewrite X.
Qed.

(** ** Where it fails *)

(** A chain of Or extended with And by a chain of Or is read with another
    grouping. *)
Definition or_chain : cnd := match condition_chain (K0 50) BOr (cond "c") (cond "d") with Val z => z | _ => Empty end.
Definition mixed_calls : list Builder.call := [matched; Where (cond "a"); OrC (cond "b"); AndC or_chain; returned_n].
Definition is_one (p : string) : cx := XBin OEq (XProp (XVar "n") p) (XNum "1").
Definition mixed_read : list cclause :=
  [CMatch false [CPart None None (CNode (Some "n") ["Person"] None) []]
     (Some (XBin OOr (is_one "a") (XBin OAnd (is_one "b") (XBin OOr (is_one "c") (is_one "d")))));
   CReturn (CBody false [CItem (XVar "n") None] [] None None)].

Theorem C65_mixed_conditions_refuted : exists q i,
  compiles IStart mixed_calls = Some i /\ buildable i = true /\ orderly mixed_calls = true
  /\ build_program K0 (K0 99) mixed_calls = Some (Returns (Built (StOk q)))
  /\ (forall k a, ~ called mixed_calls k a)
  /\ well_keyed (to_vtq env0 q) = true /\ well_quiet (to_vtq env0 q) = true
  /\ fst (fst (render (err:=unit) (SOk (to_vtq env0 q)) new_renderer)) = "MATCH (n:`Person`) WHERE (n.a = 1 OR n.b = 1 AND (n.c = 1 OR n.d = 1)) RETURN n"
  /\ is_statement env0 (fst (fst (render (err:=unit) (SOk (to_vtq env0 q)) new_renderer))) (CQuery mixed_read [])
  /\ ~ Forall2 (asks env0 (calls env0 mixed_calls q)) (written mixed_calls) mixed_read.
Proof.
  exists (statement_of mixed_calls). eexists. do 4 (split; [vm_compute; reflexivity|]).
  assert (NA : forall k a, ~ called mixed_calls k a).
  { intros k a (ph & J & G). concrete mixed_calls. destruct G as [(e & Q & G)|G].
    - repeat (destruct J as [<-|J]; [cbn [phrase_exprs condition_exprs map snd cond_expr app flat_map item_exprs sorting_exprs s_items fst unsorted] in Q; hunt; fail|]). destruct J.
    - repeat (destruct J as [<-|J]; [destruct G|]). destruct J. }
  split; [exact NA|]. split; [vm_compute; reflexivity|]. split; [vm_compute; reflexivity|]. split; [vm_compute; reflexivity|]. split; [reads 80|].
  assert (NA' : forall k a, ~ calls env0 mixed_calls (statement_of mixed_calls) k a) by exact NA. clear NA. rename NA' into NA.
  generalize dependent (calls env0 mixed_calls (statement_of mixed_calls)). intros A NA H. concrete mixed_calls. inversion H as [|? ? ? ? R _ E1 E2]; subst. destruct R as (_ & _ & z & Hz & W). destruct W as [[_ W]|[_ (t & W & G)]]; [discriminate W|]. injection W as <-.
  repeat match goal with
  | H : chained _ (_ :: _) _ |- _ => inversion H; clear H; subst
  | H : chained _ [] _ |- _ => inversion H; clear H; subst
  | H : condition_chain _ _ _ _ = Val _ |- _ => vm_compute in H; injection H; clear H; intros; subst
  end.
  cbn [cond_expr map op_of] in G. clear - NA G. inversion G; subst.
  - match goal with X : binop_of Or = Some ?b |- _ => injection X as <- end. repeat match goal with X : Forall2 _ _ _ |- _ => inversion X; clear X; subst end.
    match goal with X : fold_left _ _ _ = _ |- _ => discriminate X end.
Qed.
Print Assumptions C65_mixed_conditions_refuted.
