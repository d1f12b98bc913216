(** Headline theorems: C66. *)

From Coq Require Import Ascii String List ZArith Bool Lia.
From Verif Require Import GoStr Escape Num VTree WellKeyed SpecLex SpecNum SpecSpace SpecTokens EscapeProofs GoStrProofs Ast SpecDoc
  SpecPrint SpecShape TokenProofs TokenTexts TokenDocs TokenPrint VTreeProofs Alloc AllocProofs RenderProofs PrintProofs
  PropertiesText PropertiesRender PropertiesBrackets PropertiesTokens SpecOutline SpecClauses OutlineProofs OutlinePrint PropertiesOutline
  GoVal SpecCond Cond Queries Builder BuilderText SpecBuilder BuilderProofs SpecPhrases BuilderOutline PropertiesBuilder PropertiesPhrases
  SpecGrammar SpecReading GrammarDocs ReadingClauses ReadingStatements DottedNames SpecCalled PhrasePlaces CalledProofs SpecTruth TruthProofs
  PropertiesGrammar PropertiesCalled.
Import ListNotations.
Open Scope string_scope.
Open Scope list_scope.

(** Conditions made by calls that do not mix connectives are read back when
    their basic conditions are. *)
Theorem C66_conditions_are_read_back : forall E A c cc,
  made c cc -> proper cc = true -> unmixed cc = true -> Forall (basic E A) (operands cc) -> readable_conditions E A c.
Proof. exact (fun E A => made_readable E (Register A (fun _ => False))). Qed.
Print Assumptions C66_conditions_are_read_back.

(** In the statement that is read from the text of a chain of calls, every WHERE
    is true, false or null as the calls of Where, And, Or and Not say. *)
Theorem C66_where_means_the_calls_partial : forall E Kp ks p i,
  no_space_in_names E -> self_contained E (e_guid E) ->
  shared_parts E (fun k => exists a, called p k a) -> (forall k a, called p k a -> variable a) ->
  compiles IStart p = Some i -> buildable i = true -> orderly p = true ->
  Forall (in_place_phrase E (called p)) (written p) -> Forall (readable_phrase E (called p)) (written p) ->
  exists q, build_program Kp ks p = Some (Returns (Built (StOk q)))
    /\ (kept_apart E (called p) q -> nameless (called p) q ->
        exists l, is_statement E (statement_text E q) (CQuery l [])
          /\ Forall2 (fun ph c => forall cc, made (phrase_conditions ph) cc -> proper cc = true -> unmixed cc = true ->
                                             means E (calls E p q) cc (where_read c)) (written p) l).
Proof.
  intros E Kp ks p i NS G SP AN C B O F R. destruct (calls_read E Kp ks p i NS G SP AN C B O F R) as (q & Q & H). exists q. split; [exact Q|].
  intros KA NL. destruct (H KA) as (l & T & S & M & _). exists l. split; [exact T|]. now apply clauses_mean with (SpecBuilder.clauses q).
Qed.
Print Assumptions C66_where_means_the_calls_partial.

(** The same of the text the renderer writes. *)
Theorem C66_rendered_where_means_the_calls_partial : forall (err : Type) E Kp ks p i,
  no_space_in_names E -> self_contained E (e_guid E) ->
  shared_parts E (fun k => exists a, called p k a) -> (forall k a, called p k a -> variable a) ->
  compiles IStart p = Some i -> buildable i = true -> orderly p = true ->
  Forall (in_place_phrase E (called p)) (written p) -> Forall (readable_phrase E (called p)) (written p) ->
  exists q, build_program Kp ks p = Some (Returns (Built (StOk q)))
    /\ (kept_apart E (called p) q -> nameless (called p) q -> well_keyed (to_vtq E q) = true -> well_quiet (to_vtq E q) = true ->
        exists l, is_statement E (fst (fst (render (err:=err) (SOk (to_vtq E q)) new_renderer))) (CQuery l [])
          /\ Forall2 (fun ph c => forall cc, made (phrase_conditions ph) cc -> proper cc = true -> unmixed cc = true ->
                                             means E (calls E p q) cc (where_read c)) (written p) l).
Proof.
  intros err E Kp ks p i NS G SP AN C B O F R. destruct (C66_where_means_the_calls_partial E Kp ks p i NS G SP AN C B O F R) as (q & Q & H).
  exists q. split; [exact Q|]. intros KA NL W Qt. rewrite (C01_rendering_prints_the_statement_partial err E q W Qt). cbn [fst]. now apply H.
Qed.
Print Assumptions C66_rendered_where_means_the_calls_partial.

(** ** Where a, Or b, And Not(c.Or(d)) *)

Definition atom_of (p : string) : expr := match cond p with Atom e => e | _ => nn end.
Definition negation : cnd := match container_not (K0 60) or_chain with Val z => z | _ => Empty end.
Definition negated : list Builder.call := [matched; Where (cond "a"); OrC (cond "b"); AndC negation; returned_n].
Definition negated_call : SpecCond.call expr :=
  Chain CAnd (Chain COr (Basic (atom_of "a")) (Basic (atom_of "b"))) (Negate (Chain COr (Basic (atom_of "c")) (Basic (atom_of "d")))).
Definition negated_read : list cclause :=
  [CMatch false [CPart None None (CNode (Some "n") ["Person"] None) []]
     (Some (XBin OAnd (XBin OOr (is_one "a") (is_one "b")) (XNot (XBin OOr (is_one "c") (is_one "d")))));
   CReturn (CBody false [CItem (XVar "n") None] [] None None)].

Lemma negated_aliases : forall k a, ~ called negated k a.
Proof.
  intros k a (ph & J & G). concrete negated. destruct G as [(e & Q & G)|G].
  - repeat (destruct J as [<-|J]; [cbn [phrase_exprs condition_exprs map snd cond_expr app flat_map item_exprs sorting_exprs s_items fst unsorted] in Q; hunt; fail|]). destruct J.
  - repeat (destruct J as [<-|J]; [destruct G|]). destruct J.
Qed.
Lemma or_made : makes (Chain COr (Basic (atom_of "c")) (Basic (atom_of "d"))) or_chain.
Proof. eapply (m_method (K0 50)); [constructor|constructor|vm_compute; reflexivity]. Qed.
Lemma negated_made : made (phrase_conditions (hd (PReturn false [] unsorted) (written negated))) negated_call.
Proof.
  exists (Basic (atom_of "a")), [(COr, Basic (atom_of "b")); (CAnd, Negate (Chain COr (Basic (atom_of "c")) (Basic (atom_of "d"))))].
  split; [exact (m_basic (atom_of "a"))|]. split; [|reflexivity].
  constructor; [split; [reflexivity|exact (m_basic (atom_of "b"))]|]. constructor; [|constructor]. split; [reflexivity|].
  apply (m_not (K0 60) _ or_chain); [exact or_made|vm_compute; reflexivity].
Qed.
Lemma atom_basic : forall A p, (forall k a, ~ A k a) -> In p ["a"; "b"; "c"; "d"] -> basic env0 A (atom_of p).
Proof.
  intros A p NA J. assert (AL : forall k a, A k a -> False) by exact NA. repeat (destruct J as [<-|J]; [split; [|exact Logic.I]; unfold atom_of, cond, PropertiesBuilder.prop, nn, num; rd AL|]). destruct J.
Qed.

Example C66_case :
  shared_parts env0 (fun k => exists a, called negated k a) /\ (forall k a, called negated k a -> variable a)
  /\ (exists i, compiles IStart negated = Some i /\ buildable i = true) /\ orderly negated = true
  /\ Forall (in_place_phrase env0 (called negated)) (written negated) /\ Forall (readable_phrase env0 (called negated)) (written negated)
  /\ kept_apart env0 (called negated) (statement_of negated) /\ nameless (called negated) (statement_of negated)
  /\ well_keyed (to_vtq env0 (statement_of negated)) = true /\ well_quiet (to_vtq env0 (statement_of negated)) = true
  /\ proper negated_call = true /\ unmixed negated_call = true.
Proof.
  pose proof negated_aliases as NA. assert (AL : forall k a, called negated k a -> False) by exact NA.
  split; [|split; [|split; [|split; [|split; [|split; [|split; [|split; [|split; [|split; [|split]]]]]]]]]].
  - split; [intros o [a G]; destruct (NA _ _ G)|]. repeat split; intros [a G]; destruct (NA _ _ G).
  - intros k a G. destruct (NA _ _ G).
  - eexists. split; vm_compute; reflexivity.
  - vm_compute. reflexivity.
  - apply Forall_impl with (P := fine_phrase env0 (fun k => exists a, called negated k a)); [intros; now apply fine_placed|].
    generalize dependent (called negated). intros A NA AL. concrete negated. fine_called AL; eexists; eassumption.
  - assert (X : readable_conditions env0 (called negated) (phrase_conditions (hd (PReturn false [] unsorted) (written negated)))).
    { apply (C66_conditions_are_read_back _ _ _ negated_call); [exact negated_made|vm_compute; reflexivity|vm_compute; reflexivity|].
      cbn [negated_call operands app]. repeat (apply Forall_cons; [apply atom_basic; [exact NA|cbn; tauto]|]). apply Forall_nil. }
    generalize dependent (called negated). intros A NA AL X. concrete negated. cbn [hd phrase_conditions] in X.
    constructor; [|rd_phrases AL]. split; [discriminate|]. split; [rd_phrases AL|exact X].
  - split; [split|]; [intros k J [a G]; destruct (NA _ _ G)| |intros k a J G; destruct (NA _ _ G)].
    intros k J X. vm_compute in X. vm_compute in J. repeat (destruct X as [<-|X]; [repeat (destruct J as [J|J]; [discriminate J|]); destruct J|]). destruct X.
  - intros k a _. apply NA.
  - vm_compute. reflexivity.
  - vm_compute. reflexivity.
  - reflexivity.
  - reflexivity.
Qed.

Example C66_case_read :
  fst (fst (render (err:=unit) (SOk (to_vtq env0 (statement_of negated))) new_renderer)) =
    "MATCH (n:`Person`) WHERE ((n.a = 1 OR n.b = 1) AND NOT ((n.c = 1 OR n.d = 1))) RETURN n"
  /\ is_statement env0 (fst (fst (render (err:=unit) (SOk (to_vtq env0 (statement_of negated))) new_renderer))) (CQuery negated_read [])
  /\ means env0 (calls env0 negated (statement_of negated)) negated_call (where_read (hd (CSet []) negated_read)).
Proof.
  split; [vm_compute; reflexivity|]. assert (T : is_statement env0 (fst (fst (render (err:=unit) (SOk (to_vtq env0 (statement_of negated))) new_renderer))) (CQuery negated_read [])) by reads 80.
  split; [exact T|]. assert (C : self_contained env0 (e_guid env0)) by (apply word_contained; [exact env0_names|reflexivity]).
  destruct C66_case as (H1 & H2 & (i & H3 & H4) & H5 & H6 & H7 & H8 & H9 & H10 & H11 & H12 & H13).
  destruct (C66_rendered_where_means_the_calls_partial unit env0 K0 (K0 99) negated i env0_names C H1 H2 H3 H4 H5 H6 H7) as (q & Q & G).
  assert (X : q = statement_of negated) by (unfold statement_of, result_of; now rewrite Q). subst q.
  destruct (G H8 H9 H10 H11) as (l & D & M). pose proof (C63_one_reading _ _ _ _ T D) as X. injection X as X. rewrite <- X in M.
  pose proof negated_made as Md. concrete negated. inversion M as [|? ? ? ? M1 _]; subst. apply (M1 negated_call); [exact Md|exact H12|exact H13].
Qed.

(** ** Mixed chains *)

(** a.Or(b).And(c.Or(d)) is read as true when only a is. *)
Definition mixed_call : SpecCond.call expr :=
  Chain CAnd (Chain COr (Basic (atom_of "a")) (Basic (atom_of "b"))) (Chain COr (Basic (atom_of "c")) (Basic (atom_of "d"))).
Definition only_a_read (t : cx) : tv := match t with XBin OEq (XProp _ p) _ => Some (String.eqb p "a") | _ => None end.
Definition only_a (e : expr) : tv := match e with EComparison _ (Some (EProp _ _ (ELookup _ p))) _ _ => Some (String.eqb p "a") | _ => None end.

Theorem C66_mixed_conditions_refuted : exists q,
  build_program K0 (K0 99) mixed_calls = Some (Returns (Built (StOk q)))
  /\ is_statement env0 (fst (fst (render (err:=unit) (SOk (to_vtq env0 q)) new_renderer))) (CQuery mixed_read [])
  /\ made (phrase_conditions (hd (PReturn false [] unsorted) (written mixed_calls))) mixed_call /\ proper mixed_call = true
  /\ (forall e u, In e (operands mixed_call) -> agrees env0 (calls env0 mixed_calls q) u e -> truth only_a_read u = only_a e)
  /\ option_map (truth only_a_read) (where_read (hd (CSet []) mixed_read)) = Some (Some true)
  /\ meaning only_a mixed_call = Some (Some false).
Proof.
  destruct C65_mixed_conditions_refuted as (q & i & _ & _ & _ & Q & NA & _ & _ & _ & T & _). exists q. split; [exact Q|]. split; [exact T|].
  split; [|split; [reflexivity|split; [|split; reflexivity]]].
  - exists (Basic (atom_of "a")), [(COr, Basic (atom_of "b")); (CAnd, Chain COr (Basic (atom_of "c")) (Basic (atom_of "d")))].
    split; [exact (m_basic (atom_of "a"))|]. split; [|reflexivity].
    constructor; [split; [reflexivity|exact (m_basic (atom_of "b"))]|]. constructor; [|constructor]. split; [reflexivity|exact or_made].
  - change (forall k a, ~ calls env0 mixed_calls q k a) in NA. clear T Q. generalize dependent (calls env0 mixed_calls q). intros A NA e u J H.
    assert (X : exists k x y p n, e = EComparison k (Some (EProp x nn (ELookup y p))) Equality (Some (num n 1)) /\ In p ["a"; "b"; "c"; "d"]).
    { cbn in J. repeat (destruct J as [<-|J]; [do 5 eexists; split; [reflexivity|cbn; tauto]|]). destruct J. }
    destruct X as (k & x & y & p & n & -> & _). cbn [only_a]. inversion H; subst.
    + destruct (NA _ _ ltac:(eassumption)).
    + match goal with B : binop_of _ = Some _ |- _ => injection B as <- end. match goal with G : agrees _ _ _ (EProp _ _ _) |- _ => inversion G; subst end.
      * destruct (NA _ _ ltac:(eassumption)).
      * reflexivity.
      * match goal with G : agrees_chain _ _ _ _ _ |- _ => inversion G; subst end. match goal with G : agrees_node _ _ _ _ |- _ => inversion G end.
    + match goal with G : agrees_chain _ _ _ _ _ |- _ => inversion G; subst end. match goal with G : agrees_node _ _ _ _ |- _ => inversion G end.
Qed.
Print Assumptions C66_mixed_conditions_refuted.
