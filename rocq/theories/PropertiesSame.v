(** Headline theorems: C67, statements with the same text. *)

From Coq Require Import Ascii String List ZArith Bool Lia.
From Verif Require Import GoStr Escape Num VTree WellKeyed SpecLex SpecNum SpecSpace SpecTokens EscapeProofs GoStrProofs Ast SpecDoc
  SpecPrint SpecShape TokenProofs TokenTexts TokenDocs TokenPrint VTreeProofs Alloc AllocProofs RenderProofs PrintProofs
  PropertiesText PropertiesRender PropertiesBrackets PropertiesTokens SpecOutline SpecClauses OutlineProofs OutlinePrint PropertiesOutline
  GoVal SpecCond Cond Queries Builder BuilderText SpecBuilder BuilderProofs SpecPhrases BuilderOutline PropertiesBuilder PropertiesPhrases
  SpecGrammar SpecReading GrammarDocs ReadingClauses ReadingStatements DottedNames SpecCalled PhrasePlaces CalledProofs SpecTruth TruthProofs
  PropertiesGrammar PropertiesCalled PropertiesTruth.
Import ListNotations.
Open Scope string_scope.
Open Scope list_scope.

(** The text that the renderer writes for a statement. *)
Definition written_text (E : env) (q : query) : string := fst (fst (render (err:=unit) (SOk (to_vtq E q)) new_renderer)).

(** Statements that can be read back (C63) and have the same text are both what
    is read from it. *)
Theorem C67_same_text_same_reading_partial : forall E q q',
  no_space_in_names E -> self_contained E (e_guid E) ->
  readable_statement E q -> well_keyed (to_vtq E q) = true -> well_quiet (to_vtq E q) = true ->
  readable_statement E q' -> well_keyed (to_vtq E q') = true -> well_quiet (to_vtq E q') = true ->
  written_text E q = written_text E q' ->
  exists c, is_statement E (written_text E q) c /\ SpecReading.means E c q /\ SpecReading.means E c q'.
Proof.
  intros E q q' NS G R W Q R' W' Q' T.
  destruct (C63_rendered_text_is_the_statement_partial unit E q NS G R W Q) as (c & C & M).
  destruct (C63_rendered_text_is_the_statement_partial unit E q' NS G R' W' Q') as (d & D & N).
  unfold written_text in *. rewrite <- T in D. rewrite (C63_one_reading _ _ _ _ D C) in N. eauto.
Qed.
Print Assumptions C67_same_text_same_reading_partial.

(** A chain of calls with the statement it builds, as C65 and C66 ask for. *)
Definition clear_calls (E : env) (p : list Builder.call) (q : query) : Prop :=
  shared_parts E (fun k => exists a, called p k a) /\ (forall k a, called p k a -> variable a)
  /\ (exists i, compiles IStart p = Some i /\ buildable i = true) /\ orderly p = true
  /\ Forall (in_place_phrase E (called p)) (written p) /\ Forall (readable_phrase E (called p)) (written p)
  /\ (exists Kp ks, build_program Kp ks p = Some (Returns (Built (StOk q))))
  /\ kept_apart E (called p) q /\ nameless (called p) q
  /\ well_keyed (to_vtq E q) = true /\ well_quiet (to_vtq E q) = true.

(** The conditions of two phrases are true, false or null together, whenever
    their basic conditions have the values of what is read for them. *)
Definition same_truth (E : env) (A A' : register) (ph ph' : phrase) : Prop :=
  forall cc cc', made (phrase_conditions ph) cc -> proper cc = true -> unmixed cc = true ->
                 made (phrase_conditions ph') cc' -> proper cc' = true -> unmixed cc' = true ->
  forall val rho rho',
    (forall e u, List.In e (operands cc) -> SpecReading.agrees E A u e -> truth val u = rho e) ->
    (forall e u, List.In e (operands cc') -> SpecReading.agrees E A' u e -> truth val u = rho' e) ->
    meaning rho cc = meaning rho' cc'.

Lemma clear_read : forall E p q, no_space_in_names E -> self_contained E (e_guid E) -> clear_calls E p q ->
  exists l, is_statement E (written_text E q) (CQuery l [])
    /\ Forall2 (asks E (calls E p q)) (written p) l
    /\ Forall2 (fun ph c => forall cc, made (phrase_conditions ph) cc -> proper cc = true -> unmixed cc = true ->
                                       SpecTruth.means E (calls E p q) cc (where_read c)) (written p) l.
Proof.
  intros E p q NS G (SP & AN & (i & C & B) & O & F & R & (Kp & ks & Q) & KA & NL & W & Qt).
  destruct (C65_calls_read_from_the_rendered_text_partial unit E Kp ks p i NS G SP AN C B O F R) as (q1 & Q1 & H1). rewrite Q in Q1. injection Q1 as <-.
  destruct (C66_rendered_where_means_the_calls_partial unit E Kp ks p i NS G SP AN C B O F R) as (q2 & Q2 & H2). rewrite Q in Q2. injection Q2 as <-.
  destruct (H1 KA W Qt) as (l & T & M). destruct (H2 KA NL W Qt) as (l' & T' & M'). pose proof (C63_one_reading _ _ _ _ T T') as X. injection X as <-. exists l. auto.
Qed.

(** Two chains of calls whose statements have the same text ask for the same:
    as many phrases, those at the same place both what one clause says, and
    their conditions mean the same. *)
Theorem C67_same_text_same_calls_partial : forall E p q p' q',
  no_space_in_names E -> self_contained E (e_guid E) ->
  clear_calls E p q -> clear_calls E p' q' -> written_text E q = written_text E q' ->
  Forall2 (fun ph ph' => (exists c, asks E (calls E p q) ph c /\ asks E (calls E p' q') ph' c) /\ same_truth E (calls E p q) (calls E p' q') ph ph') (written p) (written p').
Proof.
  intros E p q p' q' NS G H H' T. destruct (clear_read E p q NS G H) as (l & R & M & N). destruct (clear_read E p' q' NS G H') as (l' & R' & M' & N').
  rewrite <- T in R'. pose proof (C63_one_reading _ _ _ _ R R') as X. injection X as <-. clear R R' T H H'.
  revert M' N'. generalize (written p'). generalize dependent (written p). induction l as [|c l IH]; intros phs M N phs' M' N'.
  - inversion M; subst. inversion M'; subst. constructor.
  - inversion M as [|ph ? phs1 ? M1 M2]; subst. inversion M' as [|ph' ? phs1' ? M1' M2']; subst. inversion N as [|? ? ? ? N1 N2]; subst. inversion N' as [|? ? ? ? N1' N2']; subst.
    constructor; [|now apply IH]. split; [exists c; auto|]. intros cc cc' D P U D' P' U' val rho rho' V V'.
    now rewrite <- (N1 cc D P U val rho V), <- (N1' cc' D' P' U' val rho' V').
Qed.
Print Assumptions C67_same_text_same_calls_partial.

(** ** Two ways to ask for one statement *)

(** The condition of [negated] (PropertiesTruth.v) composed before it is given to
    one call of Where. *)
Definition made_of r : cnd := match r with Val z => z | _ => Empty end.
Definition first_two : cnd := made_of (container_chain (K0 70) (bop_of_conn COr) (cond "a") (cond "b")).
Definition all_four : cnd := made_of (container_chain (K0 71) (bop_of_conn CAnd) first_two negation).
Definition at_once : list Builder.call := [matched; Where all_four; returned_n].

Lemma at_once_aliases : forall k a, ~ called at_once k a.
Proof.
  intros k a (ph & J & G). concrete at_once. destruct G as [(e & Q & G)|G].
  - repeat (destruct J as [<-|J]; [cbn [phrase_exprs condition_exprs map snd cond_expr app flat_map item_exprs sorting_exprs s_items fst unsorted] in Q; hunt; fail|]). destruct J.
  - repeat (destruct J as [<-|J]; [destruct G|]). destruct J.
Qed.
Lemma at_once_made : made (phrase_conditions (hd (PReturn false [] unsorted) (written at_once))) negated_call.
Proof.
  exists negated_call, []. split; [|split; [constructor|reflexivity]].
  apply (m_chain (K0 71) CAnd _ _ first_two negation); [|apply (m_not (K0 60) _ or_chain); [exact or_made|vm_compute; reflexivity]|vm_compute; reflexivity].
  apply (m_chain (K0 70) COr _ _ (cond "a") (cond "b")); [exact (m_basic (atom_of "a"))|exact (m_basic (atom_of "b"))|vm_compute; reflexivity].
Qed.

Example C67_case : clear_calls env0 negated (statement_of negated) /\ clear_calls env0 at_once (statement_of at_once)
  /\ written_text env0 (statement_of negated) = written_text env0 (statement_of at_once) /\ statement_of negated <> statement_of at_once.
Proof.
  split; [|split; [|split; [vm_compute; reflexivity|vm_compute; discriminate]]].
  - destruct C66_case as (H1 & H2 & H3 & H4 & H5 & H6 & H7 & H8 & H9 & H10 & _). unfold clear_calls. do 6 (split; [assumption|]). split; [|auto].
    exists K0, (K0 99). vm_compute. reflexivity.
  - pose proof at_once_aliases as NA. assert (AL : forall k a, called at_once k a -> False) by exact NA.
    split; [|split; [|split; [|split; [|split; [|split; [|split; [|split; [|split; [|split]]]]]]]]].
    + split; [intros o [a G]; destruct (NA _ _ G)|]. repeat split; intros [a G]; destruct (NA _ _ G).
    + intros k a G. destruct (NA _ _ G).
    + eexists. split; vm_compute; reflexivity.
    + vm_compute. reflexivity.
    + apply Forall_impl with (P := fine_phrase env0 (fun k => exists a, called at_once k a)); [intros; now apply fine_placed|].
    generalize dependent (called at_once). intros A NA AL. concrete at_once. fine_called AL; eexists; eassumption.
    + assert (X : readable_conditions env0 (called at_once) (phrase_conditions (hd (PReturn false [] unsorted) (written at_once)))).
      { apply (C66_conditions_are_read_back _ _ _ negated_call); [exact at_once_made|vm_compute; reflexivity|vm_compute; reflexivity|].
        cbn [negated_call operands app]. repeat (apply Forall_cons; [apply atom_basic; [exact NA|cbn; tauto]|]). apply Forall_nil. }
      generalize dependent (called at_once). intros A NA AL X. concrete at_once. cbn [hd phrase_conditions] in X.
      constructor; [|rd_phrases AL]. split; [discriminate|]. split; [rd_phrases AL|exact X].
    + exists K0, (K0 99). vm_compute. reflexivity.
    + split; [split|]; [intros k J [a G]; destruct (NA _ _ G)| |intros k a J G; destruct (NA _ _ G)].
      intros k J X. vm_compute in X. vm_compute in J. repeat (destruct X as [<-|X]; [repeat (destruct J as [J|J]; [discriminate J|]); destruct J|]). destruct X.
    + intros k a _. apply NA.
    + vm_compute. reflexivity.
    + vm_compute. reflexivity.
Qed.

(** So their conditions are true, false or null together. *)
Example C67_case_truth :
  same_truth env0 (calls env0 negated (statement_of negated)) (calls env0 at_once (statement_of at_once)) (hd (PReturn false [] unsorted) (written negated)) (hd (PReturn false [] unsorted) (written at_once)).
Proof.
  assert (C : self_contained env0 (e_guid env0)) by (apply word_contained; [exact env0_names|reflexivity]).
  destruct C67_case as (N & O & T & _). pose proof (C67_same_text_same_calls_partial env0 negated _ at_once _ env0_names C N O T) as F.
  revert F. generalize (calls env0 negated (statement_of negated)) (calls env0 at_once (statement_of at_once)). intros A A' F. concrete negated. concrete at_once. inversion F; subst. cbn [hd]. tauto.
Qed.

(** ** Names that are no names *)

(** The name of a parameter is written as it is given, so RETURN of the one
    parameter "p, n" and RETURN of the parameter p and of n have the same text: the
    text does not tell how many columns were asked for. *)
Definition two_columns : list Builder.call := [matched; Returning false [GOk (EParam "sp" "p"); GOk nn]].
Definition one_column : list Builder.call := [matched; Returning false [GOk (EParam "sp" "p, n")]].

Theorem C67_parameter_refuted : exists q q',
  result_of two_columns = Some (Returns (Built (StOk q))) /\ result_of one_column = Some (Returns (Built (StOk q')))
  /\ written_text env0 q = written_text env0 q'
  /\ ~ Forall2 (fun ph ph' => exists c, asks env0 (calls env0 two_columns q) ph c /\ asks env0 (calls env0 one_column q') ph' c) (written two_columns) (written one_column).
Proof.
  exists (statement_of two_columns), (statement_of one_column). do 3 (split; [vm_compute; reflexivity|]).
  generalize (calls env0 two_columns (statement_of two_columns)) (calls env0 one_column (statement_of one_column)). intros A A' F. concrete two_columns. concrete one_column.
  inversion F as [|? ? ? ? _ F1]; subst. inversion F1 as [|? ? ? ? (c & R & R') _]; subst. cbn [asks] in R, R'.
  destruct c as [ | | | | | | | |[d ts o k l]| | ]; try contradiction. destruct R as (_ & R & _). destruct R' as (_ & R' & _).
  inversion R' as [|? ? ? ? _ Z]; subst. inversion Z; subst. inversion R as [|? ? ? ? _ Y]; subst. inversion Y.
Qed.
Print Assumptions C67_parameter_refuted.
