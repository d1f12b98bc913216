(** Proofs for C71. *)

From Coq Require Import Ascii String List ZArith Bool Lia.
From Verif Require Import GoStr Escape Num VTree WellKeyed SpecLex SpecNum SpecSpace SpecTokens EscapeProofs GoStrProofs Ast SpecDoc
  SpecPrint SpecShape TokenProofs TokenTexts TokenDocs TokenPrint VTreeProofs Alloc AllocProofs RenderProofs PrintProofs
  DocProofs PropertiesText PropertiesRender PropertiesBrackets PropertiesTokens SpecOutline SpecClauses OutlineProofs OutlinePrint PropertiesOutline
  GoVal SpecCond Cond Queries Builder BuilderText SpecBuilder BuilderProofs SpecPhrases BuilderOutline PropertiesBuilder PropertiesPhrases
  SpecGrammar SpecReading GrammarDocs ReadingClauses ReadingStatements DottedNames SpecCalled PhrasePlaces CalledProofs SpecUnited.
Import ListNotations.
Open Scope string_scope.
Open Scope list_scope.

(** ** The text of a union is that of the clauses of its parts *)

Section Texts.
Context (E : env).

Lemma spread_text : forall q m, (forall k, List.In k (part_keys q) -> free k m /\ ~ List.In k (aliased_keys (print_query E q))) ->
  write (print_query E q) m = write (print_query E (spread q)) m.
Proof. intros q m H. rewrite (clauses_text E q m H). cbn [spread print_query option_map maybe]. now rewrite app_nil_r. Qed.

Lemma spread_parts_text : forall (qs : list (key * bool * query)) m,
  (forall k, List.In k (map (fun p => fst (fst p)) qs ++ flat_map part_keys (map snd qs)) ->
     free k m /\ forall p, List.In p qs -> ~ List.In k (aliased_keys (print_query E (snd p)))) ->
  let show := map (fun p : key * bool * query => Shared (fst (fst p)) (Cat [Txt (if snd (fst p) then " UNION ALL " else " UNION "); print_query E (snd p)])) in
  wcat (show qs) m = wcat (show (map (fun p => (fst p, spread (snd p))) qs)) m.
Proof.
  intros qs. induction qs as [|[[k b] q] qs IH]; intros m H; cbv zeta; [reflexivity|]. cbn [map wcat fst snd].
  assert (I1 : forall j, List.In j (part_keys q) -> List.In j (map (fun p : key * bool * query => fst (fst p)) ((k, b, q) :: qs) ++ flat_map part_keys (map snd ((k, b, q) :: qs)))).
  { intros j J. cbn [map fst snd flat_map]. right. apply in_or_app. right. apply in_or_app. now left. }
  assert (I2 : forall j, List.In j (map (fun p => fst (fst p)) qs ++ flat_map part_keys (map snd qs)) ->
    List.In j (map (fun p : key * bool * query => fst (fst p)) ((k, b, q) :: qs) ++ flat_map part_keys (map snd ((k, b, q) :: qs)))).
  { intros j J. cbn [map fst snd flat_map]. apply in_app_or in J as [J|J]; right; apply in_or_app; [now left|right; apply in_or_app; now right]. }
  destruct (H k (or_introl eq_refl)) as [Hk _]. rewrite !write_Shared. unfold free in Hk. rewrite Hk. rewrite !write_Cat. cbn [wcat write].
  assert (T : write (print_query E q) m = write (print_query E (spread q)) m).
  { apply spread_text. intros j J. destruct (H j (I1 j J)) as [F N]. split; [exact F|]. apply (N (k, b, q)). now left. }
  assert (F : forall j, List.In j (map (fun p => fst (fst p)) qs ++ flat_map part_keys (map snd qs)) -> free j (snd (write (print_query E q) m))).
  { intros j J. destruct (H j (I2 j J)) as [F N]. apply free_write; [apply (N (k, b, q)); now left|exact F]. }
  rewrite T in *. destruct (write (print_query E (spread q)) m) as [x m1]. cbn [snd] in F. cbv zeta in IH. rewrite (IH m1); [reflexivity|].
  intros j J. split; [now apply F|]. intros p Jp. destruct (H j (I2 j J)) as [_ N]. apply N. now right.
Qed.

Lemma union_aliased : forall k q qs x, List.In x (members (QUnion k q qs)) -> forall j, List.In j (aliased_keys (print_query E x)) -> List.In j (aliased_keys (print_query E (QUnion k q qs))).
Proof.
  intros k q qs x [<-|J] j Ij; cbn [print_query aliased_keys flat_map]; apply in_or_app; [now left|right].
  apply in_map_iff in J as (p & <- & Jp). apply in_flat_map. eexists. split; [apply in_map_iff; exists p; split; [reflexivity|exact Jp]|].
  cbn [aliased_keys flat_map]. rewrite app_nil_r. exact Ij.
Qed.

Lemma spread_union_text : forall k q qs,
  (forall j, List.In j (union_keys (QUnion k q qs) ++ flat_map part_keys (members (QUnion k q qs))) -> ~ List.In j (aliased_keys (print_query E (QUnion k q qs)))) ->
  text (print_query E (QUnion k q qs)) = text (print_query E (spread_union (QUnion k q qs))).
Proof.
  intros k q qs H. assert (N : forall x j, List.In x (members (QUnion k q qs)) -> List.In j (union_keys (QUnion k q qs) ++ flat_map part_keys (members (QUnion k q qs))) -> ~ List.In j (aliased_keys (print_query E x))).
  { intros x j Jx Jj X. apply (H j Jj). now apply (union_aliased k q qs x). }
  unfold text. f_equal. cbn [print_query spread_union]. rewrite !write_Shared. change (alias_of k (introduced nothing_written)) with (@None string).
  rewrite !write_Cat. cbn [wcat]. assert (Hq : forall j, List.In j (part_keys q) -> List.In j (union_keys (QUnion k q qs) ++ flat_map part_keys (members (QUnion k q qs)))).
  { intros j J. apply in_or_app. right. cbn [members flat_map]. apply in_or_app. now left. }
  rewrite (spread_text q nothing_written) by (intros j J; split; [reflexivity|apply N; [now left|now apply Hq]]).
  assert (F : forall j, List.In j (map (fun p : key * bool * query => fst (fst p)) qs ++ flat_map part_keys (map snd qs)) ->
    List.In j (union_keys (QUnion k q qs) ++ flat_map part_keys (members (QUnion k q qs)))).
  { intros j J. cbn [union_keys members flat_map]. apply in_app_or in J as [J|J]; apply in_or_app; [left; now right|right; apply in_or_app; now right]. }
  pose proof (fun j J => free_write j (print_query E q) nothing_written (N q j (or_introl eq_refl) (F j J)) eq_refl) as G.
  rewrite (spread_text q nothing_written) in G by (intros j J; split; [reflexivity|apply N; [now left|now apply Hq]]).
  destruct (write (print_query E (spread q)) nothing_written) as [x m1]. cbn [snd] in G. rewrite (spread_parts_text qs m1); [reflexivity|].
  intros j J. split; [now apply G|]. intros p Jp. apply N; [right; now apply in_map|now apply F].
Qed.
End Texts.

(** ** The statement a union of statements is *)

Definition part_list (ku : nat -> key) (all : bool) (qs : list query) : list (key * bool * query) :=
  combine (map (fun i => (ku (Datatypes.S i), all)) (List.seq 0 (length qs))) qs.

Lemma not_union : forall x q, proper x -> builds x q -> match q with QUnion _ _ _ => False | _ => True end.
Proof.
  intros [Kp ks p] q ((i & C & B) & O) H. cbn in *. destruct (C26_clauses_in_call_order_partial Kp ks p i C B O) as (q' & Q & S). unfold builds in H. cbn in H.
  rewrite Q in H. injection H as ->. destruct q; try exact Logic.I. cbn [SpecBuilder.clauses] in S. inversion S as [|ph ? ? ? X]; subst. destruct ph; cbn [SpecBuilder.says] in X; repeat match goal with X : _ /\ _ |- _ => destruct X | X : exists _, _ |- _ => destruct X end; try discriminate; try contradiction.
Qed.

Lemma sound_all : forall qs, sound_statements (map StOk qs) = qs.
Proof. induction qs; [reflexivity|]. cbn. f_equal. exact IHqs. Qed.
Lemma no_errors : forall qs, first_statement_error (map StOk qs) = None.
Proof. induction qs; [reflexivity|exact IHqs]. Qed.
Lemma none_broken : forall qs, existsb is_broken_statement (map StOk qs) = false.
Proof. induction qs; [reflexivity|exact IHqs]. Qed.
Lemma none_nil : forall qs, existsb (fun s => match s with StNil => true | _ => false end) (map StOk qs) = false.
Proof. induction qs; [reflexivity|exact IHqs]. Qed.

Lemma created : forall ku all q q2 qs, union_query_create ku all (map StOk (q :: q2 :: qs)) = StOk (QUnion (ku 0) q (part_list ku all (q2 :: qs))).
Proof.
  intros. unfold union_query_create. rewrite map_length. cbn [length Nat.ltb Nat.leb]. rewrite no_errors, none_broken, sound_all. reflexivity.
Qed.
Lemma united : forall ku all q q2 qs, match q with QUnion _ _ _ => False | _ => True end ->
  union_impl ku all (map StOk (q :: q2 :: qs)) = StOk (QUnion (ku 0) q (part_list ku all (q2 :: qs))).
Proof.
  intros ku all q q2 qs N. unfold union_impl. rewrite map_length. cbn [length Nat.ltb Nat.leb]. rewrite none_nil. 
  destruct q; try destruct N; cbn [map]; rewrite <- (created ku all _ q2 qs); reflexivity.
Qed.

Lemma part_list_snd : forall ku all qs, map snd (part_list ku all qs) = qs.
Proof.
  intros ku all qs. unfold part_list. assert (L : forall n, length qs = length (map (fun i => (ku (Datatypes.S i), all)) (List.seq n (length qs)))) by (intros; now rewrite map_length, seq_length).
  specialize (L 0). revert L. generalize (map (fun i => (ku (Datatypes.S i), all)) (List.seq 0 (length qs))). induction qs as [|q qs IH]; intros [|x l] L; try discriminate; [reflexivity|]. cbn. f_equal. apply IH. now injection L.
Qed.
Lemma part_list_all : forall ku all qs p, List.In p (part_list ku all qs) -> snd (fst p) = all.
Proof.
  intros ku all qs [[k b] q] J. apply in_combine_l in J. apply in_map_iff in J as (i & Q & _). cbn. congruence.
Qed.
(** More statements are added to a union. *)
Lemma united_more : forall ku ku' all q q2 qs rs, match q with QUnion _ _ _ => False | _ => True end ->
  union_impl ku' all (StOk (QUnion (ku 0) q (part_list ku all (q2 :: qs))) :: map StOk rs) = 
  if Nat.ltb (Datatypes.S (length rs)) 2 then StErr true "at least 2 statements are required" else union_impl ku' all (map StOk (q :: q2 :: qs ++ rs)).
Proof.
  intros ku ku' all q q2 qs rs N. unfold union_impl at 1. cbn [length]. rewrite map_length. destruct (Nat.ltb (Datatypes.S (length rs)) 2); [reflexivity|].
  assert (A : union_all_of (part_list ku all (q2 :: qs)) = all) by reflexivity. rewrite A, eqb_reflx. cbn [negb]. rewrite none_nil. unfold add_additional_queries. rewrite A.
  rewrite <- (map_map snd StOk), part_list_snd, <- map_app, <- map_cons. cbn [app]. now rewrite created, united.
Qed.

(** ** What is read *)

Section Read.
Context (E : env) (A : register).
Context (NS : no_space_in_names E) (G : self_contained E (e_guid E)).
Context (SP : shared_parts E (fun k => exists a, A k a)) (AN : forall k a, A k a -> variable a).

(** A statement with one part that says the same. *)
Definition levelled (q f : query) : Prop :=
  shaped_q E (fun k => exists a, A k a) f /\ print_query E f = print_query E (spread q) /\ readable_cs E A f /\ covers_q A f
  /\ (forall l, agrees_cs E A l f -> Forall2 (agrees_c E A) l (SpecBuilder.clauses q)).

Lemma member_levelled : forall x q,
  proper x -> builds x q -> (forall k a, called (program x) k a -> A k a) ->
  Forall (in_place_phrase E A) (written (program x)) -> Forall (readable_phrase E A) (written (program x)) ->
  free_of A (flat_map clause_keys (SpecBuilder.clauses q)) -> free_of A (flat_map inner_clause_keys (SpecBuilder.clauses q)) ->
  (forall k, List.In k (part_keys q) -> ~ List.In k (aliased_keys (print_query E q))) ->
  Forall2 SpecBuilder.says (written (program x)) (SpecBuilder.clauses q) /\ exists f, levelled q f.
Proof.
  intros [Kp ks p] q ((i & C & B) & O) H X F R FC FI PK. unfold builds in H. cbn [making closing program] in *.
  destruct (C26_clauses_in_call_order_partial Kp ks p i C B O) as (q' & Q & S). rewrite Q in H. injection H as ->. split; [exact S|].
  destruct (flattened_placed E A (written p) q (written_last p i C) S F) as (a & r & Sh & T & Cl).
  { split; [|exact PK]. intros k J [y Y]. exact (FC k J y Y). }
  exists (QSingle a r). split; [exact Sh|]. split; [|split; [|split]].
  - unfold spread. rewrite Cl. cbn [print_query option_map maybe]. rewrite app_nil_r, map_app. now destruct r.
  - constructor. pose proof (clauses_readable E A _ _ S R FC FI) as Y. rewrite Cl in Y. destruct r; exact Y.
  - apply covers_q_by; [constructor|]. cbn [queries_of]. rewrite <- Cl. assert (X' : forall k y ph, List.In ph (written p) -> phrase_gives k y ph -> A k y) by (intros k y ph I J; apply X; now exists ph).
    clear - S F X'. revert X' F. induction S as [|ph0 q0 ph qs S0 S IH]; intros X F; [constructor|].
    inversion F; subst. constructor; [|apply IH; [intros k y z I; apply X; now right|assumption]]. apply (says_covers E A ph0 q0); [assumption|assumption|]. intros k y. apply X. now left.
  - intros l M. inversion M as [? ? ? Ml| |]; subst. rewrite Cl. destruct r; exact Ml.
Qed.

Lemma levelled_parts : forall (qs : list (key * bool * query)), Forall (fun p => unaliased A (fst (fst p)) /\ exists f, levelled (snd p) f) qs ->
  exists fs, Forall2 (fun p f => fst f = fst p /\ unaliased A (fst (fst p)) /\ levelled (snd p) (snd f)) qs fs.
Proof.
  intros qs H. induction H as [|p qs [U (f & Hf)] _ (fs & IH)]; [now exists []|]. exists ((fst p, f) :: fs). now constructor.
Qed.

Lemma levelled_read : forall k q (qs : list (key * bool * query)) f fs,
  unaliased A k -> levelled q f -> Forall2 (fun p f => fst f = fst p /\ unaliased A (fst (fst p)) /\ levelled (snd p) (snd f)) qs fs ->
  text (print_query E (QUnion k q qs)) = text (print_query E (spread_union (QUnion k q qs))) ->
  (forall j, written_again (print_query E (spread_union (QUnion k q qs))) j -> again A j) ->
  exists l us, is_statement E (statement_text E (QUnion k q qs)) (CQuery l us)
    /\ Forall2 (agrees_c E A) l (SpecBuilder.clauses q)
    /\ Forall2 (fun u p => fst u = snd (fst p) /\ Forall2 (agrees_c E A) (snd u) (SpecBuilder.clauses (snd p))) us qs.
Proof.
  intros k q qs f fs U (Sf & Pf & Rf & Cf & Af) Fs T Ag.
  assert (P : print_query E (QUnion k f fs) = print_query E (spread_union (QUnion k q qs))).
  { cbn [print_query spread_union]. rewrite Pf. do 3 f_equal. clear - Fs. induction Fs as [|p g qs fs (Q & _ & _ & Pg & _) _ IH]; [reflexivity|]. cbn [map fst snd]. now rewrite IH, Q, Pg. }
  assert (Sh : shaped_q E (fun k => exists a, A k a) (QUnion k f fs)).
  { constructor; [exact Sf|]. intros ku b y J. clear - Fs J. induction Fs as [|p g qs fs (Q & Up & Sg & _) _ IH]; [destruct J|]. destruct J as [->|J]; [|now apply IH]. split; [|exact Sg]. intros [a Ha]. cbn in Q. subst. apply (Up a). rewrite <- Q. exact Ha. }
  assert (RQ : readable_q E A (QUnion k f fs)).
  { constructor; [exact U|exact Rf|]. clear - Fs. induction Fs as [|p g qs fs (Q & Up & _ & _ & Rg & _) _ IH]; constructor; [|exact IH]. rewrite Q. split; assumption. }
  assert (CV : covers_q A (QUnion k f fs)).
  { apply covers_q_by; [constructor|]. cbn [queries_of]. constructor; [exact Cf|]. clear - Fs. induction Fs as [|p g qs fs (_ & _ & _ & _ & _ & Cg & _) _ IH]; constructor; assumption. }
  destruct (C59_statement_tokens_partial E _ _ NS G SP Sh) as (ts & T1 & T2).
  assert (W : GrammarDocs.writes E A (print_query E (QUnion k f fs)) ts).
  { apply pieces_writes; [now apply print_query_introduces| |exact T1]. rewrite P. exact Ag. }
  destruct (statement_back E NS A AN SP _ ts RQ W) as ([l us] & n & M & Rd). unfold agrees_statement in M. cbn [cq_first cq_others] in M.
  inversion M as [? ? Mc|? ? ? ? ? Mf Mu]; subst; [inversion Mc|]. exists l, us. split; [|split].
  - exists ts, n. split; [|exact Rd]. unfold statement_text in *. now rewrite T, <- P.
  - now apply Af.
  - clear - Fs Mu. revert us Mu. induction Fs as [|p g qs fs (Q & _ & _ & _ & _ & _ & Ag) _ IH]; intros us Mu; inversion Mu as [|u ? us' ? [Qu Mg] Mu']; subst; constructor; [|now apply IH].
    split; [now rewrite <- Q|now apply Ag].
Qed.
End Read.

Lemma Forall2_map_right : forall X Y Z (R : X -> Z -> Prop) (f : Y -> Z) l m, Forall2 R l (map f m) -> Forall2 (fun x y => R x (f y)) l m.
Proof. intros X Y Z R f l m. revert l. induction m; intros l H; inversion H; subst; constructor; auto. Qed.

Lemma union_read : forall E xs k q qs,
  no_space_in_names E -> self_contained E (e_guid E) ->
  shared_parts E (fun k => exists a, called_in xs k a) -> (forall k a, called_in xs k a -> variable a) ->
  Forall proper xs -> Forall2 builds xs (members (QUnion k q qs)) ->
  (forall x, List.In x xs -> Forall (in_place_phrase E (called_in xs)) (written (program x)) /\ Forall (readable_phrase E (called_in xs)) (written (program x))) ->
  union_apart E (called_in xs) (QUnion k q qs) ->
  exists l us, is_statement E (statement_text E (QUnion k q qs)) (CQuery l us) /\ map fst us = map (fun p => snd (fst p)) qs
    /\ Forall2 (fun x l => Forall2 (asks E (in_union E xs (QUnion k q qs))) (written (program x)) l) xs (l :: map snd us).
Proof.
  intros E xs k q qs NS G SP AN PR BU PH (KC & KU & KA). set (A := in_union E xs (QUnion k q qs)). 
  assert (EV : Forall2 (fun x y => (Forall2 SpecBuilder.says (written (program x)) (SpecBuilder.clauses y) /\ exists f, levelled E A y f)
       /\ (forall l, Forall2 (agrees_c E A) l (SpecBuilder.clauses y) -> Forall2 (asks E A) (written (program x)) l)) xs (members (QUnion k q qs))).
  { assert (GE : forall ys ms, incl ys xs -> incl ms (members (QUnion k q qs)) -> Forall2 builds ys ms ->
      Forall2 (fun x y => (Forall2 SpecBuilder.says (written (program x)) (SpecBuilder.clauses y) /\ exists f, levelled E A y f)
       /\ (forall l, Forall2 (agrees_c E A) l (SpecBuilder.clauses y) -> Forall2 (asks E A) (written (program x)) l)) ys ms).
    2:{ apply GE; [intros y J; exact J|intros y J; exact J|exact BU]. }
    intros ys ms Iy Im F. induction F as [|x m ys ms Hb F IH]; [constructor|]. constructor; [|apply IH; intros z J; [apply Iy|apply Im]; now right].
    assert (Jx : List.In x xs) by (apply Iy; now left). assert (Jm : List.In m (members (QUnion k q qs))) by (apply Im; now left).
    destruct (PH x Jx) as [P1 P2]. rewrite Forall_forall in PR.
    assert (FC : free_of A (flat_map clause_keys (SpecBuilder.clauses m))) by (intros j J a; apply (KC m j a Jm); apply in_or_app; now left).
    assert (FI : free_of A (flat_map inner_clause_keys (SpecBuilder.clauses m))) by (intros j J a; apply (KC m j a Jm); apply in_or_app; now right).
    destruct (member_levelled E A x m (PR x Jx) Hb) as [S L]; [intros j a H; now exists x|exact P1|exact P2|exact FC|exact FI| |].
    { intros j J X. apply (KA j); [apply in_or_app; right; apply in_flat_map; eauto|]. now apply (union_aliased E k q qs m). }
    split; [now split|]. intros l Ml. now apply (clauses_ask E A (written (program x)) (SpecBuilder.clauses m)). }
  assert (UK : forall j, List.In j (union_keys (QUnion k q qs)) -> unaliased A j) by (intros j J a X; exact (KU j a J X)).
  cbn [members] in EV. inversion EV as [|x ? xs' ? [[_ (f & Lf)] Af] EV' Q1 Q2]. 
  apply Forall2_map_right in EV'.
  destruct (levelled_parts E A qs) as (fs & Fs).
  { assert (UK' : forall p, List.In p qs -> unaliased A (fst (fst p))) by (intros p J; apply UK; right; now apply (in_map (fun p : key * bool * query => fst (fst p)))).
    clear - EV' UK'. clearbody A. induction EV' as [|x p ys ms [[_ L] _] F IH]; constructor; [split; [apply UK'; now left|exact L]|]. apply IH. intros z J. apply UK'. now right. }
  destruct (levelled_read E A NS G SP AN k q qs f fs (UK k (or_introl eq_refl)) Lf Fs) as (l & us & St & Ml & Mu).
  { now apply spread_union_text. } { exact (fun j X => X). }
  exists l, us. split; [exact St|]. split.
  - clear - Mu. clearbody A. induction Mu as [|u p us qs [Q _] _ IH]; [reflexivity|]. cbn. now rewrite Q, IH.
  - constructor; [now apply Af|]. clear - EV' Mu. clearbody A. revert us Mu. induction EV' as [|x p ys ms [_ H] F IH]; intros us Mu; inversion Mu as [|u ? us' ? [_ Mg] Mu']; subst; constructor; [now apply H|now apply IH].
Qed.
