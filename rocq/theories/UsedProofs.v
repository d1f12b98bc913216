(** Parameters of the statements that chains of builder calls build (C68). *)

From Coq Require Import Ascii String List ZArith Bool Lia.
From Verif Require Import SpecCond GoStr Escape Num VTree Ast Cond Builder SpecBuilder BuilderProofs BuilderOutline SpecCalled CalledProofs SpecTokens SpecUses SpecUsed.
Import ListNotations.
Open Scope string_scope.
Open Scope list_scope.

(** ** Phrases whose conditions are sound *)

Definition sound_conditions (c : conditions) : Prop :=
  match c with None => True | Some (x, l) => Forall (fun y => sound_cnd y = true) (x :: map snd l) end.
Definition sound_phrase (p : phrase) : Prop :=
  match p with PMatch _ _ c | PCall _ _ _ c | PWith _ _ _ c => sound_conditions c | _ => True end.

Lemma conditions_completed_sound : forall w c, sound_conditions w -> sound_args c = true -> sound_conditions (conditions_completed w c).
Proof.
  intros w c W S. destruct c; cbn [conditions_completed sound_args] in *; try exact W; try (destruct w as [[y l0]|]; exact W).
  - constructor; [exact S|constructor].
  - destruct w as [[y l]|]; [|exact W]. cbn [sound_conditions] in *. rewrite map_app. cbn [map snd]. inversion W; subst. constructor; [assumption|]. apply Forall_app. split; [assumption|]. constructor; [exact S|constructor].
  - destruct w as [[y l]|]; [|exact W]. cbn [sound_conditions] in *. rewrite map_app. cbn [map snd]. inversion W; subst. constructor; [assumption|]. apply Forall_app. split; [assumption|]. constructor; [exact S|constructor].
Qed.
Lemma completed_sound : forall p c, sound_phrase p -> sound_args c = true -> sound_phrase (completed p c).
Proof.
  intros p c P S. destruct p; cbn [completed]; try exact P.
  - now apply conditions_completed_sound.
  - destruct c; exact P.
  - pose proof (conditions_completed_sound c0 c P S) as Q. destruct c; try exact Q; try exact P. destruct l; exact P.
  - now apply conditions_completed_sound.
Qed.
Lemma starts_sound : forall c p, starts c = Some p -> sound_phrase p.
Proof.
  intros c p H. destruct c; cbn [starts] in H; try discriminate; try (injection H as <-; exact Logic.I).
  - destruct e; [|discriminate]. injection H as <-. exact Logic.I.
  - destruct s; try discriminate. injection H as <-. exact Logic.I.
Qed.
Lemma write_call_sound : forall ph c, Forall sound_phrase ph -> sound_args c = true -> Forall sound_phrase (write_call ph c).
Proof.
  intros ph c F S. unfold write_call. destruct (starts c) as [p|] eqn:H.
  - apply Forall_app. split; [exact F|]. constructor; [eapply starts_sound; eassumption|constructor].
  - unfold complete_last. apply Forall_rev in F. destruct (rev ph) as [|p l]; [constructor|]. inversion F; subst. apply Forall_app. split; [now apply Forall_rev|]. constructor; [now apply completed_sound|constructor].
Qed.
Lemma orderly_sound : forall p ph, orderly_from ph p = true -> Forall sound_phrase ph -> Forall sound_phrase (fold_left write_call p ph).
Proof.
  induction p as [|c p IH]; intros ph O F; [exact F|]. cbn [orderly_from fold_left] in *. apply andb_prop in O as [O1 O2]. apply andb_prop in O1 as [A _].
  apply IH; [exact O2|]. now apply write_call_sound.
Qed.
Lemma written_sound : forall p, orderly p = true -> Forall sound_phrase (written p).
Proof. intros p O. apply orderly_sound; [exact O|constructor]. Qed.

(** ** Parameters in expressions *)

Section Uses.
Context (x : string).

Definition uses (e : expr) : Prop := exists k, part e (EParam k x).

Lemma uses_children : forall e, (forall k y, e <> EParam k y) -> uses e <-> Exists uses (children e).
Proof.
  intros e N. rewrite Exists_exists. split.
  - intros [k P]. inversion P as [H|c d J P' H]; subst; [destruct (N k x eq_refl)|]. exists c. split; [exact J|]. now exists k.
  - intros (c & J & k & P). exists k. eapply part_of_child; eassumption.
Qed.
Lemma uses_list : forall l, Exists uses l <-> exists e, In e l /\ uses e.
Proof. intros l. apply Exists_exists. Qed.

(** ** In conditions *)

Definition cuses (c : cnd) : Prop := uses (cond_expr c).
Lemma cuses_comp : forall k o cs n, cuses (Comp k o cs n) <-> Exists cuses cs.
Proof.
  intros k o cs n. unfold cuses. cbn [cond_expr]. rewrite uses_children by congruence. cbn [children].
  rewrite !Exists_exists. split.
  - intros (e & J & U). apply in_map_iff in J as (c & <- & J). eauto.
  - intros (c & J & U). exists (cond_expr c). split; [now apply in_map|exact U].
Qed.
Lemma cuses_one : forall c, Exists cuses [c] <-> cuses c.
Proof. intros c. split; [intros H; inversion H as [? ? U|? ? U]; [exact U|inversion U]|now left]. Qed.
Lemma cuses_added : forall ki b cs ch c cs', add_conditions ki b cs ch c = Some cs' -> sound_cnd c = true ->
  Exists cuses cs' <-> Exists cuses cs \/ cuses c.
Proof.
  intros ki b cs ch c cs' H So. unfold add_conditions in H. destruct (compound_conditions c) as [inner|] eqn:Ex.
  - assert (Q : cuses c <-> Exists cuses inner).
    { destruct c as [| | | | |k o l n|]; try discriminate; cbn in Ex.
      - inversion Ex; subst inner. unfold cuses. cbn [cond_expr]. rewrite uses_children by congruence. cbn [children]. split; intros U; inversion U.
      - inversion Ex; subst. apply cuses_comp. }
    destruct inner as [|i inner]; [inversion H; subst; rewrite Q; split; [now left|intros [U|U]; [exact U|inversion U]]|].
    destruct (b && has_op ch c)%bool.
    + destruct (can_be_flattened ch (i :: inner)); inversion H; subst; rewrite Exists_app; [now rewrite Q|now rewrite cuses_one].
    + inversion H; subst. rewrite Exists_app, cuses_one, cuses_comp, cuses_one. reflexivity.
  - destruct b; [|discriminate]. inversion H; subst. now rewrite Exists_app, cuses_one.
Qed.
Lemma add_same : forall ki cs ch c, exists cs', add_conditions ki true cs ch c = Some cs'.
Proof.
  intros ki cs ch c. unfold add_conditions. destruct (compound_conditions c) as [[|i l]|]; [eauto| |eauto].
  destruct (true && has_op ch c)%bool; [destruct (can_be_flattened ch (i :: l))|]; eauto.
Qed.
Lemma cuses_added' : forall ki cs ch c, sound_cnd c = true -> Exists cuses (added ki cs ch c) <-> Exists cuses cs \/ cuses c.
Proof.
  intros ki cs ch c So. unfold added. destruct (add_same ki cs ch c) as [cs' H]. rewrite H. eapply cuses_added; eassumption.
Qed.
Lemma none_used : Exists cuses [] <-> False.
Proof. split; [intros U; inversion U|tauto]. Qed.
Lemma cuses_create : forall ks l o r, sound_cnd l = true -> sound_cnd r = true -> cuses (create ks l o r) <-> cuses l \/ cuses r.
Proof.
  intros ks l o r Sl Sr. unfold create. rewrite (sound_no_err _ Sl), (sound_no_err _ Sr).
  assert (G : cuses (Comp (ks 0) o (added (ks 2) (added (ks 1) [] o l) o r) (length (added (ks 2) (added (ks 1) [] o l) o r))) <-> cuses l \/ cuses r).
  { rewrite cuses_comp, !cuses_added', none_used by assumption. tauto. }
  destruct l; try discriminate; destruct r; try discriminate; exact G.
Qed.
Lemma cuses_empty : cuses Empty <-> False.
Proof. unfold cuses. cbn [cond_expr]. rewrite uses_children by congruence. cbn [children]. split; [intros U; inversion U|tauto]. Qed.
Lemma cuses_chain : forall ks o a b z, sound_cnd a = true -> sound_cnd b = true -> condition_chain ks o a b = Val z -> cuses z <-> cuses a \/ cuses b.
Proof.
  intros ks o a b z Sa Sb H. destruct a; try discriminate; cbn [condition_chain container_chain embedded add] in H; inversion H; subst; clear H.
  - now apply cuses_create.
  - now apply cuses_create.
  - rewrite cuses_comp, cuses_added', none_used, cuses_empty by assumption. tauto.
  - destruct (add_conditions (ks 3) (bop_eqb o0 o) cs o b) as [cs'|] eqn:H.
    + rewrite !cuses_comp. eapply cuses_added; eassumption.
    + now apply cuses_create.
Qed.
Lemma cuses_chained : forall a l z, chained a l z -> Forall (fun y => sound_cnd y = true) (a :: map snd l) -> cuses z <-> Exists cuses (a :: map snd l).
Proof.
  intros a l z H. induction H as [a|ks o a b z l C z' H IH]; intros F.
  - cbn [map]. now rewrite cuses_one.
  - cbn [map snd] in *. inversion F as [|? ? Sa F']; subst. inversion F' as [|? ? Sb F'']; subst. rewrite IH.
    + rewrite !Exists_cons. rewrite (cuses_chain ks _ a b z Sa Sb C). tauto.
    + constructor; [|exact F'']. eapply sound_chain; [| |exact C]; assumption.
Qed.

(** ** In clauses *)

Lemma uses_where : forall c w, says_where c w -> sound_conditions c -> Exists uses (opt_list w) <-> Exists uses (condition_exprs c).
Proof.
  intros [[a l]|] w S F; cbn [says_where condition_exprs sound_conditions] in *; [|subst; reflexivity].
  destruct S as (z & Hz & S). pose proof (cuses_chained a l z Hz F) as Q.
  assert (R : Exists uses (map cond_expr (a :: map snd l)) <-> cuses z).
  { rewrite Q, !Exists_exists. split.
    - intros (e & J & U). apply in_map_iff in J as (c & <- & J). eauto.
    - intros (c & J & U). exists (cond_expr c). split; [now apply in_map|exact U]. }
  rewrite R. destruct S as [[N ->]|[_ (k & ->)]].
  - cbn [opt_list]. split; [intros U; inversion U|]. destruct N as [->|(k & o & n & ->)]; [now rewrite cuses_empty|rewrite cuses_comp, none_used; tauto].
  - cbn [opt_list]. rewrite Exists_cons, uses_children by congruence. cbn [children]. rewrite Exists_cons, !Exists_nil. unfold cuses. tauto.
Qed.
Lemma uses_item : forall e, uses e <-> Exists uses (item_exprs (item_of e)).
Proof.
  intros e. destruct (item_of e) as [a b|n ls|d] eqn:H; cbn [item_exprs].
  - destruct (assign_item e a b H) as (k & ->). now rewrite uses_children by congruence.
  - destruct (labels_item e n ls H) as (k & kn & o & kl & l & -> & _). rewrite uses_children by congruence. cbn [children].
    rewrite !Exists_cons, !Exists_nil, !uses_children by congruence. cbn [children]. rewrite !Exists_nil. tauto.
  - rewrite (plain_item e d H). rewrite Exists_cons, Exists_nil. tauto.
Qed.
Lemma uses_items : forall l e, says_items l e -> uses e <-> Exists uses (flat_map item_exprs l).
Proof.
  intros l e (k & es & -> & <-). rewrite uses_children by congruence. cbn [children]. induction es as [|e es IH]; [reflexivity|].
  cbn [map flat_map]. rewrite Exists_app, Exists_cons, IH, uses_item. reflexivity.
Qed.
Lemma uses_sorting : forall s b, says_sorting s b ->
  Exists uses (opt_list (b_order b) ++ opt_list (b_skip b) ++ opt_list (b_limit b)) <-> Exists uses (sorting_exprs s).
Proof.
  intros s [it o sk li] (Ho & Hs & Hl). cbn [b_items b_order b_skip b_limit] in *. rewrite !Exists_app.
  assert (A : Exists uses (opt_list sk) <-> False).
  { destruct (s_skip s); [destruct Hs as (k1 & k2 & ->)|subst sk]; cbn [opt_list]; rewrite ?Exists_cons, ?Exists_nil, ?uses_children by congruence; cbn [children]; rewrite ?Exists_cons, ?Exists_nil, ?uses_children by congruence; cbn [children]; rewrite ?Exists_nil; tauto. }
  assert (B : Exists uses (opt_list li) <-> False).
  { destruct (s_limit s); [destruct Hl as (k1 & k2 & ->)|subst li]; cbn [opt_list]; rewrite ?Exists_cons, ?Exists_nil, ?uses_children by congruence; cbn [children]; rewrite ?Exists_cons, ?Exists_nil, ?uses_children by congruence; cbn [children]; rewrite ?Exists_nil; tauto. }
  rewrite A, B. unfold sorting_exprs. destruct (s_items s) as [|i is'] eqn:Q; [subst o; cbn [opt_list map]; rewrite !Exists_nil; tauto|].
  destruct Ho as (ko & es & -> & F). cbn [opt_list]. rewrite Exists_cons, Exists_nil, uses_children by congruence. cbn [children].
  assert (R : forall l es, Forall2 says_sort l es -> Exists uses es <-> Exists uses (map fst l)).
  { clear. intros l es F. induction F as [|i e l es (k & ->) F IH]; [reflexivity|]. cbn [map]. rewrite !Exists_cons, IH, uses_children by congruence. cbn [children]. rewrite Exists_cons, Exists_nil. tauto. }
  rewrite (R _ _ F). tauto.
Qed.

Definition quses (q : query) : Prop := exists k, element q (EParam k x).
Lemma quses_step : forall q, quses q <-> Exists uses (clause_exprs q) \/ Exists quses (clauses_of q).
Proof.
  intros q. rewrite !Exists_exists. split.
  - intros (k & c & d & W & D & P). inversion W as [H|c' d' J W' H]; subst.
    + left. exists d. split; [exact D|]. now exists k.
    + right. exists c'. split; [exact J|]. exists k, c, d. auto.
  - intros [(e & J & k & P)|(c & J & k & c' & d & W & D & P)].
    + exists k, q, e. split; [constructor|auto].
    + exists k, c', d. split; [econstructor; eassumption|auto].
Qed.

Definition puses (p : phrase) : Prop := Exists uses (phrase_exprs p) \/ match p with PSubquery q => quses q | _ => False end.

Ltac leaf_clause := rewrite quses_step; cbn [clause_exprs clauses_of]; rewrite (Exists_nil quses).

Lemma uses_pattern : forall k l, uses (EPattern k l) <-> Exists uses l.
Proof. intros k l. now rewrite uses_children by congruence. Qed.
Lemma uses_exprs : forall k l, uses (EExprs k l) <-> Exists uses l.
Proof. intros k l. now rewrite uses_children by congruence. Qed.
Lemma uses_action : forall a q, says_action a q -> quses q <-> Exists uses (flat_map item_exprs (snd a)).
Proof.
  intros a q (k & ks & e & -> & S). rewrite quses_step. cbn [clause_exprs clauses_of]. rewrite Exists_cons, !Exists_nil. leaf_clause.
  rewrite Exists_cons, Exists_nil, (uses_items _ _ S). tauto.
Qed.
Lemma uses_actions : forall l qs, Forall2 says_action l qs -> Exists quses qs <-> Exists uses (flat_map (fun a : bool * list item => flat_map item_exprs (snd a)) l).
Proof.
  intros l qs F. induction F as [|a q l qs S F IH]; [cbn; now rewrite !Exists_nil|]. cbn [flat_map]. rewrite Exists_app, Exists_cons, IH, (uses_action _ _ S). reflexivity.
Qed.
Lemma says_uses : forall p c, says p c -> sound_phrase p -> quses c <-> puses p.
Proof.
  intros p c S F. unfold puses. destruct p, c; cbn [says sound_phrase phrase_exprs] in *; try contradiction.
  - destruct S as (_ & (k' & ->) & S). leaf_clause. rewrite Exists_cons, Exists_app, uses_pattern, (uses_where _ _ S F). tauto.
  - destruct S as (k' & ->). leaf_clause. rewrite Exists_cons, Exists_nil, uses_pattern. tauto.
  - destruct S as ((k' & ->) & kb & evs' & -> & S). rewrite quses_step. cbn [clause_exprs clauses_of]. rewrite !Exists_cons, Exists_nil, Exists_app, uses_pattern, (uses_actions _ _ S).
    assert (B : quses (QBlank kb) <-> False) by (leaf_clause; rewrite Exists_nil; tauto). rewrite B. tauto.
  - destruct S as (_ & k' & ->). leaf_clause. rewrite Exists_cons, Exists_nil, uses_exprs. tauto.
  - leaf_clause. rewrite Exists_cons, Exists_nil, (uses_items _ _ S). tauto.
  - leaf_clause. rewrite Exists_cons, Exists_nil, (uses_items _ _ S). tauto.
  - destruct S as (_ & S). leaf_clause. rewrite Exists_cons, Exists_nil. destruct e; try (subst; rewrite Exists_cons, Exists_nil; tauto).
    destruct S as (k' & ->). rewrite uses_children by congruence. cbn [children]. rewrite !Exists_nil. tauto.
  - subst. rewrite quses_step. cbn [clause_exprs clauses_of]. rewrite Exists_cons, !Exists_nil. tauto.
  - destruct S as (_ & _ & (k' & ->) & Y & S). leaf_clause. cbn [opt_list app]. rewrite Exists_cons, !Exists_app, (uses_where _ _ S F), uses_children by congruence. cbn [children].
    match type of Y with match _ with [] => ?y = None | _ => _ end => assert (R : Exists uses (opt_list y) <-> Exists uses yields) end.
    { destruct yields as [|y ys]; [subst; reflexivity|]. destruct Y as (ky & ->). cbn [opt_list]. rewrite (Exists_cons _ (EYield _ _)), Exists_nil, uses_children by congruence. cbn [children]. tauto. }
    rewrite R. tauto.
  - destruct S as (_ & ((k' & B) & S) & W). leaf_clause. rewrite B. rewrite !app_assoc, <- (app_assoc (opt_list (b_order b))), Exists_cons, !Exists_app, <- !Exists_app, Exists_app. rewrite (uses_sorting _ _ S), (uses_where _ _ W F), uses_exprs, !Exists_app. tauto.
  - destruct S as (_ & (k' & B) & S). leaf_clause. rewrite B, Exists_cons, (uses_sorting _ _ S), uses_exprs, Exists_app. tauto.
Qed.

(** ** In statements *)

Lemma quses_clauses : forall q, quses q <-> Exists quses (SpecBuilder.clauses q).
Proof.
  fix go 1. intros q. destruct q as [| | | | | | | | | | | | |cs r|ps r|]; try (cbn [SpecBuilder.clauses]; rewrite Exists_cons, Exists_nil; tauto).
  - cbn [SpecBuilder.clauses]. rewrite quses_step. cbn [clause_exprs clauses_of]. rewrite Exists_nil. destruct r; cbn [opt_list]; tauto.
  - cbn [SpecBuilder.clauses]. rewrite quses_step. cbn [clause_exprs clauses_of]. rewrite !Exists_app, Exists_cons, !Exists_nil, (go r). unfold clauses_of_part. tauto.
Qed.
Lemma chain_uses : forall phs cs, Forall2 says phs cs -> Forall sound_phrase phs -> Exists quses cs <-> Exists puses phs.
Proof.
  intros phs cs F. induction F as [|p c phs cs S F IH]; intros G; [now rewrite !Exists_nil|]. inversion G; subst. rewrite !Exists_cons, IH, (says_uses p c) by assumption. reflexivity.
Qed.
Lemma puses_phrase : forall p, puses p <-> phrase_uses x p.
Proof.
  intros p. unfold puses, phrase_uses, quses, uses. rewrite Exists_exists. split; (intros [H|H]; [left|now right]).
  - destruct H as (e & J & k & P). eauto.
  - destruct H as (e & k & J & P). eauto.
Qed.
Lemma calls_used : forall p q, orderly p = true -> Forall2 says (written p) (SpecBuilder.clauses q) -> quses q <-> calls_use p x.
Proof.
  intros p q O F. rewrite quses_clauses, (chain_uses _ _ F (written_sound p O)), Exists_exists. unfold calls_use.
  split; intros (ph & J & U); exists ph; (split; [exact J|]); now apply puses_phrase.
Qed.
End Uses.
