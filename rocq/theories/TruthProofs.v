(** Lemmas for C66: conditions made by calls are readable, and the tree that is
    read has the truth the calls mean. *)

From Coq Require Import Ascii String List ZArith Bool Lia.
From Verif Require Import GoStr Escape Num VTree Ast SpecTokens SpecShape SpecOutline SpecGrammar SpecReading GoVal SpecCond Cond CondProofs Queries
  Builder SpecBuilder SpecPhrases SpecCalled SpecTruth.
Import ListNotations.
Open Scope string_scope.
Open Scope list_scope.

Section Truth.
Context (E : env) (A : register).
Notation agrees := (agrees E A).
Notation readable := (readable E A).
Notation basic := (basic E A).

Definition connective_of (o : bop) : binop := match o with BAnd => OAnd | BOr => OOr | BXor => OXor end.
Lemma connective_op : forall o, binop_of (op_of o) = Some (connective_of o) /\ connective (op_of o) = true.
Proof. now destruct o. Qed.
Lemma op_of_inj : forall a b, op_of a = op_of b -> a = b.
Proof. now destruct a, b. Qed.

(** ** Readability *)

(** What may stand next to an operator may stand next to a weaker one. *)
Lemma readable_weaken : forall p e, readable p e -> forall m n, p = At m -> n <= m -> readable (At n) e.
Proof.
  induction 1; intros m0 n0 Q L; try discriminate Q; injection Q as ->;
    first [ solve [econstructor; eauto; lia]
          | solve [eapply rd_num; eauto; intros G; match goal with X : _ -> _ <= 8 |- _ => specialize (X G) end; lia]
          | solve [eapply rd_operation; eauto; intros G; match goal with X : _ -> _ <= 7 |- _ => specialize (X G) end; lia]
          | solve [eapply rd_fun_distinct; eauto] | solve [eapply rd_fun_filter; eauto] | solve [eapply rd_path_comp; eauto]
          | solve [eapply rd_has_label; eauto; lia] | solve [eapply rd_exists; eauto] | solve [eapply rd_case; eauto] ].
Qed.

Lemma condition_readable : forall rho x n, n <= 3 -> sound rho x -> uniform x -> (exists v, val rho x = Some v) -> over_atoms basic x ->
  readable (At n) (cond_expr x).
Proof.
  intros rho x. induction x as [|e|k kn c IH|e| |k o cs m IH|e cs IH] using cnd_ind'; intros n L S U V O; try (now inversion S).
  - destruct O as [O _]. exact (readable_weaken _ _ O 3 n eq_refl L).
  - inversion S as [|? ? ? Sc Vc| |]; subst. cbn [cond_expr]. constructor; [exact L|]. constructor; [lia|]. apply IH; auto; lia.
  - destruct V as [v V]. discriminate V.
  - inversion S as [| | |? ? ? ? P]; subst. apply uniform_Comp in U as [U F]. apply over_atoms_Comp in O.
    destruct (connective_op o) as [B C].
    assert (X : forall j, j <= 3 -> Forall (fun c => readable (At j) (cond_expr c)) cs).
    { intros j Lj. clear - IH P U O Lj. induction cs as [|c cs IHc]; constructor; inversion IH; inversion P as [|? ? [? ?] ?]; inversion U; inversion O; subst; auto. }
    destruct cs as [|c [|d cs]].
    + destruct V as [v V]. discriminate V.
    + cbn [cond_expr map]. constructor. specialize (X n L). now inversion X.
    + cbn [cond_expr map]. assert (L1 : left_of (connective_of o) <= 3) by (destruct o; vm_compute; repeat constructor). assert (L2 : right_of (connective_of o) <= 3) by (destruct o; vm_compute; repeat constructor).
      apply (rd_compound E A n k (op_of o) (connective_of o)); [exact B|exact C|discriminate| | |].
      * specialize (X _ L1). now inversion X.
      * specialize (X _ L2). inversion X as [|? ? _ X']; subst. change (Forall (readable (At (right_of (connective_of o)))) (map cond_expr (d :: cs))). clear - X'. induction X'; constructor; auto.
      * cbn [tl] in F. inversion O as [|? ? _ O']; inversion P as [|? ? _ P']; subst. change (Forall (fun d => match d with ECompound _ o' _ => o' = op_of o | _ => True end) (map cond_expr (d :: cs))).
        revert F O' P'. generalize (d :: cs). clear. intros l F O P. induction l as [|x l IH]; cbn [map]; [constructor|]. inversion F; inversion O; inversion P as [|? ? [? [? Vx]] ?]; subst.
        constructor; [|auto]. destruct x; cbn [cond_expr]; try exact Logic.I; try (match goal with G : sound _ _ |- _ => now inversion G end).
        -- match goal with G : over_atoms _ (Atom _) |- _ => destruct G as [_ G]; destruct e; tauto end.
        -- match goal with G : joiner _ _ = _ |- _ => cbn in G; now subst end.
Qed.

(** ** Truth *)

Definition unnamed (l : list key) : Prop := forall k a, List.In k l -> ~ A k a.

Lemma no_chain_pattern : forall k o cs n h, ~ agrees_chain E A n h (ECompound k o cs).
Proof. intros k o cs n h H. inversion H; subst. match goal with G : agrees_node _ _ _ _ |- _ => inversion G end. Qed.
Lemma no_not_pattern : forall k l o r n h, ~ agrees_chain E A n h (EComparison k l o r).
Proof. intros k l o r n h H. inversion H; subst. match goal with G : agrees_node _ _ _ _ |- _ => inversion G end. Qed.
Lemma no_nested_pattern : forall k e n h, ~ agrees_chain E A n h (ENested k e).
Proof. intros k e n h H. inversion H; subst. match goal with G : agrees_node _ _ _ _ |- _ => inversion G end. Qed.

Lemma nested_agrees : forall k e t, unaliased A k -> agrees t (ENested k e) -> agrees t e.
Proof.
  intros k e t U H. inversion H; subst; [| |exfalso; eapply no_nested_pattern; eassumption]; [|assumption].
  match goal with Q : key_of _ = Some _ |- _ => cbn in Q; injection Q as <- end. exfalso. eapply U. eassumption.
Qed.
Lemma not_agrees : forall k e t, unaliased A k -> agrees t (EComparison k None Not (Some e)) -> exists u, t = XNot u /\ agrees u e.
Proof.
  intros k e t U H. inversion H; subst; [| |exfalso; eapply no_not_pattern; eassumption]; [|eauto].
  match goal with Q : key_of _ = Some _ |- _ => cbn in Q; injection Q as <- end. exfalso. eapply U. eassumption.
Qed.
Lemma compound_agrees : forall k o cs t, unaliased A k -> agrees t (ECompound k (op_of o) cs) ->
  exists c cs' u us, cs = c :: cs' /\ agrees u c /\ Forall2 agrees us cs' /\ t = fold_left (XBin (connective_of o)) us u.
Proof.
  intros k o cs t U H. inversion H; subst.
  - match goal with Q : key_of _ = Some _ |- _ => destruct cs as [|? [|? ?]]; cbn in Q; try discriminate Q; injection Q as <- end. exfalso. eapply U. eassumption.
  - do 4 eexists. split; [reflexivity|]. split; [eassumption|]. split; [constructor|reflexivity].
  - match goal with B : binop_of _ = Some _ |- _ => rewrite (proj1 (connective_op o)) in B; injection B as <- end. do 4 eexists. split; [reflexivity|]. split; [eassumption|]. split; [eassumption|reflexivity].
  - exfalso. eapply no_chain_pattern; eassumption.
Qed.
Lemma truth_bin : forall vl o a b, truth vl (XBin (connective_of o) a b) = connect (conn_of o) (truth vl a) (truth vl b).
Proof. now destruct o. Qed.

Lemma condition_truth : forall rho vl x, sound rho x -> uniform x -> unnamed (condition_keys (cond_expr x)) ->
  over_atoms (fun e => forall u, agrees u e -> truth vl u = rho e) x ->
  forall t, agrees t (cond_expr x) -> val rho x = Some (truth vl t).
Proof.
  intros rho vl x. induction x as [|e|k kn c IH|e| |k o cs m IH|e cs IH] using cnd_ind'; intros S U N O t H; try (now inversion S).
  - cbn [val]. f_equal. symmetry. now apply O.
  - inversion S as [|? ? ? Sc Vc| |]; subst. cbn [cond_expr condition_keys] in *.
    destruct (not_agrees k (ENested kn (cond_expr c)) t) as (u & -> & Hu); [intros a; apply N; now left|exact H|].
    apply nested_agrees in Hu; [|intros a; apply N; right; now left].
    cbn [val truth]. rewrite (IH Sc U) with (t := u); auto. intros j a J. apply N. right. now right.
  - cbn [cond_expr] in H. destruct (compound_agrees "" BAnd [] t) as (? & ? & ? & ? & Q & _); [|exact H|discriminate Q]. intros a. apply N. now left.
  - inversion S as [| | |? ? ? ? P]; subst. apply uniform_Comp in U as [U F]. apply over_atoms_Comp in O. cbn [cond_expr condition_keys] in *.
    destruct (compound_agrees k o (map cond_expr cs) t) as (c' & cs' & u & us & Q & Hu & Hus & ->); [intros a; apply N; now left|exact H|].
    destruct cs as [|c cs]; [discriminate Q|]. cbn [map] in Q. injection Q as <- <-.
    inversion IH as [|? ? IH1 IH2]; inversion P as [|? ? [P1 _] P2]; inversion U as [|? ? U1 U2]; inversion O as [|? ? O1 O2]; subst. cbn [tl] in F.
    assert (N1 : unnamed (condition_keys (cond_expr c))) by (intros j a J; apply N; right; cbn [map flat_map]; apply in_or_app; now left).
    assert (N2 : unnamed (flat_map condition_keys (map cond_expr cs))) by (intros j a J; apply N; right; cbn [map flat_map]; apply in_or_app; now right).
    rewrite val_Comp. unfold CondProofs.run. cbn [fold_left]. assert (X : CondProofs.step rho o None c = Some (truth vl u)) by (unfold CondProofs.step; rewrite (IH1 P1 U1 N1 O1 u Hu); reflexivity). rewrite X. clear X.
    clear - IH2 P2 U2 O2 N2 F Hus. revert us Hus u. induction cs as [|d cs IHd]; intros us Hus u0; cbn [map] in Hus; inversion Hus as [|x ? xs ? Hx Hxs]; subst; cbn [fold_left]; [reflexivity|].
    inversion IH2; inversion P2 as [|? ? [Pd _] P2']; inversion U2; inversion O2; inversion F as [|? ? Fd F']; subst.
    assert (Nd : unnamed (condition_keys (cond_expr d))) by (intros j a J; apply N2; cbn [map flat_map]; apply in_or_app; now left).
    assert (N2' : unnamed (flat_map condition_keys (map cond_expr cs))) by (intros j a J; apply N2; cbn [map flat_map]; apply in_or_app; now right).
    assert (X : CondProofs.step rho o (Some (truth vl u0)) d = Some (truth vl (XBin (connective_of o) u0 x))).
    { unfold CondProofs.step. rewrite Fd. match goal with G : sound rho d -> _ |- _ => rewrite (G Pd) with (t := x) by assumption end. cbn [connect_some]. now rewrite truth_bin. }
    rewrite X. apply IHd; auto.
Qed.

(** ** The conditions of a phrase *)

Lemma chained_makes : forall x l z, chained x l z -> forall c cs, makes c x -> Forall2 (fun d y => fst d = fst y /\ makes (snd d) (snd y)) cs l ->
  makes (chain_of c cs) z.
Proof.
  induction 1 as [x|ks o x y z l Hz z' H IH]; intros c cs M F; inversion F as [|[o' d] ? cs' ? [Q My] F']; subst; [exact M|]. cbn in Q, My. subst o'.
  unfold chain_of. cbn [fold_left fst snd]. apply IH; [|assumption]. exact (m_method ks o c d x y z M My Hz).
Qed.

Lemma no_condition_val : forall rho z, sound rho z -> no_condition z <-> val rho z = None.
Proof.
  intros rho z S. split.
  - intros [->|(k & o & n & ->)]; reflexivity.
  - intros V. destruct z; try (now inversion S); try discriminate V.
    + inversion S as [|? ? ? _ [v Vc]| |]; subst. cbn in V. rewrite Vc in V. discriminate V.
    + now left.
    + right. rewrite (val_comp_nil rho _ _ _ _ S V). eauto.
Qed.

Lemma made_readable : forall c cc, made c cc -> proper cc = true -> unmixed cc = true -> Forall basic (operands cc) -> readable_conditions E A c.
Proof.
  intros [[x l]|] cc M P U O; cbn [made readable_conditions] in *; [|exact Logic.I].
  destruct M as (c0 & cs & M0 & Ms & ->). intros z Hz N. pose proof (chained_makes _ _ _ Hz _ _ M0 Ms) as M.
  destruct (makes_val (fun _ => None) _ _ M P) as [S V]. destruct (makes_uniform _ _ M P U) as [Un _].
  apply (condition_readable (fun _ => None)); auto; [|now apply makes_over with (chain_of c0 cs)].
  destruct (val (fun _ => None) z) eqn:W; [eauto|]. apply (no_condition_val _ _ S) in W. contradiction.
Qed.

Lemma where_means : forall c cc w t, made c cc -> proper cc = true -> unmixed cc = true -> says_where c w -> agrees_where E A t w ->
  unnamed (match w with Some (EWhere _ e) => condition_keys e | _ => [] end) -> means E A cc t.
Proof.
  intros [[x l]|] cc w t M P U W G N vl rho H; cbn [made says_where] in *; [|subst; inversion G; subst; reflexivity].
  destruct M as (c0 & cs & M0 & Ms & ->). destruct W as (z & Hz & W). pose proof (chained_makes _ _ _ Hz _ _ M0 Ms) as M.
  destruct (makes_val rho _ _ M P) as [S V]. destruct (makes_uniform _ _ M P U) as [Un _]. rewrite <- V.
  destruct W as [[Nc ->]|[Nc (k & ->)]]; inversion G; subst; cbn [option_map].
  - symmetry. now apply no_condition_val.
  - symmetry. apply condition_truth; auto. apply makes_over with (chain_of c0 cs); auto. apply Forall_forall. intros e I u. now apply H.
Qed.

Lemma clause_means : forall ph q c cc, SpecBuilder.says ph q -> agrees_c E A c q -> unnamed (where_keys q) ->
  made (phrase_conditions ph) cc -> proper cc = true -> unmixed cc = true -> means E A cc (where_read c).
Proof.
  intros ph q c cc S G N M P U.
  destruct ph; destruct q; cbn [SpecBuilder.says] in S; try contradiction; inversion G; subst; cbn [phrase_conditions where_read where_keys] in *;
    try (cbn [made] in M; subst cc; intros vl rho H; reflexivity).
  - destruct S as (_ & _ & W). eapply where_means; eassumption.
  - destruct S as (_ & _ & _ & _ & W). eapply where_means; eassumption.
  - destruct S as (_ & _ & W). eapply where_means; eassumption.
Qed.

Lemma clauses_mean : forall ph qs l, Forall2 SpecBuilder.says ph qs -> Forall2 (agrees_c E A) l qs -> unnamed (flat_map where_keys qs) ->
  Forall2 (fun p c => forall cc, made (phrase_conditions p) cc -> proper cc = true -> unmixed cc = true -> means E A cc (where_read c)) ph l.
Proof.
  intros ph qs l S. revert l. induction S as [|p q ph qs Sp S IH]; intros l G N; inversion G; subst; constructor.
  - intros cc. apply clause_means with q; auto. intros k a I. apply N. cbn [flat_map]. apply in_or_app. now left.
  - apply IH; auto. intros k a I. apply N. cbn [flat_map]. apply in_or_app. now right.
Qed.

End Truth.
