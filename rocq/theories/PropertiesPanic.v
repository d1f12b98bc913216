(** C73: chains of builder calls do not panic. *)

From Coq Require Import String List ZArith Bool.
From Verif Require Import VTree Ast GoVal SpecCond Cond Queries Builder SpecBuilder SpecErrors SpecPanic BuilderProofs BuilderErrors PropertiesBuilder.
From Verif Require Exprs Functions Asking.
Import ListNotations.
Open Scope string_scope.
Open Scope list_scope.

(** ** Builders without error *)
Definition call_calm (p : call_builder) : Prop :=
  p_standalone p = true -> match p_args p with Some l => first_error l = None | None => True end.
Definition calm (d : dbuilder) : Prop :=
  d_err d = None /\ match d_call d with Some p => call_calm p | None => True end.

Lemma calm_build : forall ks p, call_calm p -> exists c, build_call ks p = inl c.
Proof.
  intros ks p H. unfold build_call. destruct (p_args p) as [[|g l]|] eqn:A.
  1,3: destruct (where_broken _); now eexists.
  destruct (p_standalone p) eqn:S.
  - unfold call_calm in H. rewrite S, A in H. rewrite (H eq_refl). destruct (where_broken _); now eexists.
  - destruct (first_error (g :: l)); [now eexists|]. destruct (where_broken _); now eexists.
Qed.
Lemma calm_close_match : forall ks d, calm d -> calm (close_match ks d).
Proof. intros ks d H. unfold close_match. destruct (m_not_nil (d_match d)); exact H. Qed.
Lemma calm_close_call : forall ks d, calm d -> calm (close_call ks d).
Proof.
  intros ks d [H1 H2]. unfold close_call. destruct (d_call d) as [p|] eqn:C; [|now split; [|rewrite C]].
  destruct (calm_build ks p H2) as [c ->]. now split.
Qed.
Lemma calm_close_update : forall ks d, calm d -> calm (close_update ks d).
Proof. intros ks d H. unfold close_update. destruct (d_update d); exact H. Qed.
Lemma calm_update_with : forall ks d t l, calm d -> calm (d_update_with ks d t l).
Proof. intros ks d t l H. unfold d_update_with. exact (calm_close_update _ _ (calm_close_call _ _ (calm_close_match _ _ H))). Qed.
Lemma calm_updating : forall ks d c, calm d -> calm (add_updating_clause ks d c).
Proof. intros ks d c H. unfold add_updating_clause. exact (calm_close_match ks d H). Qed.
Lemma calm_add_with : forall ks d w, calm d -> calm (add_with ks d w).
Proof.
  intros ks d w H. pose proof H as [H1 H2]. unfold add_with. rewrite H1. destruct w as [w|]; [|exact H]. unfold build_list.
  destruct (d_call d) as [p|]; [destruct (calm_build (block ks 2) p H2) as [c ->]|]; now split.
Qed.

(** ** Conditions that can be extended *)
Definition extendable (c : cnd) : Prop := match c with Nil | Bad _ => False | _ => True end.
Lemma extended : forall ks o c x, extendable c -> exists z, builder_add ks o c x = Val z /\ extendable z.
Proof.
  intros ks o c x H.
  assert (X : forall l, extendable (create ks l o x)). { intros l. unfold create. destruct (get_error l), (get_error x); try exact Logic.I. destruct l, x; exact Logic.I. }
  unfold builder_add, condition_chain, container_chain.
  destruct c; try contradiction; cbn [embedded]; eexists; (split; [reflexivity|]); try apply X; unfold add; try exact Logic.I;
    destruct (add_conditions _ _ _ _ _); try exact Logic.I; apply X.
Qed.
Lemma given_extendable : forall x, x <> Nil -> get_error x = None -> extendable x.
Proof. intros x N G. destruct x; try exact Logic.I; [now apply N|discriminate]. Qed.

(** ** What a chain of harmless calls leaves *)
Definition ends_with (ph : list phrase) (P : phrase -> Prop) : Prop := exists l p, ph = l ++ [p] /\ P p.

Definition is_with_phrase (p : phrase) : Prop := match p with PWith _ _ _ _ => True | _ => False end.

(** What the builder knows about the clause being written. *)
Definition d_fits (d : dbuilder) (p : phrase) : Prop :=
  match p with
  | PMatch _ _ (Some _) => extendable (m_cond (d_match d))
  | PMerge (_ :: _) _ => exists g a, d_update d = Some (UMerge g a)
  | PWith _ _ _ _ => False
  | _ => True
  end.

Definition fits (ph : list phrase) (s : state) : Prop :=
  match s with
  | D d => calm d /\ ends_with ph (d_fits d)
  | W w => (exists d, w_default w = Some d /\ calm d)
      /\ ends_with ph (fun p => match p with PWith _ _ _ (Some _) => extendable (w_cond w) | PWith _ _ _ None => True | _ => False end)
  | U u => u_err u = None /\ exists d b, u_default u = Some d /\ calm d /\ u_update u = Some b
  | R r => r_err r = None /\ exists d, r_default r = Some d /\ calm d
  | I (inl d) p => calm d /\ call_calm p /\ p_standalone p = false /\ ends_with ph (fun p => match p with PCall _ _ _ _ => True | _ => False end)
  | I (inr _) _ => False
  | S p => call_calm p /\ ends_with ph (fun p => match p with PCall _ _ _ _ => True | _ => False end)
  end.

Lemma write_start : forall ph c p, starts c = Some p -> write_call ph c = ph ++ [p].
Proof. intros ph c p H. unfold write_call. now rewrite H. Qed.
Lemma write_complete : forall ph c l p, starts c = None -> ph = l ++ [p] -> write_call ph c = l ++ [completed p c].
Proof. intros ph c l p H ->. unfold write_call, complete_last. rewrite H, rev_unit, rev_involutive. reflexivity. Qed.

(** The call is harmless after these phrases. *)
Definition harmless_after (ph : list phrase) (c : call) : Prop :=
  faulty c = false
  /\ match c with
     | Where x => x <> Nil
     | AndC _ | OrC _ => match rev ph with (PMatch _ _ (Some _) | PWith _ _ _ (Some _)) :: _ => True | _ => False end
     | OnAction _ _ => match rev ph with PMerge (_ :: _) _ :: _ => True | _ => False end
     | Proc parts => parts <> []
     | Sub s => exists q, s = StOk q /\ returns_something q = true
     | _ => True
     end.
Lemma harmless_phrases : forall p c, harmless p c -> harmless_after (written p) c.
Proof.
  intros p c [F H]. split; [exact F|]. unfold continues_where, continues_merge, open_clause in H.
  destruct c; try exact H; (destruct (rev (written p)) as [|[] ?]; try contradiction; exact H).
Qed.

Lemma first_ok : forall l, negb (no_error l) = false -> first_error l = None.
Proof. intros l H. apply no_error_first. now apply negb_false_iff. Qed.

(** SET and REMOVE on a builder without error. *)
Lemma u_created : forall ks d t l, calm d -> first_error l = None ->
  (t = TSet /\ odd_set l = false) \/ t = TRemove ->
  exists b, u_create ks d t l = UB None (Some d) (Some b) [] false no_order.
Proof.
  intros ks d t l [H _] F T. unfold u_create. rewrite H, F. destruct T as [[-> O]| ->]; cbn [updating_clause_builder].
  - unfold prepare_set. change (Nat.odd _) with (odd_set l). rewrite O. now eexists.
  - now eexists.
Qed.

Ltac newest := eexists _, _; split; [reflexivity|]; cbn.

Lemma d_step_fits : forall ks d c ph, calm d -> harmless_after ph c ->
  (starts c = None -> ends_with ph (d_fits d)) ->
  match d_step ks d c with
  | Some (Returns s) => fits (write_call ph c) s
  | Some Panics => False
  | _ => True
  end.
Proof.
  intros ks d c ph C [F H] E. pose proof C as [N _]. unfold d_step. rewrite N.
  destruct c; try exact Logic.I; cbn [faulty] in F.
  - (* Match *) rewrite (first_ok _ F). cbn [fits]. rewrite (write_start _ _ (PMatch optional (the_exprs patterns) None)) by reflexivity.
    split; [exact (calm_close_call _ _ (calm_close_match _ _ C))|]. newest. exact Logic.I.
  - (* Where *) destruct (get_error c) eqn:G; [discriminate|]. cbn [fits]. destruct (E eq_refl) as (l & p & -> & P).
    rewrite (write_complete _ (Where c) l p) by reflexivity. split; [exact C|]. newest. pose proof (given_extendable c H G).
    destruct p; cbn in *; try contradiction; auto.
  - (* And *) destruct (E eq_refl) as (l & p & -> & P). rewrite rev_unit in H. destruct p as [o ps [cs|]| | | | | | | | |? ? ? [cs|]|]; cbn in P; try contradiction.
    destruct (extended ks BAnd _ c P) as (z & -> & Z). cbn [fits]. rewrite (write_complete _ (AndC c) l _) by reflexivity. split; [exact C|]. newest. destruct cs. exact Z.
  - (* Or *) destruct (get_error c) eqn:G; [discriminate|]. destruct (E eq_refl) as (l & p & -> & P). rewrite rev_unit in H. destruct p as [o ps [cs|]| | | | | | | | |? ? ? [cs|]|]; cbn in P; try contradiction.
    destruct (extended ks BOr _ c P) as (z & -> & Z). cbn [fits]. rewrite (write_complete _ (OrC c) l _) by reflexivity. split; [exact C|]. newest. destruct cs. exact Z.
  - (* With *) rewrite (first_ok _ F). cbn [fits w_default]. rewrite (write_start _ _ (PWith distinct (the_exprs items) unsorted None)) by reflexivity. split; [now exists d|]. newest. exact Logic.I.
  - (* Returning *) rewrite (first_ok _ F). cbn. split; [reflexivity|]. now exists d.
  - (* Delete *) rewrite (first_ok _ F). cbn [fits]. rewrite (write_start _ _ (PDelete detach (the_exprs items))) by reflexivity. split; [now apply calm_update_with|]. newest. exact Logic.I.
  - (* Create *) rewrite (first_ok _ F). cbn [fits]. rewrite (write_start _ _ (PCreate (the_exprs patterns))) by reflexivity. split; [now apply calm_update_with|]. newest. exact Logic.I.
  - (* Merge *) rewrite (first_ok _ F). cbn [fits]. rewrite (write_start _ _ (PMerge (the_exprs patterns) [])) by reflexivity. split; [now apply calm_update_with|]. newest.
    destruct patterns as [|g l]; [exact Logic.I|]. destruct (the_exprs (g :: l)); [exact Logic.I|]. now eexists _, _.
  - (* OnAction *) destruct (E eq_refl) as (l & p & -> & P). rewrite rev_unit in H. destruct p as [| |[|e ps] actions| | | | | | | |]; try contradiction.
    cbn [d_fits] in P. destruct P as (g & a & ->). apply orb_false_iff in F as [F1 F2]. rewrite (first_ok _ F1).
    unfold merge_action, prepare_set. change (Nat.odd _) with (odd_set items).
    rewrite F2. cbn [fits]. rewrite (write_complete _ (OnAction on_create items) l _) by reflexivity. split; [split; [reflexivity|exact (proj2 C)]|]. newest. now eexists _, _.
  - (* SetItems *) apply orb_false_iff in F as [F1 F2]. rewrite (first_ok _ F1).
    destruct (u_created (block ks 1) (close_update (block ks 0) d) TSet items (calm_close_update _ _ C) (first_ok _ F1) (or_introl (conj eq_refl F2))) as [b ->].
    cbn. split; [reflexivity|]. eexists _, _. split; [reflexivity|]. split; [now apply calm_close_update|reflexivity].
  - (* SetLabels *) apply orb_false_iff in F as [F1 F2]. destruct labels as [|x ls]; [discriminate|].
    destruct node; try discriminate; cbn [label_operation];
    (match goal with |- context [u_create ?k d TSet [?g]] => destruct (u_created k d TSet [g] C eq_refl (or_introl (conj eq_refl eq_refl))) as [b ->] end; cbn; split; [reflexivity|]; now exists d, b).
  - (* RemoveLabels *) apply orb_false_iff in F as [F1 F2]. destruct labels as [|x ls]; [discriminate|].
    destruct node; try discriminate; cbn [label_operation];
    (match goal with |- context [u_create ?k d TRemove [?g]] => destruct (u_created k d TRemove [g] C eq_refl (or_intror eq_refl)) as [b ->] end; cbn; split; [reflexivity|]; now exists d, b).
  - (* RemoveItems *) rewrite (first_ok _ F). destruct (u_created ks d TRemove properties C (first_ok _ F) (or_intror eq_refl)) as [b ->]. cbn. split; [reflexivity|]. now exists d, b.
  - (* Unwind *) destruct e as [e|t m]; [|discriminate]. cbn [fits]. rewrite (write_start _ _ (PUnwind e variable)) by reflexivity. split; [exact (calm_close_match _ _ C)|]. newest. exact Logic.I.
  - (* Sub *) destruct H as (q & -> & Rq). cbn [statement_error]. unfold subquery_call. change (returns_elements q) with (returns_something q). rewrite Rq. cbn [fits].
    rewrite (write_start _ _ (PSubquery q)) by reflexivity. split; [exact (calm_close_update _ _ (calm_close_match _ _ (calm_close_call _ _ C)))|]. newest. exact Logic.I.
  - (* Proc *) destruct (procedure_name (ks 2) name) as [n| |] eqn:Pn; [|destruct name as [|? [|]]; [now apply H|discriminate|discriminate]|destruct name as [|? [|]]; discriminate].
    cbn [fits]. rewrite (write_start _ _ (PCall name [] [] None)) by reflexivity.
    split; [|split; [|split; [reflexivity|newest; exact Logic.I]]]; [|intros ?; discriminate].
    destruct (calm_close_call (block ks 1) _ (calm_close_match (block ks 0) _ C)) as [C1 C2]. split; [exact C1|cbn; intros ?; discriminate].
Qed.

Lemma order_starts : forall ks o c o', order_step ks o c = Some o' -> starts c = None.
Proof. intros ks o c o' H. destruct c; try discriminate; reflexivity. Qed.

Lemma w_step_fits : forall ks w c ph, fits ph (W w) -> harmless_after ph c ->
  match w_step ks w c with Some (Returns s) => fits (write_call ph c) s | Some Panics => False | _ => True end.
Proof.
  intros ks w c ph [(d & Dw & C) (l & p & -> & P)] H. unfold w_step.
  destruct (order_step ks (w_order w) c) as [o|] eqn:O.
  - cbn [fits w_default w_cond]. split; [now exists d|]. rewrite (write_complete _ c l p) by (eauto using order_starts). newest.
    destruct p; try contradiction. destruct c; try discriminate; cbn; exact P.
  - destruct c; try exact Logic.I; try discriminate O.
    all: try (rewrite Dw; apply d_step_fits; [now apply calm_add_with|exact H|intros X; try discriminate X]).
    + cbn [fits w_default w_cond]. split; [now exists d|]. rewrite (write_complete _ (Where c) l p) by reflexivity. newest.
      destruct H as [F H]. cbn [faulty] in F. destruct (get_error c) eqn:G; [discriminate|]. destruct p; try contradiction. cbn. now apply given_extendable.
    + destruct H as [F H]. rewrite rev_unit in H. destruct p as [| | | | | | | | |? ? ? [cs|]|]; try contradiction. destruct (extended ks BAnd _ c P) as (z & -> & Z).
      cbn [fits w_default w_cond]. split; [now exists d|]. rewrite (write_complete _ (AndC c) l _) by reflexivity. newest. destruct cs. exact Z.
    + destruct H as [F H]. rewrite rev_unit in H. destruct p as [| | | | | | | | |? ? ? [cs|]|]; try contradiction. destruct (extended ks BOr _ c P) as (z & -> & Z).
      cbn [fits w_default w_cond]. split; [now exists d|]. rewrite (write_complete _ (OrC c) l _) by reflexivity. newest. destruct cs. exact Z.
    + destruct H as [F _]. destruct e; discriminate.
    + destruct H as [_ (q & -> & _)]. discriminate.
Qed.

Lemma u_step_fits : forall ks u c ph, fits ph (U u) -> harmless_after ph c ->
  match u_step ks u c with Some (Returns s) => fits (write_call ph c) s | Some Panics => False | _ => True end.
Proof.
  intros ks u c ph (N & d & b & Du & C & Bu) H. unfold u_step.
  destruct (order_step ks (u_order u) c) as [o|] eqn:O; [split; [exact N|now exists d, b]|].
  destruct c; try exact Logic.I.
  - rewrite Du, Bu. apply d_step_fits; [now apply calm_updating|exact H|discriminate].
  - destruct distinct; (split; [exact N|now exists d, b]).
  - rewrite Du, Bu. cbn [fits]. rewrite (write_start _ _ (PDelete detach (the_exprs items))) by reflexivity. split; [now apply calm_update_with, calm_updating|]. newest. exact Logic.I.
  - rewrite Du, Bu. apply d_step_fits; [now apply calm_updating|exact H|discriminate].
  - rewrite Du, Bu. apply d_step_fits; [now apply calm_updating|exact H|discriminate].
  - rewrite Du, Bu. destruct H as [F _]. cbn [faulty] in F. apply orb_false_iff in F as [F1 F2].
    match goal with |- context [u_create ?k ?d' TSet items] => destruct (u_created k d' TSet items (calm_updating _ _ _ C) (first_ok _ F1) (or_introl (conj eq_refl F2))) as [b' ->] end.
    split; [reflexivity|]. eexists _, _. split; [reflexivity|]. split; [now apply calm_updating|reflexivity].
  - rewrite Du, Bu. destruct H as [F _]. cbn [faulty] in F. apply orb_false_iff in F as [F1 F2]. destruct labels as [|x ls]; [discriminate|].
    destruct node; try discriminate; cbn [label_operation];
    (match goal with |- context [u_create ?k ?d' TSet [?g]] => destruct (u_created k d' TSet [g] (calm_updating _ _ _ C) eq_refl (or_introl (conj eq_refl eq_refl))) as [b' ->] end;
     split; [reflexivity|]; eexists _, _; split; [reflexivity|]; split; [now apply calm_updating|reflexivity]).
  - rewrite Du, Bu. destruct H as [F _]. cbn [faulty] in F. apply orb_false_iff in F as [F1 F2]. destruct labels as [|x ls]; [discriminate|].
    destruct node; try discriminate; cbn [label_operation];
    (match goal with |- context [u_create ?k ?d' TRemove [?g]] => destruct (u_created k d' TRemove [g] (calm_updating _ _ _ C) eq_refl (or_intror eq_refl)) as [b' ->] end;
     split; [reflexivity|]; eexists _, _; split; [reflexivity|]; split; [now apply calm_updating|reflexivity]).
  - rewrite Du, Bu. destruct H as [F _]. cbn [faulty] in F.
    match goal with |- context [u_create ?k ?d' TRemove properties] => destruct (u_created k d' TRemove properties (calm_updating _ _ _ C) (first_ok _ F) (or_intror eq_refl)) as [b' ->] end.
    split; [reflexivity|]. eexists _, _. split; [reflexivity|]. split; [now apply calm_updating|reflexivity].
Qed.

Lemma call_step_fits : forall ks p target again c ph, call_calm p ->
  ends_with ph (fun p => match p with PCall _ _ _ _ => True | _ => False end) -> harmless_after ph c ->
  (forall p', call_calm p' -> p_standalone p' = p_standalone p -> exists d, target p' = Some d /\ calm d) ->
  (forall p' ph', call_calm p' -> p_standalone p' = p_standalone p -> ends_with ph' (fun p => match p with PCall _ _ _ _ => True | _ => False end) -> fits ph' (again p')) ->
  match call_step ks p target again c with Some (Returns s) => fits (write_call ph c) s | Some Panics => False | _ => True end.
Proof.
  intros ks p target again c ph Cp (l & q & -> & Q) H T A. unfold call_step.
  destruct c; try exact Logic.I.
  - destruct (T (CallB (p_standalone p) (p_name p) (p_args p) (p_yield p) c) Cp eq_refl) as (d & -> & C). cbn [fits]. rewrite (write_complete _ (Where c) l q) by reflexivity.
    split; [exact C|]. newest. destruct q; try contradiction. exact Logic.I.
  - destruct (T p Cp eq_refl) as (d & -> & C). apply d_step_fits; [exact C|exact H|discriminate].
  - destruct (T p Cp eq_refl) as (d & -> & C). apply d_step_fits; [exact C|exact H|discriminate].
  - destruct (T p Cp eq_refl) as (d & -> & C). apply d_step_fits; [exact C|exact H|]. destruct H as [_ (q' & -> & _)]. discriminate.
  - rewrite (write_complete _ (Args l0) l q) by reflexivity. apply A; [|reflexivity|newest; destruct q; try contradiction; now destruct l0].
    intros S. cbn. destruct l0 as [a|]; [|exact Logic.I]. destruct H as [F _]. now apply first_ok.
  - rewrite (write_complete _ (Yield l0) l q) by reflexivity. apply A; [exact Cp|reflexivity|newest; now destruct q].
Qed.

Lemma step_fits : forall ks s c ph, fits ph s -> harmless_after ph c ->
  match step ks s c with Some (Returns s') => fits (write_call ph c) s' | Some Panics => False | _ => True end.
Proof.
  intros ks s c ph P H. destruct s as [d|u|w|r|[d|m] p|p]; cbn [step].
  - destruct P as [C E]. now apply d_step_fits.
  - now apply u_step_fits.
  - now apply w_step_fits.
  - unfold r_step. destruct P as (N & d & Dr & C). destruct (order_step ks (r_order r) c); [|exact Logic.I]. split; [exact N|now exists d].
  - destruct P as (C & Cp & St & E). apply call_step_fits; try assumption.
    + intros p' H1 H2. eexists. split; [reflexivity|]. split; [exact (proj1 C)|exact H1].
    + intros p' ph' H1 H2 H3. split; [exact C|]. split; [exact H1|]. split; [congruence|exact H3].
  - destruct P.
  - destruct P as (Cp & E). apply call_step_fits; try assumption.
    + intros p' H1 H2. eexists. split; [reflexivity|]. now split.
    + intros p' ph' H1 H2 H3. now split.
Qed.

Lemma start_fits : forall ks c, harmless_after [] c ->
  match start ks c with Some (Returns s) => fits (write_call [] c) s | Some Panics => False | _ => True end.
Proof.
  assert (Cn : calm d_new) by now split.
  intros ks c H. unfold start. destruct c; try exact Logic.I.
  all: try (apply d_step_fits; [exact Cn|exact H|discriminate]).
  - apply d_step_fits; [exact Cn|exact H|]. destruct H as [F _]. destruct e; discriminate.
  - apply d_step_fits; [exact Cn|exact H|]. destruct H as [_ (q & -> & _)]. discriminate.
  - destruct H as [_ H]. destruct (procedure_name (ks 0) name) as [n| |] eqn:Pn; [|destruct name as [|? [|]]; [now apply H|discriminate|discriminate]|exact Logic.I].
    rewrite (write_start _ _ (PCall name [] [] None)) by reflexivity. split; [now intros ?|]. now exists [], (PCall name [] [] None).
Qed.

Lemma written_snoc : forall p c, written (p ++ [c]) = write_call (written p) c.
Proof. intros p c. unfold written. now rewrite fold_left_app. Qed.

Lemma run_fits : forall K p s done, fits (written done) s -> all_harmless (done ++ p) ->
  match run K s p with Some (Returns s') => fits (written (done ++ p)) s' | Some Panics => False | _ => True end.
Proof.
  intros K p. induction p as [|c p IH]; intros s done P A; cbn [run]; [now rewrite app_nil_r|].
  pose proof (step_fits (K (length p)) s c (written done) P (harmless_phrases _ _ (A done c p eq_refl))) as X.
  destruct (step (K (length p)) s c) as [[s'| |]|]; try exact X. specialize (IH s' (done ++ [c])). rewrite written_snoc, <- app_assoc in IH. now apply IH.
Qed.

Lemma built_no_panic : forall o, o <> Panics -> built_of o <> Panics.
Proof. intros [s| |] H; try discriminate. now destruct H. Qed.
Lemma multi_no_panic : forall ps s, multi_part_query_create ps s <> Panics.
Proof. intros ps s. unfold multi_part_query_create, multi_part_query_error. repeat match goal with |- context [match ?x with _ => _ end] => destruct x end; discriminate. Qed.
Lemma build_no_panic : forall ks ph s, fits ph s -> build ks s <> Some Panics.
Proof.
  assert (X : forall ks d r, Some (built_of (build_impl ks d r)) <> Some Panics).
  { intros ks d r H. injection H as H. apply (built_no_panic (build_impl ks d r)) in H; [exact H|]. unfold build_impl. destruct (d_parts d); [discriminate|apply multi_no_panic]. }
  intros ks ph s P. destruct s as [d|u|w|r|d p|p]; cbn [build]; try discriminate.
  - destruct P as [[N _] _]. rewrite N. apply X.
  - destruct P as (N & d & b & Du & _ & Bu). rewrite N, Du, Bu. apply X.
  - destruct P as (N & d & Dr & _). rewrite N, Dr. apply X.
Qed.

(** ** C73 *)

(** A chain of harmless calls does not panic, and neither does Build after it. *)
Theorem C73_harmless_chains_do_not_panic_partial : forall K ks p, all_harmless p ->
  run_start K p <> Some Panics /\ build_program K ks p <> Some Panics.
Proof.
  intros K ks p A.
  assert (X : match run_start K p with Some (Returns s) => fits (written p) s | Some Panics => False | _ => True end).
  { unfold run_start. destruct p as [|c p]; [exact Logic.I|].
    pose proof (start_fits (K (length p)) c (harmless_phrases [] c (A [] c p eq_refl))) as X.
    destruct (start (K (length p)) c) as [[s| |]|]; try exact X. exact (run_fits K p s [c] X A). }
  unfold build_program. destruct (run_start K p) as [[s| |]|]; split; try discriminate; try contradiction. now apply build_no_panic with (written p).
Qed.
Print Assumptions C73_harmless_chains_do_not_panic_partial.

(** The first call that is not harmless panics only if it is an UNWIND of an error,
    a procedure without name, or an And or Or without a condition to continue:
    all other mistakes are kept for Build unless further calls are made. *)
Definition solid (s : state) : Prop :=
  match s with
  | U u => u_err u <> None \/ (u_default u <> None /\ u_update u <> None)
  | R r => r_err r <> None \/ r_default r <> None
  | _ => True
  end.
Lemma u_create_solid : forall ks d t l, solid (U (u_create ks d t l)).
Proof.
  intros ks d t l. unfold u_create. destruct (d_err d); [left; discriminate|]. destruct (first_error l); [left; discriminate|].
  destruct (updating_clause_builder ks t l); [right; split; discriminate|left; discriminate].
Qed.
Ltac branches H := repeat match type of H with context [match ?x with _ => _ end] => destruct x; try discriminate H end.
Lemma d_step_solid : forall ks d c s, d_step ks d c = Some (Returns s) -> solid s.
Proof.
  intros ks d c s H. unfold d_step in H. destruct (d_err d).
  - destruct c; try discriminate H; injection H as <-; try exact Logic.I; left; discriminate.
  - destruct c; try discriminate H; branches H; injection H as <-; try exact Logic.I; try apply u_create_solid; try (left; discriminate); right; discriminate.
Qed.
Lemma step_solid : forall ks s c s', solid s -> step ks s c = Some (Returns s') -> solid s'.
Proof.
  intros ks s c s' P H. destruct s as [d|u|w|r|d p|p]; cbn [step] in H.
  - now apply d_step_solid in H.
  - unfold u_step in H. destruct (order_step ks (u_order u) c); [injection H as <-; exact P|].
    destruct c; try discriminate H; try (destruct distinct; injection H as <-; (destruct P as [P|P]; [now left|now right]));
      (destruct (u_default u), (u_update u); try discriminate H; try (now apply d_step_solid in H); try (injection H as <-; try exact P; try exact Logic.I; apply u_create_solid)).
  - unfold w_step in H. destruct (order_step ks (w_order w) c); [injection H as <-; exact Logic.I|].
    destruct c; try discriminate H; try (injection H as <-; exact Logic.I); try (destruct (w_default w); [now apply d_step_solid in H|discriminate H]);
      branches H; injection H as <-; exact Logic.I.
  - unfold r_step in H. destruct (order_step ks (r_order r) c); [|discriminate H]. injection H as <-. exact P.
  - unfold call_step in H. destruct c; try discriminate H; try (injection H as <-; exact Logic.I); (destruct d; [|discriminate H]); try (injection H as <-; exact Logic.I); now apply d_step_solid in H.
  - unfold call_step in H. destruct c; try discriminate H; try (injection H as <-; exact Logic.I); now apply d_step_solid in H.
Qed.
Lemma start_solid : forall ks c s, start ks c = Some (Returns s) -> solid s.
Proof.
  intros ks c s H. unfold start in H. destruct c; try discriminate H; try (now apply d_step_solid in H).
  destruct (procedure_name (ks 0) name); try discriminate H. injection H as <-. exact Logic.I.
Qed.
Lemma run_solid : forall K p s s', solid s -> run K s p = Some (Returns s') -> solid s'.
Proof.
  intros K p. induction p as [|c p IH]; intros s s' P H; cbn [run] in H; [now injection H as <-|].
  destruct (step (K (length p)) s c) as [[s1| |]|] eqn:E; try discriminate. apply IH with s1; [now apply step_solid in E|exact H].
Qed.
Lemma run_start_solid : forall K p s, run_start K p = Some (Returns s) -> solid s.
Proof.
  intros K p s H. destruct p as [|c p]; [discriminate|]. cbn [run_start] in H. destruct (start (K (length p)) c) as [[s1| |]|] eqn:E; try discriminate.
  apply run_solid with K p s1; [now apply start_solid in E|exact H].
Qed.
Lemma solid_build : forall ks s, solid s -> build ks s <> Some Panics.
Proof.
  assert (X : forall ks d r, Some (built_of (build_impl ks d r)) <> Some Panics).
  { intros ks d r H. injection H as H. apply (built_no_panic (build_impl ks d r)) in H; [exact H|]. unfold build_impl. destruct (d_parts d); [discriminate|apply multi_no_panic]. }
  intros ks s P. destruct s as [d|u|w|r|d p|p]; cbn [build solid] in *; try discriminate.
  - destruct (d_err d); [discriminate|apply X].
  - destruct (u_err u); [discriminate|]. destruct P as [P|[P1 P2]]; [now destruct P|]. destruct (u_default u); [|now destruct P1]. destruct (u_update u); [|now destruct P2]. apply X.
  - destruct (r_err r); [discriminate|]. destruct P as [P|P]; [now destruct P|]. destruct (r_default r); [|now destruct P]. apply X.
Qed.

(** Build itself never panics. *)
Theorem C73_build_does_not_panic : forall K ks p, build_program K ks p = Some Panics -> run_start K p = Some Panics.
Proof.
  intros K ks p H. unfold build_program in H. destruct (run_start K p) as [[s| |]|] eqn:R; try discriminate; [|reflexivity].
  apply solid_build in H; [contradiction|]. now apply run_start_solid in R.
Qed.
Print Assumptions C73_build_does_not_panic.

Lemma d_step_stops : forall ks d c, d_err d = None -> d_step ks d c = Some Panics -> stops c.
Proof.
  intros ks d c N H. unfold d_step in H. rewrite N in H. destruct c; try discriminate H; try exact Logic.I.
  all: try (branches H; fail).
  - destruct e; [discriminate H|exact Logic.I].
  - destruct name as [|? [|]]; [exact Logic.I|discriminate H|discriminate H].
Qed.
Lemma step_stops : forall ks ph s c, fits ph s -> step ks s c = Some Panics -> stops c.
Proof.
  intros ks ph s c P H. destruct s as [d|u|w|r|[d|m] p|p]; cbn [step] in H.
  - destruct P as [[N _] _]. now apply d_step_stops in H.
  - destruct P as (N & d & b & Du & [Nd Cd] & Bu). unfold u_step in H. destruct (order_step ks (u_order u) c); [discriminate|].
    destruct c; try discriminate H; try (now destruct distinct); rewrite Du, Bu in H; try discriminate H; (apply d_step_stops in H; [exact H|]); apply calm_updating; now split.
  - destruct P as [(d & Dw & C) _]. unfold w_step in H. destruct (order_step ks (w_order w) c); [discriminate|].
    destruct c; try discriminate H; try exact Logic.I; rewrite Dw in H; (apply d_step_stops in H; [exact H|]); now apply calm_add_with.
  - unfold r_step in H. destruct (order_step ks (r_order r) c); discriminate.
  - destruct P as (C & _). unfold call_step in H. destruct c; try discriminate H; (apply d_step_stops in H; [exact H|exact (proj1 C)]).
  - destruct P.
  - unfold call_step in H. destruct c; try discriminate H; (apply d_step_stops in H; [exact H|reflexivity]).
Qed.
Lemma run_snoc : forall K p s c, run K s (p ++ [c]) =
  match run (fun i => K (Datatypes.S i)) s p with Some (Returns s') => run K s' [c] | r => r end.
Proof.
  intros K p. induction p as [|a p IH]; intros s c; [reflexivity|]. cbn [app run]. rewrite app_length, PeanoNat.Nat.add_1_r.
  destruct (step (K (Datatypes.S (length p))) s a) as [[s'| |]|]; try reflexivity. apply IH.
Qed.

Theorem C73_first_mistake : forall K p c, all_harmless p -> run_start K (p ++ [c]) = Some Panics -> ~ harmless p c /\ stops c.
Proof.
  intros K p c A H. split.
  - intros Hc. assert (B : all_harmless (p ++ [c])).
    { intros p1 c1 p2 E. destruct (exists_last (l := c1 :: p2)) as (l & x & L); [discriminate|].
      assert (X : p ++ [c] = (p1 ++ l) ++ [x]) by (rewrite E, L; now rewrite app_assoc). apply app_inj_tail in X as [X1 X2]. subst x.
      destruct l as [|y l]; cbn in L; injection L as L1 L2.
      - subst c1. rewrite app_nil_r in X1. now subst p1.
      - subst y. now apply (A p1 c1 l). }
    exact (proj1 (C73_harmless_chains_do_not_panic_partial K (fun _ => "") _ B) H).
  - destruct p as [|a p].
    + cbn [app run_start] in H. destruct (start (K (length (@nil call))) c) as [[s| |]|] eqn:E; try discriminate H. unfold start in E.
      destruct c; try discriminate E; try (apply d_step_stops in E; [exact E|reflexivity]). now destruct name as [|? [|]].
    + cbn [app run_start] in H. rewrite app_length, PeanoNat.Nat.add_1_r in H.
      pose proof (start_fits (K (Datatypes.S (length p))) a (harmless_phrases [] a (A [] a p eq_refl))) as X.
      destruct (start (K (Datatypes.S (length p))) a) as [[s| |]|]; try discriminate H; [|contradiction]. rewrite run_snoc in H.
      pose proof (run_fits (fun i => K (Datatypes.S i)) p s [a] X A) as Y. destruct (run (fun i => K (Datatypes.S i)) s p) as [[s'| |]|]; try discriminate H; [|contradiction].
      cbn [run] in H. destruct (step (K (length (@nil call))) s' c) as [[s1| |]|] eqn:E; try discriminate H. now apply step_stops with (ph := written ([a] ++ p)) in E.
Qed.
Print Assumptions C73_first_mistake.

(** A chain with most kinds of calls is harmless. *)
Definition busy : list call :=
  [matched; Where (cond "a"); AndC (cond "b"); Unwind (GOk nn) "x"; With false [GOk nn]; Where (cond "c"); OrC (cond "d");
   Merge [GOk m_]; OnAction true a_is_1; SetItems a_is_1; Returning false [GOk nn]; Limit 3].
Lemma harmless_list : forall p, (forall n, n < length p -> match nth_error p n with Some c => harmless (firstn n p) c | None => True end) -> all_harmless p.
Proof.
  intros p H p1 c p2 E. assert (L : length p1 < length p) by (rewrite E, app_length; cbn; apply PeanoNat.Nat.lt_add_pos_r, PeanoNat.Nat.lt_0_succ).
  specialize (H (length p1) L). rewrite E in H. rewrite nth_error_app2, PeanoNat.Nat.sub_diag in H by apply le_n. cbn in H.
  now rewrite firstn_app, firstn_all, PeanoNat.Nat.sub_diag, app_nil_r in H.
Qed.
Example C73_case : all_harmless busy /\ valid busy /\ exists q, result_of busy = Some (Returns (Built (StOk q))).
Proof.
  split; [|split; [eexists; split; vm_compute; reflexivity|eexists; vm_compute; reflexivity]].
  apply harmless_list. intros n L. do 12 (destruct n as [|n]; [vm_compute; repeat split; try exact Logic.I; discriminate|]).
  cbn in L. exfalso. apply (PeanoNat.Nat.nlt_0_r n). now do 12 apply PeanoNat.Nat.succ_lt_mono in L.
Qed.

(** Chains that Go accepts and that panic: UNWIND of an error, a procedure without
    name, anything after WITH of an error or after a SET with one expression, ON
    CREATE after CREATE, And after the WHERE of a procedure, after ORDER BY and
    after Where(nil). *)
Theorem C73_panics_refuted : forall p, List.In p
  [ [matched; Unwind bad "x"; returned_n];
    [matched; Proc []; Yield [GOk nn]; returned_n];
    [matched; With false [bad]; returned_n];
    [matched; SetItems [GOk nn]; Delete false [GOk nn]];
    [Create [GOk n_]; OnAction true a_is_1; With false [GOk nn]; returned_n];
    [matched; Proc ["f"]; Yield [GOk (ESym "sx" "x")]; Where (cond "a"); AndC (cond "b"); returned_n];
    [matched; With false [GOk nn]; OrderItems [Sort "so" nn None]; AndC (cond "b"); returned_n];
    [matched; Where Nil; AndC (cond "b"); returned_n];
    [matched; Sub (StErr false "bad"); Unwind (GOk nn) "x"; returned_n] ] -> valid p /\ result_of p = Some Panics.
Proof.
  intros p H. repeat (destruct H as [<-|H]; [split; [eexists; split; vm_compute; reflexivity|vm_compute; reflexivity]|]). destruct H.
Qed.
Print Assumptions C73_panics_refuted.

(** Asking a predicate under construction for its error panics; asking a negated
    pattern or an existential subquery for its type does too. *)
Theorem C73_asking_refuted :
  (forall f s, Asking.predicate_error (Functions.predicate_create f s) = Panics)
  /\ (forall k p i, exists e, Functions.not_pattern k (Exprs.Elem (Exprs.Good p) i) = Returns (Exprs.made (Exprs.Good e)) /\ Asking.expression_type e = Panics)
  /\ (exists e, Functions.as_condition (K0 1) (set_match d_new (MatchB true false [n_] Nil)) = Returns (Exprs.made (Exprs.Good e)) /\ Asking.expression_type e = Panics).
Proof. split; [reflexivity|]. split; [intros k p i; eexists; split; reflexivity|]. eexists. split; vm_compute; reflexivity. Qed.
Print Assumptions C73_asking_refuted.
