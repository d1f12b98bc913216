(** Headline theorems about C39 for the builder: which calls return. *)

From Coq Require Import Ascii String List ZArith Bool Lia.
From Verif Require Import GoStr Escape Num VTree Ast SpecDoc SpecPrint GoVal Cond Queries Builder PropertiesBuilder.
Import ListNotations.
Open Scope string_scope.
Open Scope list_scope.

Lemma procedure_name_ends : forall k l, procedure_name k l <> Diverges.
Proof. intros k [|n [|n' l]]; discriminate. Qed.

Lemma d_step_ends : forall ks d c, d_step ks d c <> Some Diverges.
Proof.
  intros ks d c. unfold d_step. destruct (d_err d); destruct c; try discriminate.
  all: repeat match goal with
    | |- context [match ?x with _ => _ end] => let e := fresh in destruct x eqn:e; try discriminate; try (now apply procedure_name_ends in e)
    end.
Qed.

Lemma call_step_ends : forall ks p t a c, call_step ks p t a c <> Some Diverges.
Proof. intros ks p t a c. unfold call_step. destruct c; try discriminate; destruct (t _); try discriminate; apply d_step_ends. Qed.
Lemma w_step_ends : forall ks w c, w_step ks w c <> Some Diverges.
Proof.
  intros ks w c. unfold w_step. destruct (order_step ks (w_order w) c); [discriminate|]. destruct c; try discriminate; try (destruct (w_default w); [apply d_step_ends|discriminate]);
    match goal with |- context [builder_add ?a ?b ?c ?d] => destruct (builder_add a b c d); discriminate end.
Qed.
Lemma u_step_ends : forall ks u c, u_step ks u c <> Some Diverges.
Proof.
  intros ks u c. unfold u_step. destruct (order_step ks (u_order u) c); [discriminate|]. destruct c; try discriminate; try (destruct distinct; discriminate);
    (destruct (u_default u); [destruct (u_update u)|]; try discriminate; apply d_step_ends).
Qed.

(** ** Every call returns or panics *)

Theorem C39_calls_return_or_panic : forall ks s c, step ks s c <> Some Diverges /\ start ks c <> Some Diverges.
Proof.
  intros ks s c. split.
  - destruct s; cbn [step]; [apply d_step_ends|apply u_step_ends|apply w_step_ends| |apply call_step_ends|apply call_step_ends].
    unfold r_step. destruct (order_step ks (r_order r) c); discriminate.
  - unfold start. destruct c; try discriminate; try apply d_step_ends. destruct (procedure_name (ks 0) name) eqn:E; try discriminate. now apply procedure_name_ends in E.
Qed.
Print Assumptions C39_calls_return_or_panic.

(** ** Build returns without WITH *)

Definition is_with (c : call) : bool := match c with With _ _ => true | _ => false end.

(** No WITH so far. *)
Definition without (s : state) : Prop :=
  match s with
  | D d => d_parts d = []
  | U u => forall d, u_default u = Some d -> d_parts d = []
  | W _ => False
  | R r => forall d, r_default r = Some d -> d_parts d = []
  | I d _ => forall d', d = inl d' -> d_parts d' = []
  | S _ => True
  end.

Lemma close_match_parts : forall ks d, d_parts (close_match ks d) = d_parts d.
Proof. intros ks d. unfold close_match. now destruct (m_not_nil (d_match d)). Qed.
Lemma close_call_parts : forall ks d, d_parts (close_call ks d) = d_parts d.
Proof. intros ks d. unfold close_call. destruct (d_call d); [destruct (build_call ks c)|]; reflexivity. Qed.
Lemma close_update_parts : forall ks d, d_parts (close_update ks d) = d_parts d.
Proof. intros ks d. unfold close_update. now destruct (d_update d). Qed.
Lemma u_create_default : forall ks d t l d', u_default (u_create ks d t l) = Some d' -> d' = d.
Proof.
  intros ks d t l d' H. unfold u_create in H. destruct (d_err d); [discriminate|]. destruct (first_error l); [discriminate|]. destruct (updating_clause_builder ks t l); [|discriminate]. now injection H.
Qed.

Lemma d_step_without : forall ks d c s, d_parts d = [] -> is_with c = false -> d_step ks d c = Some (Returns s) -> without s.
Proof.
  intros ks d c s P N H. unfold d_step in H. destruct (d_err d) eqn:Er; destruct c; try discriminate.
  all: repeat match type of H with
    | context [match ?x with _ => _ end] => destruct x eqn:?; try discriminate
    end.
  all: injection H as <-; cbn [without]; try reflexivity; try discriminate.
  all: try (intros d' E; apply u_create_default in E; subst d').
  all: try (intros d' E; injection E as <-).
  all: unfold set_cond, set_match, d_update_with, with_elements; cbn [d_parts]; repeat rewrite ?close_update_parts, ?close_call_parts, ?close_match_parts; try exact P.
Qed.

Lemma add_updating_parts : forall ks d c, d_parts (add_updating_clause ks d c) = d_parts d.
Proof. intros. unfold add_updating_clause, with_elements. cbn. apply close_match_parts. Qed.

Lemma u_step_without : forall ks u c s, (forall d, u_default u = Some d -> d_parts d = []) -> is_with c = false -> u_step ks u c = Some (Returns s) -> without s.
Proof.
  intros ks u c s P N H. unfold u_step in H. destruct (order_step ks (u_order u) c); [injection H as <-; exact P|].
  destruct c; try discriminate; cbn [is_with] in N; try discriminate; try (destruct distinct; injection H as <-; exact P).
  all: destruct (u_default u) as [d|] eqn:Ed; [destruct (u_update u)|]; try discriminate.
  all: try (injection H as <-; cbn [without]; intros d'; congruence).
  all: assert (Q : d_parts d = []) by (apply P; reflexivity).
  all: try (eapply d_step_without; [| |exact H]; [rewrite add_updating_parts; exact Q|reflexivity]).
  all: injection H as <-; cbn [without].
  all: try (intros d' E; apply u_create_default in E; subst d'; now rewrite add_updating_parts).
  all: try (intros d' E; rewrite Ed in E; injection E as <-; exact Q).
  all: unfold d_update_with; cbn [d_parts]; now rewrite close_update_parts, close_call_parts, close_match_parts, add_updating_parts.
Qed.

Lemma step_without : forall ks s c s', without s -> is_with c = false -> step ks s c = Some (Returns s') -> without s'.
Proof.
  intros ks s c s' P N H. destruct s; cbn [step without] in *.
  - eapply d_step_without; eassumption.
  - eapply u_step_without; eassumption.
  - contradiction.
  - unfold r_step in H. destruct (order_step ks (r_order r) c); [|discriminate]. injection H as <-. exact P.
  - unfold call_step in H. destruct c; try discriminate; try (injection H as <-; exact P).
    all: destruct default as [d|m]; try discriminate.
    all: try (injection H as <-; cbn [without]; unfold set_call; cbn; now apply P).
    all: eapply d_step_without; [|exact N|exact H]; unfold set_call; cbn; now apply P.
  - unfold call_step in H. destruct c; try discriminate; try (injection H as <-; exact Logic.I).
    all: try (injection H as <-; reflexivity).
    all: eapply d_step_without; [|exact N|exact H]; reflexivity.
Qed.

Lemma run_without : forall K p s s', without s -> forallb (fun c => negb (is_with c)) p = true -> run K s p = Some (Returns s') -> without s'.
Proof.
  intros K p. induction p as [|c p IH]; intros s s' P N H; cbn [run forallb] in *; [now injection H as <-|].
  apply andb_prop in N as [N1 N2]. destruct (step (K (length p)) s c) as [[s1| |]|] eqn:E; try discriminate. apply IH with s1; [|exact N2|exact H].
  apply (step_without (K (length p)) s c); [exact P|now apply negb_true_iff|exact E].
Qed.
Lemma run_ends : forall K p s, run K s p <> Some Diverges.
Proof.
  intros K p. induction p as [|c p IH]; intros s H; cbn [run] in H; [discriminate|]. destruct (step (K (length p)) s c) as [[s1| |]|] eqn:E; try discriminate; [now apply IH in H|].
  now apply (proj1 (C39_calls_return_or_panic (K (length p)) s c)) in E.
Qed.

Lemma build_without : forall ks s, without s -> build ks s <> Some Diverges.
Proof.
  intros ks s P. destruct s; cbn [build without] in *; try discriminate.
  - unfold build_impl. rewrite P. destruct (d_err d); discriminate.
  - destruct (u_err u); [discriminate|]. destruct (u_default u) as [d|]; [|discriminate]. destruct (u_update u); [|discriminate].
    unfold build_impl. rewrite add_updating_parts, (P d eq_refl). discriminate.
  - destruct (r_err r); [discriminate|]. destruct (r_default r) as [d|]; [|discriminate]. unfold build_impl. rewrite (P d eq_refl). discriminate.
Qed.

(** A chain of calls that is never finished has a WITH in it, and it is the
    Build at the end that does not return. *)
Theorem C39_build_returns_without_with : forall K ks p,
  build_program K ks p = Some Diverges ->
  (exists b l, In (With b l) p) /\ exists s, run_start K p = Some (Returns s) /\ build ks s = Some Diverges.
Proof.
  intros K ks p H. unfold build_program in H. destruct (run_start K p) as [[s| |]|] eqn:R; try discriminate.
  2:{ unfold run_start in R. destruct p as [|c p]; [discriminate|]. destruct (start (K (length p)) c) as [[s| |]|] eqn:E; try discriminate; [now apply run_ends in R|].
      now apply (proj2 (C39_calls_return_or_panic (K (length p)) (D d_new) c)) in E. }
  split; [|exists s; auto].
  destruct (forallb (fun c => negb (is_with c)) p) eqn:N.
  - exfalso. apply (build_without ks s); [|exact H]. unfold run_start in R. destruct p as [|c p]; [discriminate|]. cbn [forallb] in N. apply andb_prop in N as [N1 N2]. apply negb_true_iff in N1.
    destruct (start (K (length p)) c) as [[s1| |]|] eqn:E; try discriminate. apply (run_without K p s1); [|exact N2|exact R].
    unfold start in E. destruct c; try discriminate; try (eapply d_step_without; [|exact N1|exact E]; reflexivity).
    destruct (procedure_name (K (length p) 0) name); try discriminate. injection E as <-. exact Logic.I.
  - clear - N. induction p as [|c p IH]; [discriminate|]. cbn [forallb] in N. destruct (is_with c) eqn:W.
    + destruct c; try discriminate. exists distinct, items. now left.
    + destruct (IH N) as (b & l & J). exists b, l. now right.
Qed.
Print Assumptions C39_build_returns_without_with.

(** Such chains exist, and WITH alone does not make one: MATCH, WITH and a RETURN
    of nothing; the same with something to return. *)
Example C39_case : result_of [matched; With false [GOk nn]; Returning false []] = Some Diverges
  /\ exists q, result_of [matched; With false [GOk nn]; returned_n] = Some (Returns (Built (StOk q))).
Proof. split; [vm_compute; reflexivity|]. eexists. vm_compute. reflexivity. Qed.
