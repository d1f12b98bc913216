(** Proofs: which states the interfaces allow, and that errors found by a
    builder are never forgotten. *)

From Coq Require Import Ascii String List ZArith Bool Lia.
From Verif Require Import GoStr Escape Num VTree Ast GoVal SpecCond Cond Queries Builder SpecBuilder SpecErrors.
Import ListNotations.
Open Scope string_scope.
Open Scope list_scope.

(** ** States behind an interface *)

(** An update builder has an error, or a default builder and a clause. *)
Definition sound_u (u : ubuilder) : Prop :=
  (u_err u <> None /\ u_default u = None)
  \/ (u_err u = None /\ exists d b, u_default u = Some d /\ u_update u = Some b).

Lemma u_create_sound : forall ks d t l, sound_u (u_create ks d t l).
Proof.
  intros ks d t l. unfold u_create. destruct (d_err d); [left; now split|]. destruct (first_error l); [left; now split|].
  destruct (updating_clause_builder ks t l) as [u|m]; [right; split; [reflexivity|]; exists d, u; now split|left; now split].
Qed.

Definition typed (i : iface) (s : state) : Prop :=
  match s with
  | D _ => match i with
           | IReadingWithoutWhere | IReading | IReadingWithWhere | IUpdate | IUpdateAndSet | IMatchAndUpdate
           | IMergeAction => True
           | _ => False
           end
  | U u => match i with
           | IMatchAndUpdate | IReadingAndReturn | IReturnWithOrder | ITerminalOrder | ITerminalLimit | IBuildable => sound_u u
           | _ => False
           end
  | W _ => match i with
           | IReadingAndWith | IWithWithoutWhere | IWithWithWhere | IWithAndOrder | IOrderDefinition | ISkipped => True
           | _ => False
           end
  | R _ => match i with
           | IReadingAndReturn | IReturnWithOrder | ITerminalOrder | ITerminalLimit | IBuildable => True
           | _ => False
           end
  | I _ p => match i with ICallWithoutArgs | ICallWithArgs | ICallWithFields => p_standalone p = false | _ => False end
  | S _ => match i with IAloneWithoutArgs | IAloneWithFields => True | _ => False end
  end.

Definition typed_result (i : iface) (r : option (outcome state)) : Prop :=
  match r with
  | None => False
  | Some (Returns s) => typed i s
  | Some _ => True
  end.

Lemma d_step_typed : forall ks d c i, offered (reading ++ [exposes_match; exposes_merge_action]) c = Some i ->
  typed_result i (d_step ks d c).
Proof.
  intros ks d c i O. unfold d_step. destruct (d_err d) as [m|].
  - destruct c; cbn in O; inversion O; subst i; exact Logic.I || reflexivity.
  - destruct c; cbn in O; inversion O; subst i; cbn [typed_result].
    all: try (destruct (first_error _); exact Logic.I).
    + destruct (d_update d) as [[]|]; try exact Logic.I. destruct (first_error items); try exact Logic.I.
      destruct (merge_action _ _ _); exact Logic.I.
    + destruct (first_error items); [exact Logic.I|apply u_create_sound].
    + destruct node; try exact Logic.I; apply u_create_sound.
    + destruct node; try exact Logic.I; apply u_create_sound.
    + destruct (first_error properties); [exact Logic.I|apply u_create_sound].
    + destruct e; exact Logic.I.
    + destruct (statement_error s); [exact Logic.I|]. destruct (subquery_call (ks 3) s); exact Logic.I.
    + destruct (procedure_name _ _) as [n| |]; try exact Logic.I. reflexivity.
Qed.

Lemma step_typed : forall ks i i' s c, typed i s -> offers i c = Some i' -> typed_result i' (step ks s c).
Proof.
  intros ks i i' s c T O.
  assert (Dc : forall ks d c0, offered (reading ++ [exposes_match; exposes_merge_action]) c0 = Some i' -> typed_result i' (d_step ks d c0)).
  { intros. now apply d_step_typed. }
  destruct s as [d|u|w|r|dd p|p]; destruct i; try contradiction; destruct c; cbn in O; inversion O; subst i'; cbn [step];
    try (apply Dc; reflexivity).
  all: try (unfold d_step; destruct (d_err d); cbn; [exact Logic.I|];
            try (destruct (get_error c); [exact Logic.I|]); try (destruct (builder_add _ _ _ _)); exact Logic.I).
  all: try (unfold w_step; cbn [order_step]; try exact Logic.I; try (destruct (builder_add _ _ _ _); exact Logic.I);
            destruct (w_default w); [apply Dc; reflexivity|exact Logic.I]).
  all: try exact Logic.I.
  all: try (unfold u_step; cbn [order_step];
            try (destruct distinct; exact T);
            (destruct (u_default u) as [d|] eqn:Ed; [|exact Logic.I || exact T]);
            (destruct (u_update u) as [b|] eqn:Eu; [|exact Logic.I || exact T]);
            try (apply Dc; reflexivity); first [exact Logic.I | apply u_create_sound]).
  all: try exact T.
  all: try (cbn [call_step]; destruct dd as [d|]; [apply Dc; reflexivity|exact Logic.I]).
  all: cbn [call_step]; try (destruct dd as [d|]; exact Logic.I); try exact Logic.I.
  all: unfold w_step; cbn [order_step]; destruct (builder_add _ _ _ _); exact Logic.I.
Qed.

Lemma start_typed : forall ks i c, offers IStart c = Some i -> typed_result i (start ks c).
Proof.
  intros ks i c O. destruct c; cbn in O; inversion O; subst i; cbn [start];
    try (apply d_step_typed; reflexivity). destruct (procedure_name _ _); exact Logic.I.
Qed.

Lemma run_typed : forall K p i i' s, typed i s -> compiles i p = Some i' -> typed_result i' (run K s p).
Proof.
  intros K. induction p as [|c p IH]; intros i i' s T C; cbn in *.
  - now inversion C; subst.
  - destruct (offers i c) as [i1|] eqn:Eo; [|discriminate]. pose proof (step_typed (K (length p)) i i1 s c T Eo) as S1.
    destruct (step (K (length p)) s c) as [[s1| |]|]; try exact S1. now apply IH with i1.
Qed.

Lemma build_typed : forall ks i s, typed i s -> buildable i = true -> build ks s <> None.
Proof. intros ks i s T B. destruct s; destruct i; try contradiction; try discriminate. Qed.

(** ** Errors are kept *)

Definition call_fails (p : call_builder) : Prop :=
  match p_args p with Some l => first_error l <> None | None => False end.

Definition update_fails (u : update) : Prop :=
  match u with
  | UClause (CErr _ _) | UCreate (GErr _ _) | UMerge (GErr _ _) _ => True
  | _ => False
  end.

(** A call at the start of the statement whose arguments carry an error. *)
Definition alone_fails (d : dbuilder) : Prop :=
  exists p, d_call d = Some p /\ p_standalone p = true /\ call_fails p.

Definition hurt (d : dbuilder) : Prop :=
  d_err d <> None
  \/ (~ alone_fails d
      /\ (first_clause_error (d_elements d) <> None
          \/ first_part_error (d_parts d) <> None
          \/ (exists u, d_update d = Some u /\ update_fails u)
          \/ (exists p, d_call d = Some p /\ p_standalone p = false /\ call_fails p))).

Lemma first_clause_error_app : forall a b, first_clause_error a <> None \/ first_clause_error b <> None ->
  first_clause_error (a ++ b) <> None.
Proof.
  induction a as [|[] a IH]; intros b [H|H]; cbn in *; try congruence; try (now apply IH; auto).
Qed.

Lemma first_part_error_app : forall a b, first_part_error a <> None \/ first_part_error b <> None ->
  first_part_error (a ++ b) <> None.
Proof. induction a as [|[] a IH]; intros b [H|H]; cbn in *; try congruence; try (now apply IH; auto). Qed.

Lemma update_fails_error : forall ks u, update_fails u -> exists b m, build_update ks u = CErr b m.
Proof. intros ks [[]|[] a|[]] H; cbn in *; try contradiction; eauto. Qed.

Lemma call_fails_error : forall ks p, call_fails p ->
  exists m, build_call ks p = if p_standalone p then inr m else inl (CErr false m).
Proof.
  intros ks p H. unfold call_fails in H. unfold build_call. destruct (p_args p) as [l|]; [|contradiction].
  destruct (first_error l) as [m|] eqn:E; [|congruence]. exists m. destruct l; [discriminate|]. now destruct (p_standalone p).
Qed.

Lemma call_ok : forall ks p, ~ (p_standalone p = true /\ call_fails p) -> exists c, build_call ks p = inl c.
Proof.
  intros ks p H. unfold call_fails, build_call in *. destruct (where_broken _); destruct (p_args p) as [l|]; eauto;
    (destruct (first_error l) eqn:E; [destruct (p_standalone p); [exfalso; apply H; now split|]|]; destruct l; eauto).
Qed.

Lemma hurt_close_match : forall ks d, hurt d -> hurt (close_match ks d).
Proof.
  intros ks d H. unfold close_match. destruct (m_not_nil (d_match d)); [|assumption].
  destruct H as [H|[N H]]; [now left|]. right. split; [exact N|]. destruct H as [H|[H|H]]; cbn; auto.
  left. apply first_clause_error_app. now left.
Qed.

Lemma hurt_close_update : forall ks d, hurt d -> hurt (close_update ks d).
Proof.
  intros ks d H. unfold close_update. destruct (d_update d) as [u|] eqn:E; [|assumption].
  destruct H as [H|[N H]]; [now left|]. right. split; [exact N|]. destruct H as [H|[H|[(u' & E' & H)|H]]]; cbn; auto.
  - left. apply first_clause_error_app. now left.
  - rewrite E in E'. inversion E'; subst u'. left. apply first_clause_error_app. right.
    destruct (update_fails_error ks u H) as (b & m & ->). discriminate.
Qed.

Lemma alone_dec : forall d, alone_fails d \/ ~ alone_fails d.
Proof.
  intros d. unfold alone_fails. destruct (d_call d) as [p|]; [|right; intros (p & E & _); discriminate].
  destruct (p_standalone p) eqn:S; [|right; intros (q & E & H & _); congruence].
  unfold call_fails. destruct (p_args p) as [l|] eqn:A.
  - destruct (first_error l) eqn:F.
    + left. exists p. rewrite A, F. repeat split; congruence.
    + right. intros (q & E & _ & H). inversion E; subst. rewrite A, F in H. congruence.
  - right. intros (q & E & _ & H). inversion E; subst. now rewrite A in H.
Qed.

Lemma hurt_close_call : forall ks d, hurt d -> hurt (close_call ks d).
Proof.
  intros ks d H. unfold close_call. destruct (d_call d) as [p|] eqn:E; [|assumption].
  destruct (build_call ks p) as [c|m] eqn:B; [|left; discriminate].
  destruct H as [H|[N H]]; [now left|]. right. split; [intros (q & Eq & _); discriminate|].
  destruct H as [H|[H|[H|(q & Eq & S & H)]]]; cbn; auto.
  - left. apply first_clause_error_app. now left.
  - rewrite E in Eq. inversion Eq; subst q. left. apply first_clause_error_app. right.
    destruct (call_fails_error ks p H) as [m B']. rewrite S, B in B'. inversion B'. discriminate.
Qed.

(** After [close_call] nothing can go wrong with a call. *)
Lemma close_call_closed : forall ks d, d_err (close_call ks d) <> None \/ d_call (close_call ks d) = None.
Proof.
  intros ks d. unfold close_call. destruct (d_call d) as [p|] eqn:E; [|now right].
  destruct (build_call ks p); [now right|left; discriminate].
Qed.

Lemma hurt_elements : forall d l, hurt d -> hurt (with_elements d (d_elements d ++ l)).
Proof.
  intros d l [H|[N H]]; [now left|]. right. split; [exact N|]. destruct H as [H|[H|H]]; cbn; auto.
  left. apply first_clause_error_app. now left.
Qed.

Lemma hurt_set_match : forall d m, hurt d -> hurt (set_match d m).
Proof. intros d m [H|[N H]]; [now left|]. right. now split. Qed.

Lemma hurt_list : forall ks d, hurt d -> d_err d = None ->
  exists l, build_list ks d = inl l /\ (first_clause_error l <> None \/ first_part_error (d_parts d) <> None).
Proof.
  intros ks d [H|[N H]] E; [congruence|]. unfold build_list.
  set (l0 := d_elements d ++ _ ++ _).
  assert (G : forall c, (d_call d = None \/ exists p, d_call d = Some p /\ build_call (block ks 2) p = inl c) ->
     first_clause_error (l0 ++ match d_call d with Some _ => [c] | None => [] end) <> None \/ first_part_error (d_parts d) <> None).
  { intros c Hc. destruct H as [H|[H|[(u & Eu & H)|(p & Ep & S & H)]]]; auto.
    - left. apply first_clause_error_app. left. apply first_clause_error_app. now left.
    - left. apply first_clause_error_app. left. unfold l0. rewrite Eu. apply first_clause_error_app. right.
      apply first_clause_error_app. right. destruct (update_fails_error (block ks 1) u H) as (b & m & ->). discriminate.
    - left. apply first_clause_error_app. right. rewrite Ep. destruct Hc as [Hc|(q & Eq & B)]; [congruence|].
      rewrite Ep in Eq. inversion Eq; subst q. destruct (call_fails_error (block ks 2) p H) as [m B']. rewrite S, B in B'.
      inversion B'. discriminate. }
  destruct (d_call d) as [p|] eqn:Ep.
  - destruct (call_ok (block ks 2) p) as [c B].
    { intros [S F]. apply N. exists p. now repeat split. }
    rewrite B. eexists. split; [reflexivity|]. apply G. right. exists p. now split.
  - eexists. split; [reflexivity|]. specialize (G (CBroken false) (or_introl eq_refl)). now rewrite app_nil_r in G.
Qed.

Lemma hurt_add_with : forall ks d w, hurt d -> hurt (add_with ks d w).
Proof.
  intros ks d w H. unfold add_with. destruct (d_err d) as [m|] eqn:E; [left; discriminate|].
  destruct w as [w|]; [|assumption]. destruct (hurt_list ks d H E) as (l & B & X). rewrite B. right.
  split; [intros (p & Ep & _); discriminate|]. right. left. cbn. apply first_part_error_app.
  destruct X as [X|X]; [right|now left]. unfold multi_part_element_create.
  destruct (first_clause_error l); [discriminate|congruence].
Qed.

Lemma hurt_update_with : forall ks d t l, hurt d -> hurt (d_update_with ks d t l).
Proof.
  intros ks d t l H. unfold d_update_with.
  set (d2 := close_call _ _). assert (H2 : hurt d2) by (now apply hurt_close_call, hurt_close_match).
  pose proof (hurt_close_update (block ks 2) d2 H2) as H3.
  assert (C : d_update (close_update (block ks 2) d2) = None).
  { unfold close_update. destruct (d_update d2) eqn:E; [reflexivity|assumption]. }
  set (d3 := close_update _ d2) in *. destruct H3 as [H3|[N H3]]; [now left|]. right. split; [exact N|].
  destruct H3 as [H3|[H3|[(u & Eu & _)|H3]]]; cbn; auto. congruence.
Qed.

Lemma hurt_update_new : forall ks d t l u, updating_clause_builder (block ks 3) t l = inl u -> update_fails u ->
  hurt (d_update_with ks d t l).
Proof.
  intros ks d t l u E F. unfold d_update_with. rewrite E.
  set (d2 := close_call _ _). destruct (close_call_closed (block ks 1) (close_match (block ks 0) d)) as [H|H]; fold d2 in H.
  - left. cbn. unfold close_update. now destruct (d_update d2).
  - right. split.
    + intros (p & Ep & _). cbn in Ep. unfold close_update in Ep. destruct (d_update d2); cbn in Ep; congruence.
    + right. right. left. exists u. now split.
Qed.

Lemma hurt_clause : forall ks d c, hurt d -> hurt (add_updating_clause ks d c).
Proof. intros ks d c H. unfold add_updating_clause. now apply hurt_elements, hurt_close_match. Qed.

(** The call does not matter for other errors, unless it is at the start. *)
Lemma hurt_set_call : forall d p, hurt d -> p_standalone p = false ->
  ~ (exists q, d_call d = Some q /\ p_standalone q = false /\ call_fails q) -> hurt (set_call d p).
Proof.
  intros d p [H|[N H]] S G; [now left|]. right. split.
  - intros (q & Eq & Sq & _). cbn in Eq. inversion Eq; subst. congruence.
  - destruct H as [H|[H|[H|H]]]; [now left|right; now left|right; right; now left|contradiction].
Qed.

(** ** ... by every state *)

Definition hurt_state (i : iface) (s : state) : Prop :=
  match s with
  | D d => hurt d
  | U u => (u_err u <> None /\ u_default u = None)
           \/ (exists d, u_default u = Some d /\ d_err d = None /\ hurt d)
  | W w => w_default w = None \/ exists d, w_default w = Some d /\ hurt d
  | R r => (r_err r <> None /\ r_default r = None) \/ exists d, r_default r = Some d /\ d_err d = None /\ hurt d
  | I dd p => (exists m, dd = inr m)
              \/ (exists d, dd = inl d /\ p_standalone p = false
                   /\ ((forall p', p_standalone p' = false -> hurt (set_call d p'))
                       \/ (call_fails p /\ i <> ICallWithoutArgs)))
  | S p => False
  end.

Definition hurt_result (i : iface) (r : option (outcome state)) : Prop :=
  match r with Some (Returns s) => hurt_state i s | _ => True end.

Lemma u_create_hurt : forall i ks d t l,
  hurt d \/ first_error l <> None \/ (exists m, updating_clause_builder ks t l = inr m) -> hurt_state i (U (u_create ks d t l)).
Proof.
  intros i ks d t l H. unfold u_create. destruct (d_err d) as [m|] eqn:E; [left; now split|].
  destruct (first_error l) as [m|] eqn:F; [left; now split|].
  destruct (updating_clause_builder ks t l) as [u|m] eqn:B; [|left; now split].
  destruct H as [H|[H|[m H]]]; try congruence. right. exists d. now repeat split.
Qed.

Lemma faulty_first : forall l, negb (no_error l) = true -> exists m, first_error l = Some m.
Proof.
  induction l as [|[e|t m] l IH]; cbn; intros H; [discriminate| |now exists m]. now apply IH.
Qed.

Lemma odd_set_fails : forall ks l, first_error l = None -> odd_set l = true -> prepare_set ks (sound_exprs l) = None.
Proof.
  intros ks l F O. unfold prepare_set, odd_set in *. change (sound_exprs l) with (the_exprs l). now rewrite O.
Qed.

Lemma nothing_returned : forall q, returns_elements q = true -> returns_nothing q = false.
Proof.
  fix IH 1. intros q H. destruct q; try discriminate H; cbn in *; try reflexivity.
  - now destruct yield.
  - now destruct ret.
  - now apply IH.
Qed.

Lemma d_step_hurt : forall ks d c i, offered (reading ++ [exposes_where; exposes_match; exposes_merge_action; and_or IReadingWithWhere]) c = Some i ->
  hurt d \/ (faulty c = true /\ match c with AndC _ => False | _ => True end) -> hurt_result i (d_step ks d c).
Proof.
  intros ks d c i O H. unfold d_step. destruct (d_err d) as [m|] eqn:E.
  { destruct c; cbn in O; inversion O; subst; cbn; try exact Logic.I; try (left; discriminate); try (left; now split);
      try (now left). left. now exists m. }
  assert (N : forall l, hurt d \/ (negb (no_error l) = true /\ True) -> first_error l = None -> hurt d).
  { intros l [K|[K _]] F; [assumption|]. destruct (faulty_first l K) as [m Em]. congruence. }
  destruct c; cbn in O; inversion O; subst; cbn [faulty] in H.
  - (* Match *) destruct (first_error patterns) eqn:F; [left; discriminate|]. cbn.
    apply hurt_set_match, hurt_close_call, hurt_close_match. now apply (N patterns).
  - (* Where *) destruct (get_error c) eqn:F; [left; discriminate|]. cbn. apply hurt_set_match. destruct H as [H|[H _]]; [assumption|discriminate].
  - (* And *) destruct H as [H|[_ []]]. destruct (builder_add _ _ _ _); [|exact Logic.I]. cbn. now apply hurt_set_match.
  - (* Or *) destruct (get_error c) eqn:F; [left; discriminate|]. destruct H as [H|[H _]]; [|discriminate].
    destruct (builder_add _ _ _ _); [|exact Logic.I]. cbn. now apply hurt_set_match.
  - (* With *) destruct (first_error items) eqn:F; [now left|]. cbn. right. exists d. split; [reflexivity|]. now apply (N items).
  - (* Returning *) destruct (first_error items) eqn:F; [left; now split|]. cbn. right. exists d. split; [reflexivity|]. split; [exact E|]. now apply (N items).
  - (* Delete *) destruct (first_error items) eqn:F; [left; discriminate|]. cbn. apply hurt_update_with. now apply (N items).
  - (* Create *) destruct (first_error patterns) eqn:F; [left; discriminate|]. cbn. apply hurt_update_with. now apply (N patterns).
  - (* Merge *) destruct (first_error patterns) eqn:F; [left; discriminate|]. cbn. apply hurt_update_with. now apply (N patterns).
  - (* OnAction *) destruct (d_update d) as [[p|p acts|cl]|] eqn:Eu; try (left; discriminate).
    destruct (first_error items) eqn:F; [left; discriminate|]. unfold merge_action.
    destruct (prepare_set _ _) as [l'|] eqn:P; [|left; discriminate]. cbn.
    assert (Hd : hurt d).
    { destruct H as [H|[H _]]; [assumption|]. apply orb_prop in H as [H|H].
      - destruct (faulty_first _ H). congruence.
      - now rewrite (odd_set_fails _ _ F H) in P. }
    destruct Hd as [Hd|[Na Hd]]; [congruence|]. right. split; [exact Na|]. destruct Hd as [Hd|[Hd|[(u & Eu' & Hu)|Hd]]]; cbn; auto.
    right. right. left. eexists. split; [reflexivity|]. rewrite Eu in Eu'. inversion Eu'; subst u. cbn in *. now destruct p.
  - (* Set *) destruct (first_error items) eqn:F; [left; discriminate|]. cbn [hurt_result]. apply u_create_hurt.
    destruct H as [H|[H _]]; [left; now apply hurt_close_update|]. apply orb_prop in H as [H|H].
    + destruct (faulty_first _ H). congruence.
    + right. right. cbn [updating_clause_builder]. rewrite (odd_set_fails _ _ F H). now eexists.
  - (* SetByNode *) destruct node; try (left; discriminate); cbn [hurt_result]; apply u_create_hurt;
      (destruct H as [H|[H _]]; [now left|]); cbn in H; destruct labels; try discriminate; right; left; discriminate.
  - (* RemoveByNode *) destruct node; try (left; discriminate); cbn [hurt_result]; apply u_create_hurt;
      (destruct H as [H|[H _]]; [now left|]); cbn in H; destruct labels; try discriminate; right; left; discriminate.
  - (* Remove *) destruct (first_error properties) eqn:F; [left; discriminate|]. cbn [hurt_result]. apply u_create_hurt. left.
    now apply (N properties).
  - (* Unwind *) destruct e; [|exact Logic.I]. cbn. apply hurt_elements, hurt_close_match.
    destruct H as [H|[H _]]; [assumption|discriminate].
  - (* Sub *) destruct (statement_error s) eqn:F; [left; discriminate|].
    assert (Hc : hurt d -> hurt (close_update (block ks 2) (close_match (block ks 1) (close_call (block ks 0) d)))).
    { intros Hd. now apply hurt_close_update, hurt_close_match, hurt_close_call. }
    destruct s; cbn in F; try discriminate; cbn [subquery_call].
    + destruct (returns_elements q) eqn:Rq; [|left; discriminate]. cbn [hurt_result hurt_state]. apply hurt_elements, Hc.
      destruct H as [H|[H _]]; [assumption|]. rewrite (nothing_returned _ Rq) in H. discriminate.
    + cbn [hurt_result hurt_state]. apply hurt_elements, Hc. destruct H as [H|[H _]]; [assumption|discriminate].
    + left; discriminate.
  - (* Proc *) destruct H as [H|[H _]]; [|discriminate]. destruct (procedure_name _ _) as [n| |]; try exact Logic.I.
    set (d' := close_call _ _). assert (H' : hurt d') by (now apply hurt_close_call, hurt_close_match).
    cbn [hurt_result hurt_state]. right. eexists. split; [reflexivity|]. split; [reflexivity|]. left. intros p' S.
    change (hurt (set_call d' p')).
    destruct (close_call_closed (block ks 1) (close_match (block ks 0) d)) as [C|C]; fold d' in C; [now left|].
    apply hurt_set_call; [assumption..|]. intros (q & Eq & _). congruence.
Qed.

Lemma order_step_hurt : forall i i' s o c ks, hurt_state i s ->
  match s with
  | U u => order_step ks (u_order u) c = Some o
  | W w => order_step ks (w_order w) c = Some o
  | R r => order_step ks (r_order r) c = Some o
  | _ => False
  end -> hurt_result i' (step ks s c).
Proof.
  intros i i' s o c ks H E. destruct s; try contradiction; cbn [step]; unfold u_step, w_step, r_step; rewrite E; exact H.
Qed.

Lemma step_hurt : forall ks i i' s c, typed i s -> offers i c = Some i' ->
  hurt_state i s \/ (faulty c && examined i c)%bool = true -> hurt_result i' (step ks s c).
Proof.
  intros ks i i' s c T O H.
  assert (Dc : forall d, offered (reading ++ [exposes_where; exposes_match; exposes_merge_action; and_or IReadingWithWhere]) c = Some i' ->
    hurt d \/ (faulty c = true /\ match c with AndC _ => False | _ => True end) -> forall ks, hurt_result i' (d_step ks d c)).
  { intros d Oc Hd ks0. now apply d_step_hurt. }
  destruct s as [d|u|w|r|dd p|p]; cbn [hurt_state] in H.
  - (* D *)
    assert (H' : hurt d \/ (faulty c = true /\ match c with AndC _ => False | _ => True end)).
    { destruct H as [H|H]; [now left|right]. apply andb_prop in H as [H1 H2]. split; [assumption|].
      destruct c; try exact Logic.I. discriminate. }
    cbn [step]. apply Dc; [|assumption].
    destruct i; try contradiction; destruct c; cbn in O |- *; inversion O; reflexivity.
  - (* U *)
    destruct (order_step ks (u_order u) c) as [o|] eqn:Eo.
    { destruct H as [H|H]; [now apply (order_step_hurt i i' (U u) o)|]. apply andb_prop in H as [H1 H2].
      destruct c; discriminate. }
    assert (Tu : sound_u u /\ (i = IMatchAndUpdate \/ faulty c = true /\ False)).
    { destruct i; try contradiction; split; try exact T; try (now left); destruct c; cbn in O; try discriminate; cbn in Eo; discriminate. }
    destruct Tu as [Su [->|[_ []]]]. cbn [step]. unfold u_step. rewrite Eo.
    destruct Su as [[Ue Ud]|(Ue & d & b & Ud & Ub)].
    + (* errored *) rewrite Ud. destruct c; cbn in O; inversion O; try exact Logic.I.
      * destruct distinct; left; now split.
      * left; now split.
    + rewrite Ud, Ub.
      assert (H' : hurt d \/ (faulty c && examined IMatchAndUpdate c)%bool = true).
      { destruct H as [[[H _]|(d0 & E0 & _ & H)]|H]; [congruence| |now right]. left. rewrite Ud in E0. now inversion E0. }
      set (d' := add_updating_clause _ d _).
      assert (H2 : hurt d' \/ (faulty c && examined IMatchAndUpdate c)%bool = true).
      { destruct H' as [H'|H']; [left; now apply hurt_clause|now right]. }
      assert (H3 : hurt d' \/ (faulty c = true /\ match c with AndC _ => False | _ => True end)).
      { destruct H2 as [H2|H2]; [now left|right]. apply andb_prop in H2 as [X Y]. split; [assumption|]. destruct c; try exact Logic.I. discriminate. }
      destruct c; cbn in O; inversion O; subst i'; try (apply Dc; [reflexivity|assumption]).
      * (* Returning *) destruct H as [H|H]; [|apply andb_prop in H as [_ Y]; discriminate]. rewrite Ud in H. destruct distinct; exact H.
      * (* Delete *) destruct H2 as [H2|H2]; [cbn; now apply hurt_update_with|]. cbn [faulty] in H2. apply andb_prop in H2 as [X _].
        destruct (faulty_first _ X) as [m Em]. cbn. eapply hurt_update_new; [cbn [updating_clause_builder]; reflexivity|].
        unfold expression_list_create. now rewrite Em.
      * (* Set *) cbn [hurt_result]. apply u_create_hurt. destruct H3 as [H3|[H3 _]]; [now left|]. cbn [faulty] in H3.
        destruct (first_error items) eqn:F; [right; left; congruence|]. apply orb_prop in H3 as [H3|H3].
        -- destruct (faulty_first _ H3). congruence.
        -- right. right. cbn [updating_clause_builder]. rewrite (odd_set_fails _ _ F H3). now eexists.
      * cbn [hurt_result]. apply u_create_hurt. destruct H3 as [H3|[H3 _]]; [now left|]. cbn [faulty] in H3. right. left.
        destruct node; cbn in *; try discriminate; destruct labels; discriminate.
      * cbn [hurt_result]. apply u_create_hurt. destruct H3 as [H3|[H3 _]]; [now left|]. cbn [faulty] in H3. right. left.
        destruct node; cbn in *; try discriminate; destruct labels; discriminate.
      * cbn [hurt_result]. apply u_create_hurt. destruct H3 as [H3|[H3 _]]; [now left|]. right. left.
        destruct (faulty_first _ H3) as [m Em]. congruence.
  - (* W *)
    destruct (order_step ks (w_order w) c) as [o|] eqn:Eo.
    { destruct H as [H|H]; [now apply (order_step_hurt i i' (W w) o)|]. apply andb_prop in H as [H1 H2]. destruct c; discriminate. }
    cbn [step]. unfold w_step. rewrite Eo.
    assert (Q : forall x, hurt_state i (W w) -> hurt_result i' (Some (Returns (W (WB (w_err w) (w_default w) x (w_items w) (w_order w) (w_distinct w)))))).
    { intros x X. exact X. }
    assert (F : forall x, (match c with Where y | AndC y | OrC y => y = x | _ => False end) -> hurt_state i (W w)).
    { intros x X. destruct H as [H|H]; [exact H|]. apply andb_prop in H as [_ H].
      destruct c; try contradiction; destruct i; try contradiction; discriminate. }
    assert (G : match c with Where _ | AndC _ | OrC _ => False | _ => True end ->
      forall d ks, w_default w = Some d -> hurt_result i' (d_step ks (add_with (block ks 1) d (build_with (block ks 2) (w_distinct w) (w_items w) (w_order w) (w_cond w))) c)
                 /\ forall k1 k2, hurt_result i' (d_step ks (add_with k1 d (build_with k2 (w_distinct w) (w_items w) (w_order w) (w_cond w))) c)).
    { intros X d ks0 Ed.
      assert (H3 : forall k1 k2, hurt (add_with k1 d (build_with k2 (w_distinct w) (w_items w) (w_order w) (w_cond w)))
                \/ (faulty c = true /\ match c with AndC _ => False | _ => True end)).
      { intros k1 k2. destruct H as [[H|(d0 & E0 & H)]|H]; [congruence| |].
        - left. rewrite Ed in E0. inversion E0; subst. now apply hurt_add_with.
        - right. apply andb_prop in H as [H _]. split; [assumption|]. now destruct c. }
      assert (Ox : offered (reading ++ [exposes_where; exposes_match; exposes_merge_action; and_or IReadingWithWhere]) c = Some i').
      { destruct i; try contradiction; destruct c; cbn in O |- *; try discriminate; try contradiction; inversion O; reflexivity. }
      split; [|intros k1 k2]; apply Dc; try assumption; apply H3. }
    destruct c; try exact Logic.I;
      try (apply Q, (F c); reflexivity);
      try (destruct (builder_add _ _ _ _); [apply Q, (F c); reflexivity|exact Logic.I]);
      (destruct (w_default w) as [d|] eqn:Ed; [apply (G Logic.I d (block ks 0) eq_refl)|exact Logic.I]).
  - (* R *)
    destruct (order_step ks (r_order r) c) as [o|] eqn:Eo.
    + destruct H as [H|H]; [now apply (order_step_hurt i i' (R r) o)|]. apply andb_prop in H as [H1 H2]. destruct c; discriminate.
    + cbn [step]. unfold r_step. rewrite Eo. exact Logic.I.
  - (* I *)
    assert (Hs : p_standalone p = false) by (destruct i; try contradiction; exact T).
    assert (X : match i with ICallWithoutArgs => match c with Args _ | Yield _ => True | _ => False end
                | ICallWithArgs => match c with Yield _ => True | _ => False end
                | _ => match c with Where _ | Returning _ _ | With _ _ | Sub _ => True | _ => False end end).
    { destruct i; try contradiction; destruct c; cbn in O; try discriminate; exact Logic.I. }
    assert (Y : hurt_state i' (I dd p) -> True) by trivial. clear Y.
    destruct c; try (destruct i; contradiction).
    + (* Where *) cbn [step call_step]. destruct dd as [d|m]; [|exact Logic.I]. cbn.
      destruct H as [[(m & E)|(d0 & E & _ & H)]|H]; [discriminate| |].
      * inversion E; subst d0. destruct H as [H|[H _]]; [now apply H|]. right. split.
        -- intros (q & Eq & Sq & _). cbn in Eq. inversion Eq; subst q. cbn in Sq. congruence.
        -- right. right. right. eexists. split; [reflexivity|]. now split.
      * apply andb_prop in H as [_ H]. destruct i; discriminate || contradiction.
    + (* With *) cbn [step call_step]. destruct dd as [d|m]; [|exact Logic.I]. apply Dc.
      { destruct i; try contradiction; cbn in O |- *; inversion O; reflexivity. }
      destruct H as [[(m & E)|(d0 & E & _ & H)]|H]; [discriminate| |].
      * inversion E; subst d0. left. destruct H as [H|[H _]]; [now apply H|]. right. split.
        -- intros (q & Eq & Sq & _). cbn in Eq. inversion Eq; subst q. cbn in Sq. congruence.
        -- right. right. right. eexists. split; [reflexivity|]. now split.
      * right. apply andb_prop in H as [H _]. now split.
    + (* Returning *) cbn [step call_step]. destruct dd as [d|m]; [|exact Logic.I]. apply Dc.
      { destruct i; try contradiction; cbn in O |- *; inversion O; reflexivity. }
      destruct H as [[(m & E)|(d0 & E & _ & H)]|H]; [discriminate| |].
      * inversion E; subst d0. left. destruct H as [H|[H _]]; [now apply H|]. right. split.
        -- intros (q & Eq & Sq & _). cbn in Eq. inversion Eq; subst q. cbn in Sq. congruence.
        -- right. right. right. eexists. split; [reflexivity|]. now split.
      * right. apply andb_prop in H as [H _]. now split.
    + (* Sub *) cbn [step call_step]. destruct dd as [d|m]; [|exact Logic.I]. apply Dc.
      { destruct i; try contradiction; cbn in O |- *; inversion O; reflexivity. }
      destruct H as [[(m & E)|(d0 & E & _ & H)]|H]; [discriminate| |].
      * inversion E; subst d0. left. destruct H as [H|[H _]]; [now apply H|]. right. split.
        -- intros (q & Eq & Sq & _). cbn in Eq. inversion Eq; subst q. cbn in Sq. congruence.
        -- right. right. right. eexists. split; [reflexivity|]. now split.
      * right. apply andb_prop in H as [H _]. now split.
    + (* Args *) destruct i; try contradiction. cbn in O. inversion O; subst i'. cbn. destruct dd as [d|m]; [|left; now exists m].
      right. exists d. split; [reflexivity|]. split; [exact Hs|]. destruct H as [[(m & E)|(d0 & E & _ & H)]|H]; [discriminate| |].
      * inversion E; subst d0. destruct H as [H|[_ H]]; [now left|congruence].
      * right. split; [|discriminate]. apply andb_prop in H as [H _]. cbn in H. destruct l as [l|]; [|discriminate]. cbn.
        destruct (faulty_first _ H) as [m Em]. unfold call_fails. cbn. congruence.
    + (* Yield *) cbn. destruct dd as [d|m]; [|left; now exists m]. destruct H as [[(m & E)|(d0 & E & _ & H)]|H]; [discriminate| |].
      * inversion E; subst d0. right. exists d. split; [reflexivity|]. split; [exact Hs|]. destruct H as [H|[H _]]; [now left|].
        right. split; [exact H|]. destruct i; try contradiction; cbn in O; inversion O; discriminate.
      * apply andb_prop in H as [_ H]. discriminate.
  - (* S *)
    destruct H as [[]|H]. apply andb_prop in H as [H1 H2]. cbn [step].
    destruct i; try contradiction; destruct c; cbn in O; inversion O; subst i'; try discriminate; cbn [call_step];
      apply Dc; try reflexivity; right; now split.
Qed.

Lemma start_hurt : forall ks i c, offers IStart c = Some i -> (faulty c && examined IStart c)%bool = true ->
  hurt_result i (start ks c).
Proof.
  intros ks i c O H. apply andb_prop in H as [H1 H2].
  destruct c; cbn in O; inversion O; subst i; cbn [start]; try discriminate;
    apply d_step_hurt; try reflexivity; right; now split.
Qed.

Lemma run_hurt : forall K p i i' s, typed i s -> hurt_state i s -> compiles i p = Some i' -> hurt_result i' (run K s p).
Proof.
  intros K. induction p as [|c p IH]; intros i i' s T H C; cbn in *.
  - now inversion C; subst.
  - destruct (offers i c) as [i1|] eqn:Eo; [|discriminate]. pose proof (step_typed (K (length p)) i i1 s c T Eo) as T1.
    pose proof (step_hurt (K (length p)) i i1 s c T Eo (or_introl H)) as H1.
    destruct (step (K (length p)) s c) as [[s1| |]|]; try exact Logic.I. now apply IH with i1.
Qed.

Lemma hurt_build : forall ks d r, hurt d -> d_err d = None -> made_statement (Some (built_of (build_impl ks d r))) = false.
Proof.
  intros ks d r H E. destruct (hurt_list ks d H E) as (l & B & X). unfold build_impl. rewrite B.
  assert (Sg : first_clause_error l <> None -> exists m, single_part_create l r = StErr false m).
  { intros F. unfold single_part_create. destruct (_ && _)%bool; [now eexists|]. destruct (first_clause_error l) as [m|]; [|congruence].
    now exists m. }
  destruct (d_parts d) as [|p ps] eqn:Ep.
  - destruct X as [X|X]; [|now cbn in X]. destruct (Sg X) as [m ->]. reflexivity.
  - unfold multi_part_query_create. destruct (first_part_error (p :: ps)) as [m|]; [reflexivity|].
    destruct X as [X|X]; [|congruence]. destruct (Sg X) as [m ->]. reflexivity.
Qed.

Lemma build_hurt : forall ks i s, hurt_state i s -> typed i s -> made_statement (build ks s) = false.
Proof.
  intros ks i s H T. destruct s as [d|u|w|r|dd p|p]; cbn [build hurt_state] in *; try reflexivity; [| | |contradiction].
  - destruct (d_err d) eqn:E; [reflexivity|]. now apply hurt_build.
  - assert (Su : sound_u u) by (destruct i; try contradiction; exact T).
    destruct Su as [[Ue Ud]|(Ue & d & b & Ud & Ub)]; [destruct (u_err u); [reflexivity|congruence]|]. rewrite Ue, Ud, Ub.
    assert (Hd : hurt d).
    { destruct H as [[H _]|(d0 & E0 & E & H)]; [congruence|]. rewrite Ud in E0. now inversion E0; subst. }
    apply hurt_build; [now apply hurt_clause|]. destruct H as [[H _]|(d0 & E0 & E & _)]; [congruence|].
    rewrite Ud in E0. inversion E0; subst d0. unfold add_updating_clause, close_match. now destruct (m_not_nil (d_match d)).
  - destruct H as [[H1 H2]|(d & Ed & E & H)]; [destruct (r_err r); [reflexivity|congruence]|]. destruct (r_err r); [reflexivity|].
    rewrite Ed. now apply hurt_build.
Qed.

(** ** Programs *)

Lemma run_app : forall K p1 p2 s,
  run K s (p1 ++ p2) =
  match run (fun n => K (length p2 + n)) s p1 with Some (Returns s') => run K s' p2 | r => r end.
Proof.
  intros K. induction p1 as [|c p1 IH]; intros p2 s; [reflexivity|]. cbn [app run]. rewrite app_length, (PeanoNat.Nat.add_comm (length p1)).
  destruct (step (K (length p2 + length p1)) s c) as [[s'| |]|]; try reflexivity. apply IH.
Qed.

Lemma compiles_app : forall p1 p2 i, compiles i (p1 ++ p2) = match compiles i p1 with Some i' => compiles i' p2 | None => None end.
Proof. induction p1 as [|c p1 IH]; intros p2 i; [reflexivity|]. cbn. destruct (offers i c); [apply IH|reflexivity]. Qed.

Lemma program_typed : forall K ks p i, compiles IStart p = Some i -> buildable i = true -> build_program K ks p <> None.
Proof.
  intros K ks p i C B. destruct p as [|c p]; [inversion C; subst; discriminate|]. cbn [compiles] in C.
  destruct (offers IStart c) as [i1|] eqn:Eo; [|discriminate]. unfold build_program, run_start.
  pose proof (start_typed (K (length p)) i1 c Eo) as T. destruct (start (K (length p)) c) as [[s| |]|]; try discriminate; [|contradiction].
  pose proof (run_typed K p i1 i s T C) as T2. destruct (run K s p) as [[s2| |]|]; try discriminate; [|contradiction].
  now apply build_typed with i.
Qed.

Lemma program_hurt : forall K ks p c p' i i', compiles IStart p = Some i -> faulty c = true -> examined i c = true ->
  compiles i (c :: p') = Some i' -> made_statement (build_program K ks (p ++ c :: p')) = false.
Proof.
  intros K ks p c p' i i' C F X C'. assert (FX : (faulty c && examined i c)%bool = true) by (now rewrite F, X).
  cbn [compiles] in C'. destruct (offers i c) as [i2|] eqn:Eo; [|discriminate].
  assert (Fin : forall s, typed i2 s -> hurt_state i2 s ->
    made_statement match run K s p' with Some (Returns s) => build ks s | Some Panics => Some Panics | Some Diverges => Some Diverges
      | None => None end = false).
  { intros s T H. pose proof (run_typed K p' i2 i' s T C') as T2. pose proof (run_hurt K p' i2 i' s T H C') as H2.
    destruct (run K s p') as [[s2| |]|]; try reflexivity. now apply build_hurt with i'. }
  unfold build_program, run_start. destruct p as [|a p].
  - cbn [app]. inversion C; subst i. pose proof (start_typed (K (length p')) i2 c Eo) as T.
    pose proof (start_hurt (K (length p')) i2 c Eo FX) as H. destruct (start (K (length p')) c) as [[s| |]|]; try reflexivity.
    now apply Fin.
  - cbn [app]. cbn [compiles] in C. destruct (offers IStart a) as [i1|] eqn:Ea; [|discriminate].
    pose proof (start_typed (K (length (p ++ c :: p'))) i1 a Ea) as T.
    destruct (start (K (length (p ++ c :: p'))) a) as [[s| |]|]; try reflexivity. rewrite run_app.
    pose proof (run_typed (fun n => K (length (c :: p') + n)) p i1 i s T C) as T1.
    destruct (run _ s p) as [[s1| |]|]; try reflexivity. cbn [run].
    pose proof (step_typed (K (length p')) i i2 s1 c T1 Eo) as T2.
    pose proof (step_hurt (K (length p')) i i2 s1 c T1 Eo (or_intror FX)) as H2.
    destruct (step (K (length p')) s1 c) as [[s2| |]|]; try reflexivity. now apply Fin.
Qed.
