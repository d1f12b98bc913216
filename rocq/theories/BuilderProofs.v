(** Proofs about the statement builder: chains of calls without misuse build
    the statement that they write. *)

From Coq Require Import String List ZArith Bool Lia.
From Verif Require Import VTree Ast Num GoVal SpecCond Cond Queries Builder SpecBuilder.
Import ListNotations.
Open Scope list_scope.

(** ** Lists of phrases *)

Lemma last_phrase_snoc : forall ph p, last_phrase (ph ++ [p]) = Some p.
Proof. intros ph p. unfold last_phrase. now rewrite rev_app_distr. Qed.

Lemma complete_last_snoc : forall ph p c, complete_last (ph ++ [p]) c = ph ++ [completed p c].
Proof. intros ph p c. unfold complete_last. rewrite rev_app_distr. cbn. now rewrite rev_involutive. Qed.

Lemma no_error_first : forall l, no_error l = true -> first_error l = None.
Proof.
  induction l as [|g l IH]; intros H; [reflexivity|]. cbn in *. apply andb_prop in H as [H1 H2].
  destruct g; [cbn; auto|discriminate].
Qed.

Lemma no_error_any : forall l, no_error l = true -> any_error l = false.
Proof. intros l H. unfold any_error. now rewrite no_error_first. Qed.

Lemma no_error_map : forall l, no_error l = true -> l = map GOk (the_exprs l).
Proof.
  induction l as [|g l IH]; intros H; [reflexivity|]. cbn in *. apply andb_prop in H as [H1 H2].
  destruct g; [|discriminate]. cbn. f_equal. auto.
Qed.

Lemma first_error_oks : forall l, first_error (map GOk l) = None.
Proof. induction l; cbn; auto. Qed.

Lemma sound_exprs_oks : forall l, sound_exprs (map GOk l) = l.
Proof. induction l; cbn; [reflexivity|]. unfold sound_exprs in IHl. now rewrite IHl. Qed.

Lemma sound_exprs_the : forall l, sound_exprs l = the_exprs l.
Proof. reflexivity. Qed.

(** ** Conditions *)

Lemma add_conditions_sound : forall ki b cs ch x cs',
  forallb sound_cnd cs = true -> sound_cnd x = true ->
  add_conditions ki b cs ch x = Some cs' -> forallb sound_cnd cs' = true.
Proof.
  intros ki b cs ch x cs' H X A. unfold add_conditions in A.
  destruct (compound_conditions x) as [inner|] eqn:C.
  - assert (I : forallb sound_cnd inner = true).
    { destruct x; cbn in C; inversion C; subst; cbn in X; auto; discriminate. }
    destruct inner as [|y inner]; [congruence|].
    destruct (b && has_op ch x)%bool; [destruct (can_be_flattened ch (y :: inner))|];
      inversion A; subst; rewrite forallb_app, H; [now rewrite I| |]; cbn; now rewrite X.
  - destruct b; inversion A; subst. rewrite forallb_app, H. cbn. now rewrite X.
Qed.

Lemma added_sound : forall ki cs ch x,
  forallb sound_cnd cs = true -> sound_cnd x = true -> forallb sound_cnd (added ki cs ch x) = true.
Proof.
  intros ki cs ch x H X. unfold added. destruct (add_conditions ki true cs ch x) eqn:A; [|assumption].
  eapply add_conditions_sound; eassumption.
Qed.

Lemma sound_no_err : forall c, sound_cnd c = true -> get_error c = None.
Proof. destruct c; cbn; intros; congruence. Qed.

Lemma create_sound : forall ks l o r, sound_cnd l = true -> sound_cnd r = true -> sound_cnd (create ks l o r) = true.
Proof.
  intros ks l o r L R. unfold create. rewrite (sound_no_err l), (sound_no_err r) by assumption.
  assert (A : forallb sound_cnd (added (ks 2) (added (ks 1) [] o l) o r) = true).
  { apply added_sound; [apply added_sound; [reflexivity|assumption]|assumption]. }
  destruct l; try discriminate; destruct r; try discriminate; exact A.
Qed.

Lemma add_sound : forall ks c o x, sound_cnd c = true -> sound_cnd x = true -> sound_cnd (add ks c o x) = true.
Proof.
  intros ks c o x C X. destruct c; try discriminate.
  - cbn. now apply added_sound.
  - cbn. now apply added_sound.
  - cbn. now apply added_sound.
  - cbn [add]. destruct (add_conditions (ks 3) (bop_eqb o0 o) cs o x) eqn:A.
    + cbn. eapply add_conditions_sound; [|exact X|exact A]. exact C.
    + now apply create_sound.
Qed.

Lemma condition_chain_sound : forall ks o c x, sound_cnd c = true -> sound_cnd x = true ->
  exists z, condition_chain ks o c x = Val z /\ sound_cnd z = true.
Proof.
  intros ks o c x C X.
  assert (Cr : sound_cnd (create ks c o x) = true) by now apply create_sound.
  assert (Ad : sound_cnd (add ks c o x) = true) by now apply add_sound.
  destruct c; try discriminate; eexists; (split; [reflexivity|]); assumption.
Qed.

Lemma chained_snoc : forall x l y, chained x l y -> forall ks o c z,
  condition_chain ks (bop_of_conn o) y c = Val z -> chained x (l ++ [(o, c)]) z.
Proof.
  induction 1 as [x|ks0 o0 x y z l Hc z' Hl IH]; intros ks o c w Hw; cbn.
  - exact (ch_more ks o x c w [] Hw w (ch_done w)).
  - exact (ch_more ks0 o0 x y z _ Hc _ (IH ks o c w Hw)).
Qed.

Definition rep_where (c : conditions) (x : cnd) : Prop :=
  match c with None => x = Nil | Some (y, l) => sound_cnd x = true /\ chained y l x end.

Lemma build_where_says : forall k c x, rep_where c x ->
  where_broken (build_where k x) = false /\ says_where c (where_expr (build_where k x)).
Proof.
  intros k c x H. destruct c as [[y l]|]; cbn in H; [|subst; now split].
  destruct H as [S H]. unfold build_where. destruct (build_condition x) as [z|] eqn:B.
  - assert (z = x) by (destruct x; cbn in B; try discriminate; [congruence|congruence|destruct cs; congruence]). subst z.
    rewrite S. cbn. split; [reflexivity|]. exists x. split; [assumption|]. right. split; [|now exists k].
    intros [E|[k' [o [n E]]]]; subst; discriminate.
  - cbn. split; [reflexivity|]. exists x. split; [assumption|]. left. split; [|reflexivity].
    destruct x; try discriminate; [now left|]. destruct cs; [|discriminate]. right. now exists k0, o, snap.
Qed.

Lemma rep_where_add : forall ks o y l x c, rep_where (Some (y, l)) x -> sound_cnd c = true ->
  exists z, condition_chain ks (bop_of_conn o) x c = Val z /\ rep_where (Some (y, l ++ [(o, c)])) z.
Proof.
  intros ks o y l x c [S H] C. destruct (condition_chain_sound ks (bop_of_conn o) x c S C) as [z [Z Sz]].
  exists z. split; [assumption|]. split; [assumption|]. eapply chained_snoc; eassumption.
Qed.

Lemma rep_where_first : forall c, sound_cnd c = true -> rep_where (Some (c, [])) c.
Proof. intros c H. split; [assumption|constructor]. Qed.

(** ** SET lists *)

Lemma pairs_no_operations : forall n l, length l <= n -> pairs l = true ->
  filter is_operation l = [] /\ filter (fun e => negb (is_operation e)) l = l /\ Nat.odd (length l) = false.
Proof.
  induction n; intros l L H; [destruct l; [repeat split|cbn in L; lia]|].
  destruct l as [|a [|b l]]; [repeat split|discriminate|]. cbn [pairs] in H.
  repeat (apply andb_prop in H as [H ?]). apply negb_true_iff in H, H3.
  destruct (IHn l) as [F1 [F2 F3]]; [cbn in L; lia|assumption|].
  cbn [filter]. rewrite H, H3. cbn [negb]. rewrite F1, F2. repeat split. cbn [length]. now rewrite Nat.odd_succ_succ.
Qed.

Lemma pair_up_ok : forall n ks l, length l <= n -> pairs l = true ->
  exists es, pair_up ks l = map GOk es /\ map item_of es = assignments l.
Proof.
  induction n; intros ks l L H; [destruct l; [now exists []|cbn in L; lia]|].
  destruct l as [|a [|b l]]; [now exists []|discriminate|]. cbn [pairs] in H.
  repeat (apply andb_prop in H as [H ?]). apply negb_true_iff in H, H1, H2, H3.
  destruct (IHn ks l) as [es [E1 E2]]; [cbn in L; lia|assumption|].
  exists (EOperation (ks (length l)) a SetProp b :: es). cbn [pair_up map]. unfold operation_set. rewrite H1, H2, E1.
  split; [reflexivity|]. rewrite E2. destruct a; cbn in H; try discriminate; reflexivity.
Qed.

Lemma prepare_set_ok : forall ks l, set_list l = true ->
  exists es, prepare_set ks l = Some (map GOk es) /\ map item_of es = assignments l.
Proof.
  intros ks. unfold prepare_set.
  assert (G : forall l, set_list l = true ->
    exists ops rest, l = ops ++ rest /\ forallb is_operation ops = true /\ pairs rest = true
      /\ assignments l = map item_of ops ++ assignments rest).
  { induction l as [|a l IH]; intros H; [now exists [], []|].
    destruct (is_operation a) eqn:A.
    - destruct a; try discriminate. cbn [set_list] in H. destruct (IH H) as [ops [rest [E [F [P As]]]]].
      exists (EOperation k a1 o a2 :: ops), rest. split; [cbn; now f_equal|]. split; [assumption|].
      split; [assumption|]. cbn [assignments]. rewrite As. reflexivity.
    - exists [], (a :: l). repeat split. destruct a; try discriminate; exact H. }
  intros l H. destruct (G l H) as [ops [rest [E [F [P As]]]]].
  destruct (pairs_no_operations (length rest) rest (le_n _) P) as [F1 [F2 F3]].
  destruct (pair_up_ok (length rest) ks rest (le_n _) P) as [es [E1 E2]].
  assert (Fo : filter is_operation ops = ops /\ filter (fun e => negb (is_operation e)) ops = []).
  { clear - F. induction ops as [|a ops IH]; [now split|]. cbn in *. apply andb_prop in F as [Fa F].
    rewrite Fa. cbn. destruct (IH F) as [I1 I2]. now rewrite I1. }
  destruct Fo as [Fo1 Fo2]. exists (ops ++ es). subst l. rewrite !filter_app, Fo1, Fo2, F1, F2, app_nil_r. cbn [app].
  rewrite F3, E1, map_app. split; [reflexivity|]. rewrite map_app, E2. now rewrite As.
Qed.

(** ** What the parts of a builder stand for *)

Definition rep_match (p : phrase) (m : match_builder) : Prop :=
  m_not_nil m = true /\ exists c, p = PMatch (m_optional m) (m_patterns m) c /\ rep_where c (m_cond m).

Definition rep_update (p : phrase) (u : update) : Prop :=
  match u with
  | UCreate (GOk e) => p = PCreate [e]
  | UMerge (GOk e) acts => exists l, p = PMerge [e] l /\ Forall2 says_action l acts
  | UClause (COk q) => says p q /\ match p with PDelete _ _ | PSet _ | PRemove _ => True | _ => False end
  | _ => False
  end.

Definition rep_call (p : phrase) (b : call_builder) : Prop :=
  exists n args ys c, p = PCall [n] args ys c /\ p_name b = (None, n)
    /\ match args with [] => p_args b = None | _ => p_args b = Some (map GOk args) end
    /\ match ys with [] => p_yield b = None | _ => exists k, p_yield b = Some (EYield k ys) end
    /\ rep_where c (p_cond b).

Definition ok_clause (p : phrase) (c : clause) : Prop := exists q, c = COk q /\ says p q.

Lemma build_match_ok : forall ks p m, rep_match p m -> ok_clause p (build_match ks m).
Proof.
  intros ks p m [_ [c [E W]]]. unfold build_match. destruct (build_where_says (ks 1) c _ W) as [B S].
  rewrite B. eexists. split; [reflexivity|]. subst p. cbn. split; [reflexivity|]. split; [now eexists|assumption].
Qed.

Lemma build_update_ok : forall ks p u, rep_update p u -> ok_clause p (build_update ks u).
Proof.
  intros ks p u H. destruct u as [[e|]|[e|] acts|[q| |]]; cbn in H; try contradiction.
  - subst p. eexists. split; [reflexivity|]. cbn. now eexists.
  - destruct H as [l [E F]]. subst p. eexists. split; [reflexivity|]. cbn. split; [now eexists|].
    eexists. eexists. split; [reflexivity|assumption].
  - eexists. split; [reflexivity|]. apply H.
Qed.

Lemma build_call_ok : forall ks p b, rep_call p b -> exists c, build_call ks b = inl c /\ ok_clause p c.
Proof.
  intros ks p b [n [args [ys [c [E [N [A [Y W]]]]]]]]. unfold build_call.
  destruct (build_where_says (ks 3) c _ W) as [B S]. rewrite N. cbn [fst snd].
  destruct args as [|a args]; rewrite A.
  - rewrite B. eexists. split; [reflexivity|]. eexists. split; [reflexivity|]. subst p. cbn.
    split; [reflexivity|]. split; [reflexivity|]. split; [now eexists|]. split; [|assumption]. destruct ys; assumption.
  - cbn [map]. change (first_error (GOk a :: map GOk args)) with (first_error (map GOk (a :: args))).
    rewrite first_error_oks. change (sound_exprs (GOk a :: map GOk args)) with (sound_exprs (map GOk (a :: args))).
    rewrite sound_exprs_oks, B. eexists. split; [reflexivity|]. eexists. split; [reflexivity|]. subst p. cbn.
    split; [reflexivity|]. split; [reflexivity|]. split; [now eexists|]. split; [|assumption]. destruct ys; assumption.
Qed.

Inductive rep_parts : list phrase -> list part -> Prop :=
| rp_nil : rep_parts [] []
| rp_snoc : forall ph ps phs cs b l s c k w, rep_parts ph ps -> Forall2 says phs cs -> says (PWith b l s c) w ->
    rep_parts (ph ++ phs ++ [PWith b l s c]) (ps ++ [POk k cs w]).

(** No clause under construction. *)
Definition closed (d : dbuilder) (ph : list phrase) : Prop :=
  d_err d = None /\ m_not_nil (d_match d) = false /\ d_update d = None /\ d_call d = None
  /\ exists ph1 ph2, ph = ph1 ++ ph2 /\ rep_parts ph1 (d_parts d) /\ Forall2 ok_clause ph2 (d_elements d).

Definition open_match (d : dbuilder) (ph : list phrase) : Prop :=
  exists ph' p, ph = ph' ++ [p] /\ closed (set_match d no_match) ph' /\ rep_match p (d_match d).

Definition unset_update (d : dbuilder) : dbuilder :=
  DB (d_err d) (d_elements d) (d_parts d) (d_match d) None (d_call d).
Definition unset_call (d : dbuilder) : dbuilder :=
  DB (d_err d) (d_elements d) (d_parts d) (d_match d) (d_update d) None.

Definition open_update (d : dbuilder) (ph : list phrase) : Prop :=
  exists ph' p u, ph = ph' ++ [p] /\ closed (unset_update d) ph' /\ d_update d = Some u /\ rep_update p u
    /\ match p with PDelete _ _ | PCreate _ | PMerge _ _ => True | _ => False end.

Definition open_call (d : dbuilder) (ph : list phrase) : Prop :=
  exists ph' p b, ph = ph' ++ [p] /\ closed (unset_call d) ph' /\ d_call d = Some b /\ rep_call p b.

(** Phrases that may be the last while no clause is under construction. *)
Definition settled (ph : list phrase) : Prop :=
  match last_phrase ph with
  | Some (PMatch _ _ _) | Some (PCreate _) | Some (PMerge _ _) | Some (PDelete _ _) | Some (PCall _ _ _ _) => False
  | _ => True
  end.

(** At most one clause is under construction. *)
Definition rep (d : dbuilder) (ph : list phrase) : Prop :=
  (closed d ph /\ settled ph) \/ open_match d ph \/ open_update d ph \/ open_call d ph.

(** A match at most. *)
Definition prep (d : dbuilder) (ph : list phrase) : Prop := closed d ph \/ open_match d ph.

Lemma Forall2_snoc : forall A B (R : A -> B -> Prop) l l' a b, Forall2 R l l' -> R a b -> Forall2 R (l ++ [a]) (l' ++ [b]).
Proof. intros. apply Forall2_app; [assumption|]. now constructor. Qed.

Lemma closed_add : forall d ph p c, closed d ph -> ok_clause p c -> closed (with_elements d (d_elements d ++ [c])) (ph ++ [p]).
Proof.
  intros d ph p c [E [M [U [C [ph1 [ph2 [P [P1 P2]]]]]]]] K. repeat (split; [assumption|]).
  exists ph1, (ph2 ++ [p]). split; [subst; now rewrite app_assoc|]. split; [assumption|]. now apply Forall2_snoc.
Qed.

(** ** Closing *)

Lemma close_match_closed : forall ks d ph, closed d ph -> close_match ks d = d.
Proof. intros ks d ph (_ & M & _). unfold close_match. now rewrite M. Qed.
Lemma close_call_closed : forall ks d, d_call d = None -> close_call ks d = d.
Proof. intros ks d C. unfold close_call. now rewrite C. Qed.
Lemma close_update_closed : forall ks d, d_update d = None -> close_update ks d = d.
Proof. intros ks d C. unfold close_update. now rewrite C. Qed.

Lemma close_match_open : forall ks d ph, open_match d ph -> closed (close_match ks d) ph.
Proof.
  intros ks d ph [ph' [p [E [C M]]]]. pose proof (build_match_ok ks p _ M) as K. unfold close_match.
  rewrite (proj1 M). subst ph. exact (closed_add _ _ _ _ C K).
Qed.

Lemma close_update_open : forall ks d ph, open_update d ph -> closed (close_update ks d) ph.
Proof.
  intros ks d ph [ph' [p [u [E [C [Eu [R _]]]]]]]. pose proof (build_update_ok ks p _ R) as K. unfold close_update.
  rewrite Eu. subst ph. exact (closed_add _ _ _ _ C K).
Qed.

Lemma close_call_open : forall ks d ph, open_call d ph -> closed (close_call ks d) ph.
Proof.
  intros ks d ph [ph' [p [b [E [C [Eb R]]]]]]. destruct (build_call_ok ks p _ R) as [c [B K]]. unfold close_call.
  rewrite Eb, B. subst ph. exact (closed_add _ _ _ _ C K).
Qed.

Lemma open_match_fields : forall d ph, open_match d ph -> d_err d = None /\ d_update d = None /\ d_call d = None.
Proof. intros d ph [ph' [p [_ [(E & _ & U & C & _) _]]]]. repeat split; assumption. Qed.
Lemma open_update_fields : forall d ph, open_update d ph -> d_err d = None /\ m_not_nil (d_match d) = false /\ d_call d = None.
Proof. intros d ph [ph' [p [u [_ [(E & M & U & C & _) _]]]]]. repeat split; assumption. Qed.
Lemma open_call_fields : forall d ph, open_call d ph -> d_err d = None /\ m_not_nil (d_match d) = false /\ d_update d = None.
Proof. intros d ph [ph' [p [u [_ [(E & M & U & C & _) _]]]]]. repeat split; assumption. Qed.
Lemma close_match_none : forall ks d, m_not_nil (d_match d) = false -> close_match ks d = d.
Proof. intros ks d H. unfold close_match. now rewrite H. Qed.

Lemma closed_fields : forall d ph, closed d ph ->
  d_err d = None /\ m_not_nil (d_match d) = false /\ d_update d = None /\ d_call d = None.
Proof. intros d ph (E & M & U & C & _). repeat split; assumption. Qed.

(** The orders of closing of the methods. *)
Lemma close_all_mcu : forall k1 k2 k3 d ph, rep d ph ->
  closed (close_update k3 (close_call k2 (close_match k1 d))) ph.
Proof.
  intros k1 k2 k3 d ph [[C _]|[O|[O|O]]].
  - destruct (closed_fields _ _ C) as (E & M & U & K). rewrite close_match_none, close_call_closed, close_update_closed; assumption.
  - pose proof (close_match_open k1 d ph O) as C. destruct (closed_fields _ _ C) as (E & M & U & K).
    rewrite close_call_closed, close_update_closed; assumption.
  - destruct (open_update_fields _ _ O) as (E & M & K). rewrite close_match_none, close_call_closed by assumption.
    now apply close_update_open.
  - destruct (open_call_fields _ _ O) as (E & M & K). rewrite close_match_none by assumption.
    pose proof (close_call_open k2 d ph O) as C. destruct (closed_fields _ _ C) as (E' & M' & U' & K').
    rewrite close_update_closed; assumption.
Qed.

Lemma close_all_cmu : forall k1 k2 k3 d ph, rep d ph ->
  closed (close_update k3 (close_match k2 (close_call k1 d))) ph.
Proof.
  intros k1 k2 k3 d ph [[C _]|[O|[O|O]]].
  - destruct (closed_fields _ _ C) as (E & M & U & K). rewrite close_call_closed, close_match_none, close_update_closed; assumption.
  - destruct (open_match_fields _ _ O) as (E & U & K). rewrite close_call_closed by assumption.
    pose proof (close_match_open k2 d ph O) as C. destruct (closed_fields _ _ C) as (E' & M' & U' & K').
    rewrite close_update_closed; assumption.
  - destruct (open_update_fields _ _ O) as (E & M & K). rewrite close_call_closed, close_match_none by assumption.
    now apply close_update_open.
  - pose proof (close_call_open k1 d ph O) as C. destruct (closed_fields _ _ C) as (E' & M' & U' & K').
    rewrite close_match_none, close_update_closed; assumption.
Qed.

(** Phrases under construction as an update. *)
Definition updating (p : option phrase) : bool :=
  match p with Some (PCreate _ | PMerge _ _ | PDelete _ _) => true | _ => false end.
Definition calling (p : option phrase) : bool :=
  match p with Some (PCall _ _ _ _) => true | _ => false end.

Lemma rep_no_update : forall d ph, rep d ph -> updating (last_phrase ph) = false -> prep d ph \/ open_call d ph.
Proof.
  intros d ph [[C _]|[O|[O|O]]] U; [left; now left|left; now right| |now right].
  destruct O as (ph' & p & u & E & _ & _ & _ & K). subst ph. rewrite last_phrase_snoc in U.
  destruct p; try contradiction; discriminate.
Qed.

Lemma rep_no_call : forall d ph, rep d ph -> calling (last_phrase ph) = false -> prep d ph \/ open_update d ph.
Proof.
  intros d ph [[C _]|[O|[O|O]]] U; [left; now left|left; now right|now right|].
  destruct O as (ph' & p & u & E & _ & _ & R). subst ph. rewrite last_phrase_snoc in U.
  destruct R as (n & args & ys & c & -> & _). discriminate.
Qed.

Lemma rep_prep : forall d ph, rep d ph -> updating (last_phrase ph) = false -> calling (last_phrase ph) = false -> prep d ph.
Proof.
  intros d ph R U C. destruct (rep_no_update _ _ R U) as [P|O]; [assumption|].
  destruct O as (ph' & p & u & E & _ & _ & R'). subst ph. rewrite last_phrase_snoc in C.
  destruct R' as (n & args & ys & c & -> & _). discriminate.
Qed.

Lemma close_mc : forall k1 k2 d ph, rep d ph -> updating (last_phrase ph) = false ->
  closed (close_call k2 (close_match k1 d)) ph.
Proof.
  intros k1 k2 d ph R U. destruct (rep_no_update _ _ R U) as [[C|O]|O].
  - destruct (closed_fields _ _ C) as (E & M & U' & K). rewrite close_match_none, close_call_closed; assumption.
  - pose proof (close_match_open k1 d ph O) as C. destruct (closed_fields _ _ C) as (E & M & U' & K).
    rewrite close_call_closed; assumption.
  - destruct (open_call_fields _ _ O) as (E & M & K). rewrite close_match_none by assumption. now apply close_call_open.
Qed.

Lemma close_m : forall ks d ph, prep d ph -> closed (close_match ks d) ph.
Proof.
  intros ks d ph [C|O]; [|now apply close_match_open]. destruct (closed_fields _ _ C) as (E & M & U' & K).
  now rewrite close_match_none.
Qed.

Lemma rep_err : forall d ph, rep d ph -> d_err d = None.
Proof.
  intros d ph [[C _]|[O|[O|O]]];
    [apply (closed_fields _ _ C)|apply (open_match_fields _ _ O)|apply (open_update_fields _ _ O)|apply (open_call_fields _ _ O)].
Qed.

Lemma prep_err : forall d ph, prep d ph -> d_err d = None.
Proof. intros d ph [C|O]; [apply (closed_fields _ _ C)|apply (open_match_fields _ _ O)]. Qed.

(** All clauses of the current part. *)
Lemma build_list_ok : forall ks d ph, rep d ph ->
  exists ph1 ph2 cs, ph = ph1 ++ ph2 /\ rep_parts ph1 (d_parts d) /\ build_list ks d = inl (map COk cs) /\ Forall2 says ph2 cs.
Proof.
  assert (G : forall ph l, Forall2 ok_clause ph l -> exists cs, l = map COk cs /\ Forall2 says ph cs).
  { induction 1 as [|p c ph l [q [E Hs]] _ [cs [El F]]]; [exists []; now split|].
    exists (q :: cs). subst. split; [reflexivity|]. now constructor. }
  intros ks d ph R. unfold build_list. destruct R as [[C _]|[O|[O|O]]].
  - destruct C as (E & M & U & K & ph1 & ph2 & P & P1 & P2). rewrite M, U, K. cbn [app]. rewrite app_nil_r.
    destruct (G _ _ P2) as [cs [El F]]. exists ph1, ph2, cs. rewrite El. now split.
  - destruct O as (ph' & p & P & C & Mm). pose proof (build_match_ok (block ks 0) p _ Mm) as B.
    destruct C as (E & _ & U & K & ph1 & ph2 & P' & P1 & P2). cbn in E, U, K, P1, P2. rewrite (proj1 Mm), U, K.
    destruct (G (ph2 ++ [p]) (d_elements d ++ [build_match (block ks 0) (d_match d)])) as [cs [El F]]; [now apply Forall2_snoc|].
    exists ph1, (ph2 ++ [p]), cs. cbn [app]. rewrite El. split; [subst; now rewrite app_assoc|now split].
  - destruct O as (ph' & p & u & P & C & Eu & R & _). pose proof (build_update_ok (block ks 1) p _ R) as B.
    destruct C as (E & M & _ & K & ph1 & ph2 & P' & P1 & P2). cbn in E, M, K, P1, P2. rewrite M, Eu, K.
    destruct (G (ph2 ++ [p]) (d_elements d ++ [build_update (block ks 1) u])) as [cs [El F]]; [now apply Forall2_snoc|].
    exists ph1, (ph2 ++ [p]), cs. cbn [app]. rewrite El. split; [subst; now rewrite app_assoc|now split].
  - destruct O as (ph' & p & b & P & C & Eb & R). destruct (build_call_ok (block ks 2) p _ R) as [c [Bc B]].
    destruct C as (E & M & U & _ & ph1 & ph2 & P' & P1 & P2). cbn in E, M, U, P1, P2. rewrite M, U, Eb, Bc.
    destruct (G (ph2 ++ [p]) (d_elements d ++ [c])) as [cs [El F]]; [now apply Forall2_snoc|].
    exists ph1, (ph2 ++ [p]), cs. cbn [app]. rewrite app_nil_r, El. split; [subst; now rewrite app_assoc|now split].
Qed.

(** ** Sorting, RETURN and WITH *)

Definition sort_item (s : sort) : list (expr * option bool) := match s with Sort _ e d => [(e, d)] | _ => [] end.

(** The builder holds the sorting of the phrase; [pending] if the direction of
    the last expression is still open. *)
Definition rep_order (pending : bool) (s : sorting) (o : order_builder) : Prop :=
  forallb sound_sort (o_items o) = true
  /\ s_items s = flat_map sort_item (o_items o) ++ match o_last o with Some x => sort_item x | None => [] end
  /\ (match o_last o with
      | None => pending = false
      | Some x => pending = true /\ exists k e, x = Sort k e None
      end)
  /\ o_skip o = s_skip s /\ o_limit o = s_limit s.

Lemma rep_order_new : rep_order false unsorted no_order.
Proof. repeat split. Qed.

Definition all_items (o : order_builder) : list sort :=
  o_items o ++ match o_last o with Some (Sort k e d) => [Sort k e d] | _ => [] end.

Lemma build_order_ok : forall k b s o, rep_order b s o ->
  ordering_broken (build_order k o) = false
  /\ match s_items s with
     | [] => ordering_expr (build_order k o) = None
     | l => exists k' es, ordering_expr (build_order k o) = Some (EOrder k' es) /\ Forall2 says_sort l es
     end.
Proof.
  intros k b s o (So & It & La & _ & _).
  assert (L : forallb sound_sort (all_items o) = true /\ flat_map sort_item (all_items o) = s_items s).
  { unfold all_items. rewrite forallb_app, So, flat_map_app, It. destruct (o_last o) as [x|]; [|now split].
    destruct La as [_ (k' & e & ->)]. now split. }
  unfold build_order. fold (all_items o). clear So It La. destruct L as [L1 <-].
  assert (N1 : existsb (fun s => match s with SortErr _ => true | _ => false end) (all_items o) = false
            /\ existsb (fun s => match s with SortNil => true | _ => false end) (all_items o) = false).
  { induction (all_items o) as [|y m IH]; [now split|]. cbn in *. apply andb_prop in L1 as [Ly L1].
    destruct y; try discriminate. cbn. auto. }
  assert (F : Forall2 says_sort (flat_map sort_item (all_items o))
    (flat_map (fun s => match s with Sort k e d => [ESort k e d] | _ => [] end) (all_items o))).
  { clear N1. induction (all_items o) as [|y m IH]; [constructor|]. cbn in *. apply andb_prop in L1 as [Ly L1].
    destruct y; try discriminate. cbn. constructor; [now exists k0|auto]. }
  destruct (all_items o) as [|x l]; [now split|]. destruct N1 as [N1 N2]. rewrite N1, N2. split; [reflexivity|].
  destruct x as [kx ex dx| |]; try discriminate. cbn [flat_map sort_item app] in *.
  refine (ex_intro _ k (ex_intro _ _ (conj eq_refl F))).
Qed.

Definition pending_after (b : bool) (c : call) : bool :=
  match c with OrderBy _ | Then _ => true | Skip _ | Limit _ => b | _ => false end.
Definition sorts (c : call) : bool :=
  match c with OrderItems _ | OrderBy _ | Then _ | Descending | Ascending | Skip _ | Limit _ => true | _ => false end.
Definition needs_pending (b : bool) (c : call) : bool :=
  match c with Descending | Ascending => b | OrderItems _ | OrderBy _ | Then _ => negb b | _ => true end.

Lemma direct_last : forall l e d sk li b, direct (Sorting (l ++ [(e, d)]) sk li) b = Sorting (l ++ [(e, Some b)]) sk li.
Proof. intros. unfold direct. cbn. rewrite rev_app_distr. cbn. now rewrite rev_involutive. Qed.

Lemma order_step_ok : forall ks b s o c, rep_order b s o -> sorts c = true -> sound_args c = true ->
  needs_pending b c = true ->
  exists o', order_step ks o c = Some o' /\ rep_order (pending_after b c) (sort_completed s c) o'.
Proof.
  intros ks b s o c (So & It & La & Sk & Li) Hc A N. destruct c; try discriminate; cbn [order_step];
    (eexists; split; [reflexivity|]); cbn [pending_after sort_completed]; cbn [sound_args] in A; cbn [needs_pending] in N.
  - (* OrderItems *)
    destruct (o_last o) as [x|] eqn:Lo; [destruct La as [-> _]; discriminate|].
    unfold rep_order, order_items. cbn. rewrite Lo, forallb_app, So, A, It, flat_map_app, !app_nil_r. repeat split; assumption.
  - (* OrderBy *)
    destruct (o_last o) as [x|] eqn:Lo; [destruct La as [-> _]; discriminate|].
    destruct e as [e|]; [|discriminate]. unfold rep_order, order_by, sort_by. cbn. rewrite It, app_nil_r.
    repeat split; try assumption. now exists (ks 0), e.
  - destruct (o_last o) as [x|] eqn:Lo; [destruct La as [-> _]; discriminate|].
    destruct e as [e|]; [|discriminate]. unfold rep_order, order_by, sort_by. cbn. rewrite It, app_nil_r.
    repeat split; try assumption. now exists (ks 0), e.
  - (* Descending *)
    destruct (o_last o) as [x|] eqn:Lo; [|subst; discriminate]. destruct La as [_ (k & e & ->)].
    destruct s as [its sk li]. cbn in It, Sk, Li. subst its. cbn [sort_item].
    unfold rep_order, order_descending. rewrite Lo, direct_last. cbn. rewrite forallb_app, So, flat_map_app, app_nil_r.
    repeat split; assumption.
  - destruct (o_last o) as [x|] eqn:Lo; [|subst; discriminate]. destruct La as [_ (k & e & ->)].
    destruct s as [its sk li]. cbn in It, Sk, Li. subst its. cbn [sort_item].
    unfold rep_order, order_ascending. rewrite Lo, direct_last. cbn. rewrite forallb_app, So, flat_map_app, app_nil_r.
    repeat split; assumption.
  - (* Skip *) unfold rep_order, order_skip. cbn. repeat split; assumption.
  - (* Limit *) unfold rep_order, order_limit. cbn. apply negb_true_iff in A. rewrite A. repeat split; assumption.
Qed.

Lemma body_create_ok : forall ks b s o l k, rep_order b s o -> says_body l s (body_create ks (EExprs k l) o).
Proof.
  intros ks b s o l k R. split; [now exists k|]. destruct (build_order_ok (ks 0) b s o R) as [_ O].
  destruct R as (_ & _ & _ & Sk & Li). unfold says_sorting, body_create. cbn [b_order b_skip b_limit]. split; [exact O|].
  rewrite Sk, Li. split; [destruct (s_skip s)|destruct (s_limit s)]; try reflexivity; cbn; do 2 eexists; reflexivity.
Qed.

Lemma nonempty_map : forall A B (f : A -> B) l, nonempty l = true -> exists x m, map f l = x :: m.
Proof. intros A B f l H. destruct l as [|x m]; [discriminate|]. now exists (f x), (map f m). Qed.

Lemma any_error_oks : forall l, any_error (map GOk l) = false.
Proof. intros l. unfold any_error. now rewrite first_error_oks. Qed.

Lemma build_return_ok : forall ks b s o d l, rep_order b s o -> nonempty l = true ->
  exists q, build_return ks d (map GOk l) o = Return q /\ says (PReturn d l s) q.
Proof.
  intros ks b s o d l R L. unfold build_return. destruct (nonempty_map _ _ GOk l L) as [x [m E]]. rewrite E, <- E.
  rewrite any_error_oks, sound_exprs_oks. destruct (build_order_ok (ks 1) b s o R) as [B _]. rewrite B. cbn [orb].
  eexists. split; [reflexivity|]. cbn. split; [reflexivity|]. now apply body_create_ok with b.
Qed.

Lemma build_with_ok : forall ks b s o c x d l, rep_order b s o -> nonempty l = true -> rep_where c x ->
  exists q, build_with ks d (map GOk l) o x = Some (COk q) /\ says (PWith d l s c) q.
Proof.
  intros ks b s o c x d l R L W. unfold build_with. destruct (nonempty_map _ _ GOk l L) as [y [m E]]. rewrite E, <- E.
  rewrite any_error_oks, sound_exprs_oks. destruct (build_order_ok (ks 3) b s o R) as [B _]. rewrite B.
  destruct (build_where_says (ks 2) c x W) as [Bw Sw]. rewrite Bw. cbn [orb].
  eexists. split; [reflexivity|]. cbn. split; [reflexivity|]. split; [now apply body_create_ok with b|assumption].
Qed.

(** ** The states that the interfaces stand for *)

Definition updated (u : ubuilder) (ph : list phrase) : Prop :=
  u_err u = None /\ exists d up ph' p, u_default u = Some d /\ u_update u = Some up /\ ph = ph' ++ [p] /\ prep d ph'
    /\ rep_update p up /\ match p with PSet _ | PRemove _ => True | _ => False end.

Definition returned (b : bool) (s : state) (ph : list phrase) : Prop :=
  exists ph' dist l srt, ph = ph' ++ [PReturn dist l srt] /\ nonempty l = true
    /\ ((exists r d, s = R r /\ r_err r = None /\ r_default r = Some d /\ rep d ph' /\ r_items r = map GOk l
           /\ r_distinct r = dist /\ rep_order b srt (r_order r))
        \/ (exists u, s = U u /\ updated u ph' /\ u_returns u = map GOk l /\ u_distinct u = dist
              /\ rep_order b srt (u_order u))).

Definition withed (b : bool) (s : state) (ph : list phrase) : Prop :=
  exists w d ph' dist l srt c, s = W w /\ w_err w = None /\ w_default w = Some d /\ ph = ph' ++ [PWith dist l srt c]
    /\ rep d ph' /\ w_items w = map GOk l /\ nonempty l = true /\ w_distinct w = dist /\ rep_where c (w_cond w)
    /\ rep_order b srt (w_order w).

Definition last_is (f : phrase -> Prop) (ph : list phrase) : Prop :=
  match last_phrase ph with Some p => f p | None => False end.

Definition agrees (i : iface) (s : state) (ph : list phrase) : Prop :=
  match i with
  | IStart => False
  | IReadingWithoutWhere =>
      exists d, s = D d /\ rep d ph
        /\ last_is (fun p => match p with PMatch _ _ _ | PSubquery _ => True | _ => False end) ph
  | IReading => exists d, s = D d /\ rep d ph /\ last_is (fun p => match p with PUnwind _ _ => True | _ => False end) ph
  | IReadingWithWhere =>
      exists d, s = D d /\ rep d ph
        /\ last_is (fun p => match p with PMatch _ _ (Some _) | PCall _ _ _ _ => True | _ => False end) ph
  | IUpdate => exists d, s = D d /\ rep d ph /\ last_is (fun p => match p with PDelete _ _ => True | _ => False end) ph
  | IUpdateAndSet =>
      exists d, s = D d /\ rep d ph /\ last_is (fun p => match p with PCreate _ | PMerge _ _ => True | _ => False end) ph
  | IMergeAction => exists d, s = D d /\ rep d ph /\ last_is (fun p => match p with PMerge _ _ => True | _ => False end) ph
  | IMatchAndUpdate =>
      exists u, s = U u /\ updated u ph /\ u_returns u = [] /\ u_distinct u = false /\ u_order u = no_order
  | IReadingAndReturn | IReturnWithOrder => returned false s ph
  | ITerminalOrder => returned true s ph
  | ITerminalLimit | IBuildable => exists b, returned b s ph
  | IWithWithoutWhere | IWithWithWhere | IWithAndOrder => withed false s ph
  | IOrderDefinition => withed true s ph
  | IReadingAndWith | ISkipped => exists b, withed b s ph
  | ICallWithoutArgs | ICallWithArgs | ICallWithFields =>
      exists d b ph' p, s = I (inl d) b /\ ph = ph' ++ [p] /\ closed (unset_call d) ph' /\ rep_call p b
  | IAloneWithoutArgs | IAloneWithFields => exists b p, s = S b /\ ph = [p] /\ rep_call p b
  end.

(** ** Calls of the default builder that start a phrase *)

(** The interface that a call that starts a phrase returns. *)
Definition target (c : call) : option iface := offered (reading ++ [exposes_match]) c.

(** Calls that do not complete an update under construction. *)
Definition leaves_update (c : call) : bool :=
  match c with
  | Match _ _ | Proc _ | Unwind _ _ | SetLabels _ _ | RemoveLabels _ _ | RemoveItems _ => true
  | _ => false
  end.

Lemma write_start : forall ph c p, starts c = Some p -> write_call ph c = ph ++ [p].
Proof. intros ph c p H. unfold write_call. now rewrite H. Qed.

Lemma update_ok : forall ks d ph t l p, rep d ph ->
  (exists u, updating_clause_builder (block ks 3) t l = inl u /\ rep_update p u) ->
  match p with PDelete _ _ | PCreate _ | PMerge _ _ => True | _ => False end ->
  rep (d_update_with ks d t l) (ph ++ [p]).
Proof.
  intros ks d ph t l p R (u & Eu & Ru) K. right. right. left. unfold d_update_with. rewrite Eu.
  pose proof (close_all_mcu (block ks 0) (block ks 1) (block ks 2) d ph R) as C.
  exists ph, p, u. split; [reflexivity|]. split; [|now split]. unfold unset_update. cbn.
  destruct C as (E & M & U' & K' & X). repeat (split; [assumption || reflexivity|]). exact X.
Qed.

Lemma single_gval : forall l, no_error l = true -> length l = 1 -> exists e, l = [GOk e] /\ the_exprs l = [e].
Proof.
  intros l N L. destruct l as [|g [|h l]]; try discriminate. destruct g as [e|]; [|discriminate]. now exists e.
Qed.

Lemma combine_snd : forall A (l : list A) (f : nat -> key), map snd (combine (map f (seq 0 (length l))) l) = l.
Proof.
  intros A l f. generalize 0. induction l as [|a l IH]; intros n; [reflexivity|]. cbn. now rewrite IH.
Qed.

Lemma set_clause_ok : forall ks l, no_error l = true -> set_list (the_exprs l) = true ->
  exists u, updating_clause_builder ks TSet l = inl u /\ rep_update (PSet (assignments (the_exprs l))) u.
Proof.
  intros ks l N Sl. cbn [updating_clause_builder]. rewrite sound_exprs_the.
  destruct (prepare_set_ok (fun n => ks (2 + n)) _ Sl) as [es [E1 E2]]. rewrite E1.
  unfold expression_list_create. rewrite first_error_oks, sound_exprs_oks. eexists. split; [reflexivity|].
  cbn. split; [|exact Logic.I]. now exists (ks 1), es.
Qed.

Lemma u_create_ok : forall ks d ph t l p u, prep d ph -> no_error l = true ->
  updating_clause_builder ks t l = inl u -> rep_update p u ->
  match p with PSet _ | PRemove _ => True | _ => False end ->
  u_create ks d t l = UB None (Some d) (Some u) [] false no_order
  /\ updated (UB None (Some d) (Some u) [] false no_order) (ph ++ [p]).
Proof.
  intros ks d ph t l p u P N Eu Ru K. unfold u_create. rewrite (prep_err _ _ P), (no_error_first _ N), Eu.
  split; [reflexivity|]. split; [reflexivity|]. exists d, u, ph, p. repeat (split; [reflexivity || assumption|]). assumption.
Qed.

Lemma label_set : forall ka kb k n ls, nonempty ls = true ->
  exists u g, [label_operation ka SetLabel (NodeNamed k n) ls] = [GOk g]
    /\ updating_clause_builder kb TSet [GOk g] = inl u /\ rep_update (PSet [Labels n ls]) u.
Proof.
  intros ka kb k n ls H. unfold label_operation. destruct ls as [|l ls]; [discriminate|]. do 2 eexists. split; [reflexivity|].
  split; [reflexivity|]. split; [|exact Logic.I]. eexists. eexists. split; [reflexivity|].
  transitivity [Labels n (map snd (combine (map (fun i => ka (2 + i)) (seq 0 (length (l :: ls)))) (l :: ls)))]; [reflexivity|].
  now rewrite combine_snd.
Qed.

Lemma label_remove : forall ka kb o k n ls, nonempty ls = true -> o = SetLabel \/ o = RemoveLabel ->
  exists u g, [label_operation ka o (NodeNamed k n) ls] = [GOk g]
    /\ updating_clause_builder kb TRemove [GOk g] = inl u /\ rep_update (PRemove [Labels n ls]) u.
Proof.
  intros ka kb o k n ls H O. unfold label_operation. destruct ls as [|l ls]; [discriminate|]. do 2 eexists. split; [reflexivity|].
  split; [reflexivity|]. cbn [rep_update remove_create expression_list_create first_error error_of].
  split; [|exact Logic.I]. cbn [says says_items]. eexists. eexists. split; [reflexivity|].
  destruct O; subst o; cbn [map sound_exprs flat_map app item_of]; do 2 f_equal; apply combine_snd.
Qed.

Lemma closed_open_call : forall d ph b p, closed d ph -> rep_call p b ->
  open_call (DB (d_err d) (d_elements d) (d_parts d) (d_match d) (d_update d) (Some b)) (ph ++ [p]).
Proof.
  intros d ph b p (E & M & U' & K & X) R. exists ph, p, b. split; [reflexivity|]. split; [|now split].
  unfold unset_call. cbn. repeat (split; [assumption || reflexivity|]). exact X.
Qed.

Lemma d_starts : forall ks d ph c i, rep d ph -> sound_args c = true -> fits (last_phrase ph) c = true ->
  target c = Some i -> (leaves_update c = true -> updating (last_phrase ph) = false) ->
  exists s, d_step ks d c = Some (Returns s) /\ agrees i s (write_call ph c).
Proof.
  intros ks d ph c i R A F T N. pose proof (rep_err _ _ R) as E.
  destruct c; cbn in T; inversion T; subst i; clear T; cbn [sound_args] in A; unfold d_step; rewrite E.
  - (* Match *)
    rewrite (no_error_first _ A). eexists. split; [reflexivity|]. unfold write_call; cbn [starts].
    eexists. split; [reflexivity|]. split; [|unfold last_is; now rewrite last_phrase_snoc].
    right. left. pose proof (close_mc (block ks 0) (block ks 1) d ph R (N eq_refl)) as (E' & M & U' & K & X).
    exists ph, (PMatch optional (the_exprs patterns) None). split; [reflexivity|]. split.
    + repeat (split; [assumption || reflexivity|]). exact X.
    + split; [reflexivity|]. exists None. now split.
  - (* With *)
    apply andb_prop in A as [A1 A2]. rewrite (no_error_first _ A1). eexists. split; [reflexivity|].
    unfold write_call; cbn [starts]. do 7 eexists. split; [reflexivity|]. split; [reflexivity|].
    split; [reflexivity|]. split; [reflexivity|]. split; [exact R|]. split; [now apply no_error_map|].
    split; [rewrite (no_error_map _ A1) in A2; destruct (the_exprs items); [discriminate|reflexivity]|].
    split; [reflexivity|]. split; [reflexivity|exact rep_order_new].
  - (* Returning *)
    apply andb_prop in A as [A1 A2]. rewrite (no_error_first _ A1). eexists. split; [reflexivity|].
    unfold write_call; cbn [starts]. do 4 eexists. split; [reflexivity|].
    split; [rewrite (no_error_map _ A1) in A2; destruct (the_exprs items); [discriminate|reflexivity]|].
    left. do 2 eexists. split; [reflexivity|]. split; [reflexivity|]. split; [reflexivity|]. split; [exact R|].
    split; [now apply no_error_map|]. split; [reflexivity|exact rep_order_new].
  - (* Delete *)
    rewrite (no_error_first _ A). eexists. split; [reflexivity|]. unfold write_call; cbn [starts].
    eexists. split; [reflexivity|]. split; [|unfold last_is; now rewrite last_phrase_snoc].
    apply update_ok; [assumption| |exact Logic.I]. cbn [updating_clause_builder]. unfold expression_list_create.
    rewrite (no_error_first _ A). eexists. split; [reflexivity|]. cbn. split; [|exact Logic.I]. split; [reflexivity|].
    now eexists.
  - (* Create *)
    apply andb_prop in A as [A1 A2]. apply Nat.eqb_eq in A2. rewrite (no_error_first _ A1).
    destruct (single_gval _ A1 A2) as [e [El Et]]. eexists. split; [reflexivity|]. unfold write_call; cbn [starts].
    eexists. split; [reflexivity|]. split; [|unfold last_is; now rewrite last_phrase_snoc].
    apply update_ok; [assumption| |exact Logic.I]. rewrite Et. subst patterns. eexists. split; [reflexivity|reflexivity].
  - (* Merge *)
    apply andb_prop in A as [A1 A2]. apply Nat.eqb_eq in A2. rewrite (no_error_first _ A1).
    destruct (single_gval _ A1 A2) as [e [El Et]]. eexists. split; [reflexivity|]. unfold write_call; cbn [starts].
    eexists. split; [reflexivity|]. split; [|unfold last_is; now rewrite last_phrase_snoc].
    apply update_ok; [assumption| |exact Logic.I]. rewrite Et. subst patterns. eexists. split; [reflexivity|].
    exists []. now split.
  - (* Set *)
    apply andb_prop in A as [A1 A2]. rewrite (no_error_first _ A1).
    destruct (set_clause_ok (block ks 1) _ A1 A2) as [u [Eu Ru]].
    assert (P : prep (close_update (block ks 0) d) ph).
    { destruct (rep_no_call _ _ R) as [P|O].
      - destruct (last_phrase ph) as [[]|]; try reflexivity; discriminate.
      - destruct P as [C|O]; [destruct (closed_fields _ _ C) as (? & ? & ? & ?)|destruct (open_match_fields _ _ O) as (? & ? & ?)];
          rewrite close_update_closed by assumption; [now left|now right].
      - left. now apply close_update_open. }
    destruct (u_create_ok _ _ ph _ _ _ u P A1 Eu Ru Logic.I) as [Ec Up]. rewrite Ec. eexists. split; [reflexivity|].
    unfold write_call; cbn [starts]. eexists. split; [reflexivity|]. split; [exact Up|]. repeat split.
  - (* SetByNode *)
    apply andb_prop in A as [A1 A2]. destruct node as [k n| |]; try discriminate.
    destruct (label_set (block ks 0) (block ks 1) k n _ A1) as (u & g & Eg & Eu & Ru). rewrite Eg.
    assert (P : prep d ph).
    { apply rep_prep; [assumption|now apply N|]. destruct (last_phrase ph) as [[]|]; try reflexivity; discriminate. }
    destruct (u_create_ok _ _ ph _ [GOk g] _ u P eq_refl Eu Ru Logic.I) as [Ec Up]. rewrite Ec. eexists. split; [reflexivity|].
    unfold write_call; cbn [starts]. eexists. split; [reflexivity|]. split; [exact Up|]. repeat split.
  - (* RemoveByNode *)
    apply andb_prop in A as [A1 A2]. destruct node as [k n| |]; try discriminate.
    destruct (label_remove (block ks 0) (block ks 1) RemoveLabel k n _ A1 (or_intror eq_refl)) as (u & g & Eg & Eu & Ru). rewrite Eg.
    assert (P : prep d ph).
    { apply rep_prep; [assumption|now apply N|]. destruct (last_phrase ph) as [[]|]; try reflexivity; discriminate. }
    destruct (u_create_ok _ _ ph _ [GOk g] _ u P eq_refl Eu Ru Logic.I) as [Ec Up]. rewrite Ec. eexists. split; [reflexivity|].
    unfold write_call; cbn [starts]. eexists. split; [reflexivity|]. split; [exact Up|]. repeat split.
  - (* Remove *)
    rewrite (no_error_first _ A).
    assert (P : prep d ph).
    { apply rep_prep; [assumption|now apply N|]. destruct (last_phrase ph) as [[]|]; try reflexivity; discriminate. }
    assert (Ru : exists u, updating_clause_builder ks TRemove properties = inl u
      /\ rep_update (PRemove (map item_of (the_exprs properties))) u).
    { cbn [updating_clause_builder]. unfold expression_list_create. rewrite (no_error_first _ A). eexists.
      split; [reflexivity|]. cbn. split; [|exact Logic.I]. do 2 eexists. split; [reflexivity|reflexivity]. }
    destruct Ru as (u & Eu & Ru).
    destruct (u_create_ok _ _ ph _ _ _ u P A Eu Ru Logic.I) as [Ec Up]. rewrite Ec. eexists. split; [reflexivity|].
    unfold write_call; cbn [starts]. eexists. split; [reflexivity|]. split; [exact Up|]. repeat split.
  - (* Unwind *)
    destruct e as [e|]; [|discriminate].
    assert (P : prep d ph).
    { apply rep_prep; [assumption|now apply N|]. destruct (last_phrase ph) as [[]|]; try reflexivity; discriminate. }
    eexists. split; [reflexivity|]. unfold write_call; cbn [starts]. eexists. split; [reflexivity|].
    split; [|unfold last_is; now rewrite last_phrase_snoc]. left. split; [|unfold settled; now rewrite last_phrase_snoc].
    apply closed_add; [now apply close_m|]. eexists. split; [reflexivity|]. cbn. split; [reflexivity|].
    destruct e; try reflexivity. now eexists.
  - (* subquery *)
    destruct s as [q| | |]; try discriminate. cbn [statement_error]. unfold subquery_call. change (returns_something q) with (returns_elements q) in A. rewrite A.
    eexists. split; [reflexivity|]. unfold write_call; cbn [starts]. eexists. split; [reflexivity|].
    split; [|unfold last_is; now rewrite last_phrase_snoc]. left. split; [|unfold settled; now rewrite last_phrase_snoc].
    apply closed_add; [now apply close_all_cmu|]. eexists. split; [reflexivity|]. reflexivity.
  - (* Call1 *)
    destruct name as [|n [|? ?]]; try discriminate. cbn [procedure_name]. eexists. split; [reflexivity|].
    unfold write_call; cbn [starts]. do 4 eexists. split; [reflexivity|]. split; [reflexivity|].
    pose proof (close_mc (block ks 0) (block ks 1) d ph R (N eq_refl)) as (E' & M & U' & K & X). split.
    + unfold unset_call. cbn. repeat (split; [assumption || reflexivity|]). exact X.
    + exists n, [], [], None. repeat split.
Qed.

(** ** Calls that complete the phrase of the default builder *)

Lemma snoc_inv : forall A (l l' : list A) a b, l ++ [a] = l' ++ [b] -> l = l' /\ a = b.
Proof. intros A l l' a b H. now apply app_inj_tail. Qed.

Lemma rep_open_match : forall d ph o ps c, rep d (ph ++ [PMatch o ps c]) ->
  closed (set_match d no_match) ph /\ rep_match (PMatch o ps c) (d_match d).
Proof.
  intros d ph o ps c [[_ St]|[O|[O|O]]].
  - unfold settled in St. now rewrite last_phrase_snoc in St.
  - destruct O as (ph' & p & E & C & M). apply snoc_inv in E as [-> <-]. now split.
  - destruct O as (ph' & p & u & E & _ & _ & _ & K). apply snoc_inv in E as [-> <-]. contradiction.
  - destruct O as (ph' & p & b & E & _ & _ & K). apply snoc_inv in E as [-> <-].
    destruct K as (n & a & ys & w & E & _). discriminate.
Qed.

Lemma rep_open_merge : forall d ph ps l, rep d (ph ++ [PMerge ps l]) ->
  closed (unset_update d) ph /\ exists u, d_update d = Some u /\ rep_update (PMerge ps l) u.
Proof.
  intros d ph ps l [[_ St]|[O|[O|O]]].
  - unfold settled in St. now rewrite last_phrase_snoc in St.
  - destruct O as (ph' & p & E & C & M). apply snoc_inv in E as [-> <-]. destruct M as (_ & c & E & _). discriminate.
  - destruct O as (ph' & p & u & E & C & Eu & Ru & K). apply snoc_inv in E as [-> <-]. split; [assumption|]. now exists u.
  - destruct O as (ph' & p & b & E & _ & _ & K). apply snoc_inv in E as [-> <-].
    destruct K as (n & a & ys & w & E & _). discriminate.
Qed.

Lemma last_is_snoc : forall f ph, last_is f ph -> exists ph' p, ph = ph' ++ [p] /\ f p.
Proof.
  intros f ph H. unfold last_is, last_phrase in H. destruct (rev ph) as [|p l] eqn:E; [contradiction|].
  exists (rev l), p. split; [|assumption]. apply (f_equal (@rev phrase)) in E. now rewrite rev_involutive in E.
Qed.

Lemma rep_set_cond : forall d ph o ps c c' x, rep d (ph ++ [PMatch o ps c]) -> rep_where c' x ->
  rep (set_cond d x) (ph ++ [PMatch o ps c']).
Proof.
  intros d ph o ps c c' x R W. destruct (rep_open_match _ _ _ _ _ R) as [C (N & w & E & _)]. right. left.
  exists ph, (PMatch o ps c'). split; [reflexivity|]. split; [exact C|]. inversion E; subst. split; [exact N|].
  exists c'. now split.
Qed.

Lemma d_completes : forall ks d ph p c, rep d (ph ++ [p]) -> sound_args c = true -> fits (Some p) c = true ->
  (match c, p with
   | Where _, (PMatch _ _ _ | PSubquery _) => True
   | (AndC _ | OrC _), (PMatch _ _ (Some _) | PCall _ _ _ _) => True
   | OnAction _ _, _ => True
   | _, _ => False
   end) ->
  exists d', d_step ks d c = Some (Returns (D d')) /\ rep d' (ph ++ [completed p c])
    /\ starts c = None
    /\ match p with PMatch _ _ _ => match completed p c with PMatch _ _ (Some _) => True | _ => False end
       | PMerge _ _ => match completed p c with PMerge _ _ => True | _ => False end
       | _ => False end.
Proof.
  intros ks d ph p c R A F K. pose proof (rep_err _ _ R) as E. unfold d_step. rewrite E.
  destruct c; try contradiction; cbn [sound_args] in A.
  - destruct p; try contradiction; [|discriminate]. rewrite (sound_no_err _ A). eexists. split; [reflexivity|].
    split; [|split; [reflexivity|exact Logic.I]]. eapply rep_set_cond; [exact R|]. now apply rep_where_first.
  - destruct p as [o ps [[y l]|]| | | | | | | | | |]; try contradiction; [|discriminate].
    destruct (rep_open_match _ _ _ _ _ R) as [C (N & w & Ep & W)]. injection Ep as _ _ Ew. subst w.
    destruct (rep_where_add ks CAnd y l _ c W A) as [z [Z Wz]]. unfold builder_add. cbn in Z. rewrite Z.
    eexists. split; [reflexivity|]. split; [|split; [reflexivity|exact Logic.I]]. eapply rep_set_cond; [exact R|exact Wz].
  - destruct p as [o ps [[y l]|]| | | | | | | | | |]; try contradiction; [|discriminate]. rewrite (sound_no_err _ A).
    destruct (rep_open_match _ _ _ _ _ R) as [C (N & w & Ep & W)]. injection Ep as _ _ Ew. subst w.
    destruct (rep_where_add ks COr y l _ c W A) as [z [Z Wz]]. unfold builder_add. cbn in Z. rewrite Z.
    eexists. split; [reflexivity|]. split; [|split; [reflexivity|exact Logic.I]]. eapply rep_set_cond; [exact R|exact Wz].
  - destruct p as [| | | | | | | | |? ? ? w|]; try discriminate; [|destruct w; discriminate]. apply andb_prop in A as [A1 A2].
    destruct (rep_open_merge _ _ _ _ R) as [C (u & Eu & Ru)]. rewrite Eu.
    destruct u as [[]|[e|] acts|[]]; cbn in Ru; try contradiction; [discriminate| |destruct Ru as [_ []]].
    destruct Ru as (l & El & Fa). injection El as -> <-. rewrite (no_error_first _ A1).
    unfold merge_action. rewrite sound_exprs_the. destruct (prepare_set_ok (fun n => ks (3 + n)) _ A2) as [es [E1 E2]]. rewrite E1.
    unfold expression_list_create. rewrite first_error_oks, sound_exprs_oks. cbn [set_create].
    eexists. split; [reflexivity|]. split; [|split; [reflexivity|exact Logic.I]]. cbn [completed]. right. right. left.
    exists ph. do 2 eexists. split; [reflexivity|]. split; [|split; [reflexivity|]].
    + unfold unset_update in *. cbn in *. rewrite E in C. exact C.
    + split; [|exact Logic.I]. eexists. split; [reflexivity|]. apply Forall2_snoc; [assumption|].
      do 3 eexists. split; [reflexivity|]. do 2 eexists. split; [reflexivity|assumption].
Qed.

(** ** Every call *)

Lemma first_clause_error_oks : forall l, first_clause_error (map COk l) = None.
Proof. induction l; cbn; auto. Qed.
Lemma has_broken_oks : forall l, has_broken (map COk l) = false.
Proof. induction l; cbn; auto. Qed.
Lemma sound_clauses_oks : forall l, sound_clauses (map COk l) = l.
Proof. induction l; cbn; [reflexivity|]. unfold sound_clauses in IHl. now rewrite IHl. Qed.

Lemma add_with_ok : forall ks d ph b l s c q, rep d ph -> says (PWith b l s c) q ->
  rep (add_with ks d (Some (COk q))) (ph ++ [PWith b l s c]).
Proof.
  intros ks d ph b l s c q R Hs. destruct (build_list_ok ks d ph R) as (ph1 & ph2 & cs & Ep & Rp & Bl & F).
  unfold add_with. rewrite (rep_err _ _ R), Bl. left. split; [|unfold settled; now rewrite last_phrase_snoc].
  repeat (split; [reflexivity|]). exists (ph ++ [PWith b l s c]), []. split; [now rewrite app_nil_r|]. split; [|constructor].
  unfold multi_part_element_create. rewrite first_clause_error_oks, has_broken_oks, sound_clauses_oks. cbn.
  subst ph. rewrite <- app_assoc. now constructor.
Qed.

Lemma add_updating_ok : forall k1 k2 d ph p u, prep d ph -> rep_update p u ->
  closed (add_updating_clause k1 d (build_update k2 u)) (ph ++ [p]).
Proof.
  intros k1 k2 d ph p u P Ru. unfold add_updating_clause. apply closed_add; [now apply close_m|]. now apply build_update_ok.
Qed.

Lemma d_interface : forall ks i i' d ph c f, rep d ph -> last_is f ph ->
  sound_args c = true -> fits (last_phrase ph) c = true -> offers i c = Some i' -> target c = Some i' ->
  (forall p, f p -> leaves_update c = true -> updating (Some p) = false) ->
  exists s, d_step ks d c = Some (Returns s) /\ agrees i' s (write_call ph c).
Proof.
  intros ks i i' d ph c f R L A F O T N. apply d_starts; try assumption.
  destruct (last_is_snoc _ _ L) as (ph' & p & -> & Fp). rewrite last_phrase_snoc. now apply N.
Qed.

Lemma w_step_ok : forall ks s ph b c i', withed b s ph -> sound_args c = true -> fits (last_phrase ph) c = true ->
  target c = Some i' -> exists s', step ks s c = Some (Returns s') /\ agrees i' s' (write_call ph c).
Proof.
  intros ks s ph b c i' (w & d & ph' & dist & l & srt & cs & -> & We & Wd & Ep & R & Wi & Ln & Wdist & Wc & Wo) A F T.
  assert (Q : step ks (W w) c = d_step (block ks 0)
     (add_with (block ks 1) d (build_with (block ks 2) (w_distinct w) (w_items w) (w_order w) (w_cond w))) c).
  { destruct c; try discriminate; cbn [step w_step order_step]; rewrite Wd; reflexivity. }
  rewrite Q. destruct (build_with_ok (block ks 2) b srt _ cs _ dist l Wo Ln Wc) as [q [B Sq]]. rewrite Wdist, Wi, B.
  apply d_starts; try assumption.
  - subst ph. now apply add_with_ok.
  - subst ph. now rewrite last_phrase_snoc.
Qed.

Lemma u_step_ok : forall ks u ph c i', updated u ph -> u_returns u = [] -> u_distinct u = false -> u_order u = no_order ->
  sound_args c = true -> fits (last_phrase ph) c = true ->
  offers IMatchAndUpdate c = Some i' -> exists s', step ks (U u) c = Some (Returns s') /\ agrees i' s' (write_call ph c).
Proof.
  intros ks u ph c i' Up Ur Ud Uo A F T. pose proof Up as (Ue & d & up & ph' & p & Edef & Eup & Ep & P & Ru & K).
  pose proof (add_updating_ok (block ks 0) (block ks 1) d ph' p up P Ru) as C. rewrite <- Ep in C.
  assert (R : rep (add_updating_clause (block ks 0) d (build_update (block ks 1) up)) ph).
  { left. split; [assumption|]. unfold settled. subst ph. rewrite last_phrase_snoc. destruct p; try contradiction; exact Logic.I. }
  assert (N : forall ph, ph = ph' ++ [p] -> updating (last_phrase ph) = false).
  { intros ph0 ->. rewrite last_phrase_snoc. destruct p; try contradiction; reflexivity. }
  destruct c; cbn in T; inversion T; subst i'; clear T; cbn [step u_step order_step].
  - (* With *) rewrite Edef, Eup. apply d_starts; try assumption; [reflexivity|intros _; now apply N].
  - (* Returning *)
    destruct distinct; [subst ph; rewrite last_phrase_snoc in F; destruct p; try contradiction; discriminate|].
    cbn [sound_args] in A. apply andb_prop in A as [A1 A2].
    eexists. split; [reflexivity|]. unfold write_call; cbn [starts]. do 4 eexists. split; [reflexivity|].
    split; [rewrite (no_error_map _ A1) in A2; destruct (the_exprs items); [discriminate|reflexivity]|].
    right. eexists. split; [reflexivity|]. split; [|split; [|split; [exact Ud|cbn; rewrite Uo; exact rep_order_new]]].
    + split; [exact Ue|]. exists d, up, ph', p. cbn. repeat (split; [assumption|]). assumption.
    + cbn. rewrite Ur. cbn. now apply no_error_map.
  - (* Delete *) rewrite Edef, Eup. cbn [sound_args] in A. eexists. split; [reflexivity|]. unfold write_call; cbn [starts].
    eexists. split; [reflexivity|]. split; [|unfold last_is; now rewrite last_phrase_snoc].
    apply update_ok; [assumption| |exact Logic.I]. cbn [updating_clause_builder]. unfold expression_list_create.
    rewrite (no_error_first _ A). eexists. split; [reflexivity|]. cbn. split; [|exact Logic.I]. split; [reflexivity|].
    now eexists.
  - (* Create *) rewrite Edef, Eup. apply d_starts; try assumption; [reflexivity|intros _; now apply N].
  - (* Merge *) rewrite Edef, Eup. apply d_starts; try assumption; [reflexivity|intros _; now apply N].
  - (* Set *) rewrite Edef, Eup. cbn [sound_args] in A. apply andb_prop in A as [A1 A2].
    destruct (set_clause_ok (block (block ks 2) 0) _ A1 A2) as [u' [Eu Ru']].
    destruct (u_create_ok _ _ ph _ _ _ u' (or_introl C) A1 Eu Ru' Logic.I) as [Ec Up']. rewrite Ec. eexists. split; [reflexivity|].
    unfold write_call; cbn [starts]. eexists. split; [reflexivity|]. split; [exact Up'|]. repeat split.
  - (* SetByNode *) rewrite Edef, Eup. cbn [sound_args] in A. apply andb_prop in A as [A1 A2]. destruct node as [k n| |]; try discriminate.
    destruct (label_set (block (block ks 2) 1) (block (block ks 2) 0) k n _ A1) as (u' & g & Eg & Eu & Ru'). rewrite Eg.
    destruct (u_create_ok _ _ ph _ [GOk g] _ u' (or_introl C) eq_refl Eu Ru' Logic.I) as [Ec Up']. rewrite Ec. eexists. split; [reflexivity|].
    unfold write_call; cbn [starts]. eexists. split; [reflexivity|]. split; [exact Up'|]. repeat split.
  - (* RemoveByNode *) rewrite Edef, Eup. cbn [sound_args] in A. apply andb_prop in A as [A1 A2]. destruct node as [k n| |]; try discriminate.
    destruct (label_remove (block (block ks 2) 1) (block (block ks 2) 0) SetLabel k n _ A1 (or_introl eq_refl)) as (u' & g & Eg & Eu & Ru'). rewrite Eg.
    destruct (u_create_ok _ _ ph _ [GOk g] _ u' (or_introl C) eq_refl Eu Ru' Logic.I) as [Ec Up']. rewrite Ec. eexists. split; [reflexivity|].
    unfold write_call; cbn [starts]. eexists. split; [reflexivity|]. split; [exact Up'|]. repeat split.
  - (* Remove *) rewrite Edef, Eup. cbn [sound_args] in A.
    assert (Ru' : exists u', updating_clause_builder (block (block ks 2) 0) TRemove properties = inl u'
      /\ rep_update (PRemove (map item_of (the_exprs properties))) u').
    { cbn [updating_clause_builder]. unfold expression_list_create. rewrite (no_error_first _ A). eexists.
      split; [reflexivity|]. cbn. split; [|exact Logic.I]. do 2 eexists. split; [reflexivity|reflexivity]. }
    destruct Ru' as (u' & Eu & Ru').
    destruct (u_create_ok _ _ ph _ _ _ u' (or_introl C) A Eu Ru' Logic.I) as [Ec Up']. rewrite Ec. eexists. split; [reflexivity|].
    unfold write_call; cbn [starts]. eexists. split; [reflexivity|]. split; [exact Up'|]. repeat split.
Qed.

Lemma sorts_starts : forall c, sorts c = true -> starts c = None.
Proof. destruct c; intros; try discriminate; reflexivity. Qed.

Lemma returned_sorts : forall ks s ph b c, returned b s ph -> sorts c = true -> sound_args c = true ->
  needs_pending b c = true ->
  exists s', step ks s c = Some (Returns s') /\ returned (pending_after b c) s' (write_call ph c).
Proof.
  intros ks s ph b c (ph' & dist & l & srt & -> & Ln & H) Hc A N. unfold write_call. rewrite (sorts_starts _ Hc).
  rewrite complete_last_snoc. cbn [completed].
  destruct H as [(r & d & -> & Re & Rd & R & Ri & Rdist & Ro)|(u & -> & Up & Ur & Ud & Ro)];
    destruct (order_step_ok ks b srt _ c Ro Hc A N) as [o' [Eo Ro']].
  - cbn [step r_step]. unfold r_step. rewrite Eo. eexists. split; [reflexivity|]. do 4 eexists. split; [reflexivity|].
    split; [exact Ln|]. left. do 2 eexists. repeat (split; [reflexivity || eassumption|]). exact Ro'.
  - cbn [step u_step]. unfold u_step. rewrite Eo. eexists. split; [reflexivity|]. do 4 eexists. split; [reflexivity|].
    split; [exact Ln|]. right. eexists. split; [reflexivity|]. split; [exact Up|]. repeat (split; [reflexivity || eassumption|]). exact Ro'.
Qed.

Lemma conditions_sorts : forall c w, sorts c = true -> conditions_completed w c = w.
Proof. intros c w H. destruct c; try discriminate; destruct w as [[? ?]|]; reflexivity. Qed.

Lemma withed_sorts : forall ks s ph b c, withed b s ph -> sorts c = true -> sound_args c = true ->
  needs_pending b c = true ->
  exists s', step ks s c = Some (Returns s') /\ withed (pending_after b c) s' (write_call ph c).
Proof.
  intros ks s ph b c (w & d & ph' & dist & l & srt & cs & -> & We & Wd & -> & R & Wi & Ln & Wdist & Wc & Wo) Hc A N.
  unfold write_call. rewrite (sorts_starts _ Hc), complete_last_snoc. cbn [completed]. rewrite (conditions_sorts _ _ Hc).
  destruct (order_step_ok ks b srt _ c Wo Hc A N) as [o' [Eo Ro']].
  cbn [step]. unfold w_step. rewrite Eo. eexists. split; [reflexivity|]. do 7 eexists. split; [reflexivity|].
  repeat (split; [reflexivity || eassumption|]). exact Ro'.
Qed.

Lemma withed_where : forall ks s ph b c, withed b s ph -> sound_args c = true -> fits (last_phrase ph) c = true ->
  match c with Where _ | AndC _ | OrC _ => True | _ => False end ->
  exists s', step ks s c = Some (Returns s') /\ withed b s' (write_call ph c).
Proof.
  intros ks s ph b c (w & d & ph' & dist & l & srt & cs & -> & We & Wd & -> & R & Wi & Ln & Wdist & Wc & Wo) A F K.
  rewrite last_phrase_snoc in F.
  assert (G : exists x, step ks (W w) c = Some (Returns (W (WB (w_err w) (w_default w) x (w_items w) (w_order w) (w_distinct w))))
    /\ rep_where (conditions_completed cs c) x).
  { destruct c; try contradiction; cbn [sound_args] in A; cbn [step]; unfold w_step; cbn [order_step].
    - eexists. split; [reflexivity|]. cbn. now apply rep_where_first.
    - destruct cs as [[y m]|]; [|discriminate]. destruct (rep_where_add ks CAnd y m _ c Wc A) as [z [Z Wz]].
      unfold builder_add. cbn in Z. rewrite Z. eexists. split; [reflexivity|exact Wz].
    - destruct cs as [[y m]|]; [|discriminate]. destruct (rep_where_add ks COr y m _ c Wc A) as [z [Z Wz]].
      unfold builder_add. cbn in Z. rewrite Z. eexists. split; [reflexivity|exact Wz]. }
  destruct G as [x [E Wx]]. eexists. split; [exact E|].
  assert (Es : starts c = None) by (destruct c; try contradiction; reflexivity).
  unfold write_call. rewrite Es, complete_last_snoc. cbn [completed].
  assert (Esc : sort_completed srt c = srt) by (destruct c; try contradiction; reflexivity). rewrite Esc.
  do 7 eexists. split; [reflexivity|]. repeat (split; [reflexivity || eassumption|]). exact Wo.
Qed.

Lemma rep_call_completes : forall p b c ks tgt again, rep_call p b -> sound_args c = true ->
  match c with Args _ | Yield _ => True | _ => False end ->
  exists b', call_step ks b tgt again c = Some (Returns (again b')) /\ rep_call (completed p c) b' /\ starts c = None.
Proof.
  intros p b c ks tgt again (n & args & ys & w & -> & En & Ea & Ey & Ew) A K.
  destruct c as [| | | | | | | | | | | | | | | | |l|l| | | | | | |]; try contradiction; cbn [sound_args] in A; cbn [call_step].
  - eexists. split; [reflexivity|]. split; [|reflexivity]. destruct l as [l|]; cbn [completed].
    + apply andb_prop in A as [A1 A2]. exists n, (the_exprs l), ys, w. cbn. repeat (split; [reflexivity || assumption|]).
      split; [|split; assumption]. pose proof (no_error_map _ A1) as El.
      destruct (the_exprs l) as [|x m]; [rewrite El in A2; discriminate|]. now rewrite El.
    + exists n, [], ys, w. cbn. repeat (split; [reflexivity || assumption|]). assumption.
  - eexists. split; [reflexivity|]. split; [|reflexivity]. cbn [completed]. apply andb_prop in A as [A1 A2].
    exists n, args, (the_exprs l), w. cbn. repeat (split; [reflexivity || assumption|]). split; [|assumption].
    unfold yield_create. pose proof (no_error_map _ A1) as El. rewrite (no_error_any _ A1).
    destruct l as [|g l]; [discriminate|]. destruct (the_exprs (g :: l)) as [|x m] eqn:Et; [discriminate|].
    exists (ks 0). change (sound_exprs (g :: l)) with (the_exprs (g :: l)). now rewrite Et.
Qed.

Lemma called_step : forall ks b p ph c i' tgt again, rep_call p b ->
  (forall b' p', rep_call p' b' -> exists d, tgt b' = Some d /\ open_call d (ph ++ [p'])) ->
  sound_args c = true -> fits (Some p) c = true ->
  offered [exposes_where; exposes_returning; exposes_with; exposes_subquery] c = Some i' ->
  exists s, call_step ks b tgt again c = Some (Returns s) /\ agrees i' s (write_call (ph ++ [p]) c).
Proof.
  intros ks b p ph c i' tgt again Rc T A F O.
  assert (Kc : forall c, (match c with Returning _ _ | With _ _ | Sub _ => True | _ => False end) -> target c = Some i' ->
    sound_args c = true -> fits (Some p) c = true ->
    exists s, call_step ks b tgt again c = Some (Returns s) /\ agrees i' s (write_call (ph ++ [p]) c)).
  { intros c0 K Tc Ac Fc. destruct (T b p Rc) as (d & E & Od).
    assert (Q : call_step ks b tgt again c0 = d_step ks d c0) by (destruct c0; try contradiction; cbn [call_step]; rewrite E; reflexivity).
    rewrite Q. apply d_starts; try assumption; [right; right; right; exact Od|now rewrite last_phrase_snoc|].
    rewrite last_phrase_snoc. destruct Rc as (n & args & ys & w & -> & _). reflexivity. }
  destruct c; cbn in O; inversion O; subst i';
    try (apply Kc; [exact Logic.I|reflexivity|assumption|assumption]).
  clear Kc. cbn [sound_args] in A. destruct Rc as (n & args & ys & w & -> & En & Ea & Ey & Ew). cbn [call_step].
  destruct (T (CallB (p_standalone b) (p_name b) (p_args b) (p_yield b) c) (PCall [n] args ys (Some (c, [])))) as (d & E & Od).
  { exists n, args, ys, (Some (c, [])). cbn. repeat (split; [reflexivity || assumption|]). now apply rep_where_first. }
  rewrite E. eexists. split; [reflexivity|]. unfold write_call; cbn [starts]. rewrite complete_last_snoc. cbn [completed conditions_completed].
  exists d. split; [reflexivity|]. split; [right; right; right; exact Od|]. unfold last_is. now rewrite last_phrase_snoc.
Qed.

Theorem step_ok : forall ks i i' s ph c, agrees i s ph -> offers i c = Some i' ->
  sound_args c = true -> fits (last_phrase ph) c = true ->
  exists s', step ks s c = Some (Returns s') /\ agrees i' s' (write_call ph c).
Proof.
  intros ks i i' s ph c G O A F.
  assert (Dcase : forall d f, s = D d -> rep d ph -> last_is f ph -> target c = Some i' ->
    (forall p, f p -> leaves_update c = true -> updating (Some p) = false) ->
    exists s', step ks s c = Some (Returns s') /\ agrees i' s' (write_call ph c)).
  { intros d f -> R L T N. cbn [step]. now apply d_interface with i f. }
  assert (Dmore : forall d f, s = D d -> rep d ph -> last_is f ph ->
    (forall p, f p -> match c, p with
       | Where _, (PMatch _ _ _ | PSubquery _) => True
       | (AndC _ | OrC _), (PMatch _ _ (Some _) | PCall _ _ _ _) => True
       | OnAction _ _, _ => True
       | _, _ => False end) ->
    match c with Where _ | AndC _ | OrC _ => i' = IReadingWithWhere | OnAction _ _ => i' = IMergeAction | _ => False end ->
    exists s', step ks s c = Some (Returns s') /\ agrees i' s' (write_call ph c)).
  { intros d f -> R L K Hi. destruct (last_is_snoc _ _ L) as (ph' & p & -> & Fp). rewrite last_phrase_snoc in F.
    destruct (d_completes ks d ph' p c R A F (K p Fp)) as (d' & E & R' & St & Kc). cbn [step]. eexists. split; [exact E|].
    unfold write_call. rewrite St, complete_last_snoc. specialize (K p Fp).
    destruct c; try contradiction; subst i'; cbn [agrees]; exists d'; (split; [reflexivity|]); (split; [assumption|]);
      unfold last_is; rewrite last_phrase_snoc; destruct p; try contradiction; try discriminate;
      destruct (completed _ _) as [? ? []| | | | | | | | | |]; try contradiction; exact Logic.I. }
  destruct i; cbn [agrees] in G; try contradiction.
  - (* IReadingWithoutWhere *)
    destruct G as (d & Es & R & L). destruct c; cbn in O; inversion O; subst i';
      try (eapply Dcase; [exact Es|exact R|exact L|reflexivity|intros [] Hp _; try contradiction; reflexivity]).
    eapply Dmore; [exact Es|exact R|exact L|intros [] Hp; try contradiction; exact Logic.I|reflexivity].
  - (* IReading *)
    destruct G as (d & Es & R & L). destruct c; cbn in O; inversion O; subst i';
      try (eapply Dcase; [exact Es|exact R|exact L|reflexivity|intros [] Hp _; try contradiction; reflexivity]).
  - (* IReadingWithWhere *)
    destruct G as (d & Es & R & L). destruct c; cbn in O; inversion O; subst i';
      try (eapply Dcase; [exact Es|exact R|exact L|reflexivity|intros [] Hp _; try contradiction; reflexivity]);
      (eapply Dmore; [exact Es|exact R|exact L|intros [] Hp; try contradiction; exact Hp || exact Logic.I|reflexivity]).
  - (* IReadingAndReturn *)
    destruct c; cbn in O; inversion O; subst i';
      match goal with |- exists s', step ks s ?c0 = _ /\ _ => destruct (returned_sorts ks s ph false c0 G eq_refl A eq_refl) as (s' & E & G'); exists s'; split; [exact E|cbn [agrees]; first [exact G' | eexists; exact G']] end.
  - (* IReadingAndWith *)
    destruct G as (b & G). apply (w_step_ok ks s ph b); assumption.
  - (* IWithWithoutWhere *)
    destruct (sorts c) eqn:Sc.
    + destruct (withed_sorts ks s ph false c G Sc A) as (s' & E & G'); [destruct c; try discriminate; try reflexivity|].
      exists s'. split; [exact E|]. destruct c; try discriminate Sc; cbn in O; inversion O; subst i'; cbn [agrees]; first [exact G' | eexists; exact G'].
    + destruct c; try discriminate; cbn in O; inversion O; subst i';
        try (apply (w_step_ok ks s ph false); try assumption; reflexivity).
      apply withed_where; try assumption. exact Logic.I.
  - (* IWithWithWhere *)
    destruct (sorts c) eqn:Sc.
    + destruct (withed_sorts ks s ph false c G Sc A) as (s' & E & G'); [destruct c; try discriminate; try reflexivity|].
      exists s'. split; [exact E|]. destruct c; try discriminate Sc; cbn in O; inversion O; subst i'; cbn [agrees]; first [exact G' | eexists; exact G'].
    + destruct c; try discriminate; cbn in O; inversion O; subst i';
        try (apply (w_step_ok ks s ph false); try assumption; reflexivity);
      (apply withed_where; try assumption; exact Logic.I).
  - (* IWithAndOrder *)
    destruct (sorts c) eqn:Sc.
    + destruct (withed_sorts ks s ph false c G Sc A) as (s' & E & G'); [destruct c; try discriminate; try reflexivity|].
      exists s'. split; [exact E|]. destruct c; try discriminate Sc; cbn in O; inversion O; subst i'; cbn [agrees]; first [exact G' | eexists; exact G'].
    + destruct c; try discriminate; cbn in O; inversion O; subst i';
        apply (w_step_ok ks s ph false); try assumption; reflexivity.
  - (* IOrderDefinition *)
    destruct (sorts c) eqn:Sc; [|destruct c; discriminate].
    destruct (withed_sorts ks s ph true c G Sc A) as (s' & E & G'); [destruct c; try discriminate; try reflexivity|].
    exists s'. split; [exact E|]. destruct c; try discriminate Sc; cbn in O; inversion O; subst i'; cbn [agrees]; first [exact G' | eexists; exact G'].
  - (* ISkipped *) discriminate.
  - (* IUpdate *)
    destruct G as (d & Es & R & L). destruct c; cbn in O; inversion O; subst i';
      try (eapply Dcase; [exact Es|exact R|exact L|reflexivity|intros [] Hp Hl; try contradiction; discriminate]).
    eapply Dmore; [exact Es|exact R|exact L|intros [] Hp; exact Logic.I|reflexivity].
  - (* IUpdateAndSet *)
    destruct G as (d & Es & R & L). destruct c; cbn in O; inversion O; subst i';
      try (eapply Dcase; [exact Es|exact R|exact L|reflexivity|intros [] Hp Hl; try contradiction; discriminate]).
    eapply Dmore; [exact Es|exact R|exact L|intros [] Hp; exact Logic.I|reflexivity].
  - (* IMatchAndUpdate *)
    destruct G as (u & -> & Up & Ur & Ud & Uo). now apply u_step_ok.
  - (* IMergeAction *)
    destruct G as (d & Es & R & L). destruct c; cbn in O; inversion O; subst i';
      try (eapply Dcase; [exact Es|exact R|exact L|reflexivity|intros [] Hp Hl; try contradiction; discriminate]);
      try (destruct (last_is_snoc _ _ L) as (ph' & p & -> & Fp); rewrite last_phrase_snoc in F; destruct p; try contradiction; discriminate).
    eapply Dmore; [exact Es|exact R|exact L|intros [] Hp; exact Logic.I|reflexivity].
  - (* IReturnWithOrder *)
    destruct c; cbn in O; inversion O; subst i';
      match goal with |- exists s', step ks s ?c0 = _ /\ _ => destruct (returned_sorts ks s ph false c0 G eq_refl A eq_refl) as (s' & E & G'); exists s'; split; [exact E|cbn [agrees]; first [exact G' | eexists; exact G']] end.
  - (* ITerminalOrder *)
    destruct c; cbn in O; inversion O; subst i';
      match goal with |- exists s', step ks s ?c0 = _ /\ _ => destruct (returned_sorts ks s ph true c0 G eq_refl A eq_refl) as (s' & E & G'); exists s'; split; [exact E|cbn [agrees]; first [exact G' | eexists; exact G']] end.
  - (* ITerminalLimit *)
    destruct G as (b & G). destruct c; cbn in O; inversion O; subst i';
      match goal with |- exists s', step ks s ?c0 = _ /\ _ => destruct (returned_sorts ks s ph b c0 G eq_refl A eq_refl) as (s' & E & G'); exists s'; split; [exact E|cbn [agrees]; first [exact G' | eexists; exact G']] end.
  - (* IBuildable *) discriminate.
  - (* ICallWithoutArgs *)
    destruct G as (d & b & ph' & p & -> & -> & C & Rc).
    assert (K : match c with Args _ | Yield _ => True | _ => False end) by (destruct c; try discriminate; exact Logic.I).
    cbn [step]. edestruct (rep_call_completes p b c ks) as (b' & E & Rc' & St); [exact Rc|exact A|exact K|].
    eexists. split; [exact E|]. unfold write_call. rewrite St, complete_last_snoc.
    destruct c; try contradiction; cbn in O; inversion O; subst i'; cbn [agrees]; exists d, b', ph'; eexists; repeat (split; [reflexivity|]); now split.
  - (* ICallWithArgs *)
    destruct G as (d & b & ph' & p & -> & -> & C & Rc).
    assert (K : match c with Args _ | Yield _ => True | _ => False end) by (destruct c; try discriminate; exact Logic.I).
    cbn [step]. edestruct (rep_call_completes p b c ks) as (b' & E & Rc' & St); [exact Rc|exact A|exact K|].
    eexists. split; [exact E|]. unfold write_call. rewrite St, complete_last_snoc.
    destruct c; try contradiction; cbn in O; inversion O; subst i'; cbn [agrees]; exists d, b', ph'; eexists; repeat (split; [reflexivity|]); now split.
  - (* ICallWithFields *)
    destruct G as (d & b & ph' & p & -> & -> & C & Rc). rewrite last_phrase_snoc in F. cbn [step].
    apply called_step; try assumption. intros b' p' Rc'. eexists. split; [reflexivity|].
    exists ph', p', b'. split; [reflexivity|]. split; [|now split]. exact C.
  - (* IAloneWithoutArgs *)
    destruct G as (b & p & -> & -> & Rc).
    assert (K : match c with Args _ | Yield _ => True | _ => False end) by (destruct c; try discriminate; exact Logic.I).
    cbn [step]. edestruct (rep_call_completes p b c ks) as (b' & E & Rc' & St); [exact Rc|exact A|exact K|].
    eexists. split; [exact E|]. unfold write_call. rewrite St. cbn [complete_last rev app].
    destruct c; try contradiction; cbn in O; inversion O; subst i'; cbn [agrees]; exists b'; eexists; (split; [reflexivity|]); now split.
  - (* IAloneWithFields *)
    destruct G as (b & p & -> & -> & Rc). change [p] with ([] ++ [p]) in F |- *. rewrite last_phrase_snoc in F. cbn [step].
    apply called_step; try assumption. intros b' p' Rc'. eexists. split; [reflexivity|].
    exists [], p', b'. split; [reflexivity|]. split; [|now split]. repeat (split; [reflexivity|]).
    exists [], []. split; [reflexivity|]. split; constructor.
Qed.

(** ** Build *)

Lemma rep_parts_sound : forall ph ps, rep_parts ph ps ->
  first_part_error ps = None /\ has_broken_part ps = false /\ Forall2 says ph (flat_map clauses_of_part (sound_parts ps)).
Proof.
  assert (E : forall ps k cs w, first_part_error ps = None -> first_part_error (ps ++ [POk k cs w]) = None).
  { induction ps as [|[] ps IH]; intros k0 cs0 w0 H; cbn in *; auto; discriminate. }
  induction 1 as [|ph ps phs cs b l s c k w R (E1 & E2 & F) Fc Sw]; [repeat split; constructor|]. split; [now apply E|]. split.
  - unfold has_broken_part in *. rewrite existsb_app, E2. reflexivity.
  - unfold sound_parts in *. rewrite flat_map_app, flat_map_app. apply Forall2_app; [assumption|]. cbn. rewrite app_nil_r.
    unfold clauses_of_part. cbn. apply Forall2_app; [assumption|]. now repeat constructor.
Qed.

Lemma rep_parts_last : forall ph ps, rep_parts ph ps ->
  match last_phrase ph with None | Some (PWith _ _ _ _) => True | _ => False end.
Proof. destruct 1; [exact Logic.I|]. rewrite app_assoc, last_phrase_snoc. exact Logic.I. Qed.

Lemma last_clause_snoc : forall l c, last_clause (l ++ [c]) = Some c.
Proof. induction l as [|a l IH]; intros c; [reflexivity|]. cbn. rewrite IH. now destruct l. Qed.

Definition ends_well (ph : list phrase) : Prop :=
  match last_phrase ph with None | Some (PWith _ _ _ _) | Some (PMatch _ _ _) => False | _ => True end.

Lemma build_impl_ok : forall ks d ph r, rep d ph ->
  (r = NoReturn /\ ends_well ph -> exists q, build_impl ks d r = Returns (StOk q) /\ Forall2 says ph (clauses q))
  /\ (forall q' p, r = Return q' -> says p q' ->
      exists q, build_impl ks d r = Returns (StOk q) /\ Forall2 says (ph ++ [p]) (clauses q)).
Proof.
  intros ks d ph r R. destruct (build_list_ok ks d ph R) as (ph1 & ph2 & cs & Ep & Rp & Bl & F).
  destruct (rep_parts_sound _ _ Rp) as (P1 & P2 & P3). unfold build_impl. rewrite Bl.
  assert (G : forall ro ph3, single_part_create (map COk cs) r = StOk (QSingle cs ro) ->
    Forall2 says ph3 (match ro with Some r => [r] | None => [] end) ->
    exists q, match d_parts d with
              | [] => Returns (single_part_create (map COk cs) r)
              | p :: l => multi_part_query_create (p :: l) (single_part_create (map COk cs) r)
              end = Returns (StOk q) /\ Forall2 says (ph ++ ph3) (clauses q)).
  { intros ro ph3 E F3. rewrite E. destruct (d_parts d) as [|p ps] eqn:Ed.
    - cbn in P3. inversion P3; subst. eexists. split; [reflexivity|]. cbn. now apply Forall2_app.
    - unfold multi_part_query_create. rewrite P1, P2. eexists. split; [reflexivity|]. cbn [clauses]. subst ph.
      rewrite <- app_assoc. apply Forall2_app; [exact P3|]. now apply Forall2_app. }
  split.
  - intros [-> W]. destruct (G None []) as (q & E & Fq); [|constructor|].
    + unfold single_part_create. rewrite first_clause_error_oks, has_broken_oks, sound_clauses_oks.
      destruct (rev ph2) as [|p l] eqn:Er.
      * apply (f_equal (@rev phrase)) in Er. rewrite rev_involutive in Er. cbn in Er. subst ph2. rewrite app_nil_r in Ep. subst ph1.
        pose proof (rep_parts_last _ _ Rp) as L. unfold ends_well in W. destruct (last_phrase ph) as [[]|]; contradiction.
      * apply (f_equal (@rev phrase)) in Er. rewrite rev_involutive in Er. cbn in Er. subst ph2.
        apply Forall2_app_inv_l in F as (cs1 & cs2 & F1 & F2 & Ec). inversion F2 as [|? q ? cs3 Sq F3]; subst. inversion F3; subst.
        rewrite map_app. cbn [map]. rewrite last_clause_snoc. unfold ends_well in W. rewrite app_assoc, last_phrase_snoc in W.
        assert (Nm : is_match_clause (COk q) = false).
        { destruct p; try contradiction; destruct q; try contradiction; reflexivity. }
        rewrite Nm. reflexivity.
    + exists q. rewrite app_nil_r in Fq. now split.
  - intros q' p -> Sp. apply (G (Some q') [p]); [|now repeat constructor].
    unfold single_part_create. rewrite first_clause_error_oks, has_broken_oks, sound_clauses_oks. cbn [return_not_nil negb].
    now rewrite andb_false_r.
Qed.

Theorem build_ok : forall ks i s ph, agrees i s ph -> buildable i = true ->
  exists q, build ks s = Some (Returns (Built (StOk q))) /\ Forall2 says ph (clauses q).
Proof.
  intros ks i s ph G B.
  assert (Up : forall u ph, updated u ph -> exists d, rep d ph /\ ends_well ph
     /\ build ks (U u) = Some (built_of (build_impl (block ks 2) d
        (build_return (block ks 3) (u_distinct u) (u_returns u) (u_order u))))).
  { intros u ph0 (Ue & d & up & ph' & p & Edef & Eup & Ep & P & Ru & K). eexists. split; [|split].
    - left. split; [rewrite Ep; now apply (add_updating_ok (block ks 0) (block ks 1) d ph' p up)|].
      unfold settled. subst ph0. rewrite last_phrase_snoc. destruct p; try contradiction; exact Logic.I.
    - unfold ends_well. subst ph0. rewrite last_phrase_snoc. destruct p; try contradiction; exact Logic.I.
    - cbn [build]. now rewrite Ue, Edef, Eup. }
  assert (Ret : forall b, returned b s ph ->
    exists q, build ks s = Some (Returns (Built (StOk q))) /\ Forall2 says ph (clauses q)).
  { intros b (ph' & dist & l & srt & -> & Ln & H).
    destruct H as [(r & d & -> & Re & Rd & R & Ri & Rdist & Ro)|(u & -> & Hu & Ur & Ud & Ro)].
    - destruct (build_return_ok (block ks 1) b srt _ dist l Ro Ln) as (q & Eq & Sq).
      destruct (build_impl_ok (block ks 0) d ph' (Return q) R) as [_ H]. destruct (H q _ eq_refl Sq) as (q' & E & F).
      exists q'. split; [|assumption]. cbn [build]. now rewrite Re, Rd, Ri, Rdist, Eq, E.
    - destruct (Up u ph' Hu) as (d & R & _ & Eb). rewrite Eb, Ur, Ud.
      destruct (build_return_ok (block ks 3) b srt _ dist l Ro Ln) as (q & Eq & Sq). rewrite Eq.
      destruct (build_impl_ok (block ks 2) d ph' (Return q) R) as [_ H]. destruct (H q _ eq_refl Sq) as (q' & E & F).
      exists q'. now rewrite E. }
  assert (Dcase : forall d f, s = D d -> rep d ph -> last_is f ph ->
    (forall p, f p -> match p with PWith _ _ _ _ | PMatch _ _ _ => False | _ => True end) ->
    exists q, build ks s = Some (Returns (Built (StOk q))) /\ Forall2 says ph (clauses q)).
  { intros d f -> R L K. destruct (build_impl_ok ks d ph NoReturn R) as [H _].
    destruct H as (q & E & F).
    - split; [reflexivity|]. unfold ends_well. unfold last_is in L. destruct (last_phrase ph) as [p|]; [|contradiction].
      specialize (K p L). now destruct p.
    - exists q. split; [|assumption]. cbn [build]. now rewrite (rep_err _ _ R), E. }
  assert (Alone : forall b p, s = S b -> ph = [p] -> rep_call p b ->
    exists q, build ks s = Some (Returns (Built (StOk q))) /\ Forall2 says ph (clauses q)).
  { intros b p -> -> Rc. destruct (build_call_ok ks p b Rc) as (c & E & q & -> & Sq). cbn [build]. rewrite E. exists q.
    split; [reflexivity|]. destruct Rc as (n & args & ys & w & -> & _).
    assert (Ec : clauses q = [q]) by (destruct q; try contradiction; reflexivity). rewrite Ec. now repeat constructor. }
  destruct i; try discriminate; cbn [agrees] in G; try (now eapply Ret, G); try (destruct G as (b0 & G); now eapply Ret, G);
    try (destruct G as (d & Es & R & L); eapply Dcase; [exact Es|exact R|exact L|now intros []]);
    try (destruct G as (b & p & Es & Ep & Rc); now apply Alone with b p).
  destruct G as (u & -> & Hu & Ur & Ud & Uo). destruct (Up u ph Hu) as (d & R & W & Eb). rewrite Eb, Ur.
  destruct (build_impl_ok (block ks 2) d ph NoReturn R) as [H _]. destruct H as (q & E & F); [now split|].
  exists q. cbn [build_return]. now rewrite E.
Qed.

(** ** Programs *)

Lemma rep_new : rep d_new [].
Proof. left. split; [|exact Logic.I]. repeat (split; [reflexivity|]). exists [], []. repeat split; constructor. Qed.

Theorem start_ok : forall ks i c, offers IStart c = Some i -> sound_args c = true -> fits None c = true ->
  exists s, start ks c = Some (Returns s) /\ agrees i s (write_call [] c).
Proof.
  intros ks i c O A F.
  assert (H : target c = Some i -> start ks c = d_step ks d_new c ->
    exists s, start ks c = Some (Returns s) /\ agrees i s (write_call [] c)).
  { intros T ->. apply d_starts; try assumption; [exact rep_new|reflexivity]. }
  destruct c; cbn in O; inversion O; subst i; try (apply H; reflexivity).
  cbn [sound_args] in A. destruct name as [|n [|]]; try discriminate. cbn. eexists. split; [reflexivity|].
  eexists. eexists. split; [reflexivity|]. split; [reflexivity|]. exists n, [], [], None. now repeat split.
Qed.

Lemma run_ok : forall K p i i' s ph, agrees i s ph -> compiles i p = Some i' -> orderly_from ph p = true ->
  exists s', run K s p = Some (Returns s') /\ agrees i' s' (fold_left write_call p ph).
Proof.
  intros K. induction p as [|c p IH]; intros i i' s ph G C O; cbn in *.
  - inversion C; subst. now exists s.
  - destruct (offers i c) as [i1|] eqn:Eo; [|discriminate]. apply andb_prop in O as [O1 O2]. apply andb_prop in O1 as [A F].
    destruct (step_ok (K (length p)) i i1 s ph c G Eo A F) as (s1 & E1 & G1). rewrite E1. now apply IH with i1.
Qed.

Theorem program_ok : forall K ks p i, compiles IStart p = Some i -> buildable i = true -> orderly p = true ->
  exists q, build_program K ks p = Some (Returns (Built (StOk q))) /\ Forall2 says (written p) (clauses q).
Proof.
  intros K ks p i C B O. destruct p as [|c p]; [cbn in C; inversion C; subst; discriminate|].
  unfold orderly in O. cbn [orderly_from] in O. apply andb_prop in O as [O1 O2]. apply andb_prop in O1 as [A F].
  cbn [compiles] in C. destruct (offers IStart c) as [i1|] eqn:Eo; [|discriminate].
  destruct (start_ok (K (length p)) i1 c Eo A F) as (s1 & E1 & G1).
  destruct (run_ok K p i1 i s1 _ G1 C O2) as (s2 & E2 & G2). unfold build_program, run_start. rewrite E1, E2.
  unfold written. cbn [fold_left]. now apply build_ok with i.
Qed.
