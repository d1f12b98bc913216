(** Proofs: a goroutine whose renderer nobody else uses gets the texts it would
    get alone. *)

From Coq Require Import String List ZArith Bool Arith Lia.
From Verif Require Import GoStr VTree VTreeProofs Concurrent SpecConcurrent.
Import ListNotations.
Open Scope string_scope.
Open Scope list_scope.

Lemma accept_events : forall t r, accept t r = fold_left (fun r e => happen e r) (events t) r.
Proof.
  fix IH 1. intros t r.
  assert (L : forall ks r, accepts ks r = fold_left (fun r e => happen e r) (flat_map events ks) r).
  { induction ks as [|k ks IHk]; intros r'; cbn [accepts flat_map]; [reflexivity|]. rewrite fold_left_app, <- IH. apply IHk. }
  destruct t as [h ks|ks|s].
  - change (accept (V h ks) r) with (leave h (accepts ks (enter h r))). cbn [events fold_left]. rewrite fold_left_app, L. reflexivity.
  - apply L.
  - reflexivity.
Qed.

Section Goroutines.
Context {err : Type}.
Notation goroutine := (goroutine err).

Fixpoint alone (n : nat) (c : maps * goroutine) : maps * goroutine :=
  match n with O => c | S n' => alone n' (perform (fst c) (snd c)) end.

Lemma alone_last : forall n c, alone (S n) c = perform (fst (alone n c)) (snd (alone n c)).
Proof. induction n as [|n IH]; intros c; [reflexivity|]. cbn [alone] in *. now rewrite <- IH. Qed.
Lemma alone_add : forall a b c, alone (a + b) c = alone b (alone a c).
Proof. induction a as [|a IH]; intros b c; cbn [alone plus]; auto. Qed.
Lemma perform_renderer : forall m (g : goroutine), g_renderer (snd (perform m g)) = g_renderer g.
Proof. intros m [rd [|[] l] r res]; reflexivity. Qed.
Lemma alone_renderer : forall n c, g_renderer (snd (alone n c)) = g_renderer (snd c).
Proof. induction n as [|n IH]; intros c; [reflexivity|]. cbn [alone]. now rewrite IH, perform_renderer. Qed.
Lemma perform_todo : forall m (g : goroutine), g_todo (snd (perform m g)) = tl (g_todo g).
Proof. intros m [rd [|[] l] r res]; reflexivity. Qed.
Lemma alone_todo : forall n c, g_todo (snd (alone n c)) = skipn n (g_todo (snd c)).
Proof.
  induction n as [|n IH]; intros c; [reflexivity|]. cbn [alone]. rewrite IH, perform_todo. destruct (g_todo (snd c)); [now destruct n|reflexivity].
Qed.
Lemma alone_done : forall n c, g_todo (snd c) = [] -> alone n c = c.
Proof.
  induction n as [|n IH]; intros [m g] H; [reflexivity|]. cbn [alone fst snd] in *. unfold perform. rewrite H. now apply IH.
Qed.

Lemma replace_same : forall A (l : list A) i x y, nth_error l i = Some y -> nth_error (replace l i x) i = Some x.
Proof. induction l as [|a l IH]; intros [|i] x y H; try discriminate; cbn in *; eauto. Qed.
Lemma replace_other : forall A (l : list A) i j x, i <> j -> nth_error (replace l i x) j = nth_error l j.
Proof. induction l as [|a l IH]; intros [|i] [|j] x H; cbn; try reflexivity; try congruence. apply IH. congruence. Qed.

Lemma turn_other : forall (c : memory * list goroutine) i j g, nth_error (snd c) i = Some g -> owner (snd c) i (g_renderer g) -> j <> i ->
  fst (turn c j) (g_renderer g) = fst c (g_renderer g) /\ nth_error (snd (turn c j)) i = Some g.
Proof.
  intros [mem gs] i j g H O N. unfold turn. cbn [fst snd] in *. destruct (nth_error gs j) as [g2|] eqn:Q; [|auto].
  destruct (perform (mem (g_renderer g2)) g2) as [m g2'] eqn:P. cbn [fst snd]. rewrite replace_other by auto. split; [|exact H].
  unfold put. destruct (Nat.eqb_spec (g_renderer g) (g_renderer g2)) as [X|X]; [|reflexivity]. exfalso. apply N. now apply (O j g2).
Qed.
Lemma turn_own : forall (c : memory * list goroutine) i g, nth_error (snd c) i = Some g ->
  fst (turn c i) (g_renderer g) = fst (perform (fst c (g_renderer g)) g)
  /\ nth_error (snd (turn c i)) i = Some (snd (perform (fst c (g_renderer g)) g)).
Proof.
  intros [mem gs] i g H. unfold turn. cbn [fst snd] in *. rewrite H. destruct (perform (mem (g_renderer g)) g) as [m g'] eqn:P. cbn [fst snd].
  split; [unfold put; now rewrite Nat.eqb_refl|]. eapply replace_same; eauto.
Qed.
Lemma turn_owner : forall (c : memory * list goroutine) i j rd, owner (snd c) i rd -> owner (snd (turn c j)) i rd.
Proof.
  intros [mem gs] i j rd O. unfold turn. cbn [snd fst] in *. destruct (nth_error gs j) as [g|] eqn:Q; [|exact O].
  destruct (perform (mem (g_renderer g)) g) as [m g'] eqn:P. cbn [snd]. intros k x K R.
  destruct (Nat.eq_dec j k) as [->|N].
  - rewrite (replace_same _ _ _ _ _ Q) in K. inversion K; subst. apply (O k g Q). rewrite <- (perform_renderer (mem (g_renderer g)) g), P. reflexivity.
  - rewrite replace_other in K by exact N. now apply (O k x).
Qed.

(** Whatever the schedule, the state of the goroutine is that after as many
    steps alone. *)
Lemma schedule_alone : forall turns (c : memory * list goroutine) i g, nth_error (snd c) i = Some g -> owner (snd c) i (g_renderer g) ->
  let x := alone (count_occ Nat.eq_dec turns i) (fst c (g_renderer g), g) in
  fst (schedule c turns) (g_renderer g) = fst x /\ nth_error (snd (schedule c turns)) i = Some (snd x).
Proof.
  induction turns as [|j turns IH]; intros c i g H O; [cbn; auto|]. unfold schedule in *. cbn [fold_left count_occ].
  destruct (Nat.eq_dec j i) as [->|N].
  - destruct (turn_own c i g H) as [M G]. set (p := perform (fst c (g_renderer g)) g) in *.
    assert (R : g_renderer (snd p) = g_renderer g) by apply perform_renderer.
    specialize (IH (turn c i) i (snd p) G). rewrite R in IH. specialize (IH (turn_owner c i i _ O)). cbn [alone fst snd]. fold p.
    rewrite M in IH. destruct p; exact IH.
  - destruct (turn_other c i j g H O N) as [M G]. specialize (IH (turn c j) i g G (turn_owner c i j _ O)). rewrite M in IH. exact IH.
Qed.

(** ** Alone *)

(** What is not a map: what a traversal does does not depend on how the maps of
    the copy got there. *)
Lemma with_maps_self : forall r, with_maps (maps_of r) r = r.
Proof. now intros []. Qed.
Lemma alone_events : forall es m rd l r res,
  alone (length es) (m, Go rd (map AEvent es ++ l) r res : goroutine)
  = match es with
    | [] => (m, Go rd l r res)
    | _ => let r' := fold_left (fun r e => happen e r) es (with_maps m r) in (maps_of r', Go rd l r' res)
    end.
Proof.
  induction es as [|e es IH]; intros m rd l r res; [reflexivity|]. cbn [length alone map app fst snd perform g_todo g_renderer g_copy g_results].
  rewrite IH. destruct es as [|e' es]; [reflexivity|]. now rewrite with_maps_self.
Qed.

Lemma alone_in_turn : forall ss m rd r res, exists m',
  exists r', alone (length (flat_map actions ss)) (m, Go rd (flat_map actions ss) r res) = (m', Go rd [] r' (res ++ in_turn ss (idle m))).
Proof.
  induction ss as [|s ss IH]; intros m rd r res; [exists m, r; cbn; now rewrite app_nil_r|]. cbn [flat_map in_turn]. rewrite app_length, alone_add.
  destruct s as [|e|t].
  - cbn [actions length alone app fst snd perform g_todo g_renderer g_copy g_results render]. destruct (IH m rd r (res ++ [("", Some NilStatement)])) as (m' & r' & H).
    exists m', r'. rewrite H, <- app_assoc. reflexivity.
  - cbn [actions length alone app fst snd perform g_todo g_renderer g_copy g_results render]. destruct (IH m rd r (res ++ [("", Some (Carried e))])) as (m' & r' & H).
    exists m', r'. rewrite H, <- app_assoc. reflexivity.
  - cbn [actions length]. rewrite app_length, map_length. cbn [length app alone fst snd perform g_todo g_renderer g_copy g_results].
    rewrite alone_add, <- app_assoc, alone_events. cbn [render in_turn]. rewrite accept_events. unfold idle.
    destruct (events t) as [|e es] eqn:Q.
    + cbn [alone app fst snd perform g_todo g_renderer g_copy g_results fold_left].
      destruct (IH m rd new_renderer (res ++ [(trim_space (r_out new_renderer), None)])) as (m' & r' & H).
      exists m', r'. rewrite H, <- app_assoc. destruct m; reflexivity.
    + set (r1 := fold_left _ _ (with_maps m new_renderer)). cbn [alone app fst snd perform g_todo g_renderer g_copy g_results].
      destruct (IH (maps_of r1) rd r1 (res ++ [(trim_space (r_out r1), None)])) as (m' & r' & H). exists m', r'. rewrite H, <- app_assoc. reflexivity.
Qed.

Lemma perform_results : forall m (g : goroutine), exists more, g_results (snd (perform m g)) = g_results g ++ more.
Proof. intros m [rd [|[] l] r res]; cbn; eauto; exists []; now rewrite app_nil_r. Qed.
Lemma alone_results : forall n (c : maps * goroutine), exists more, g_results (snd (alone n c)) = g_results (snd c) ++ more.
Proof.
  induction n as [|n IH]; intros c; [exists []; now rewrite app_nil_r|]. cbn [alone]. destruct (IH (perform (fst c) (snd c))) as [y H].
  destruct (perform_results (fst c) (snd c)) as [x P]. exists (x ++ y). now rewrite H, P, app_assoc.
Qed.
Lemma alone_prefix : forall n ss m rd, exists more,
  in_turn ss (idle m) = g_results (snd (alone n (m, go rd ss : goroutine))) ++ more
  /\ (length (flat_map actions ss) <= n -> more = []).
Proof.
  intros n ss m rd. unfold go. destruct (alone_in_turn ss m rd new_renderer []) as (m' & r' & F). cbn [app] in F.
  set (c := (m, Go rd (flat_map actions ss) new_renderer [])) in *. set (N := length (flat_map actions ss)) in *.
  destruct (le_lt_dec N n) as [L|L].
  - exists []. rewrite app_nil_r. split; [|auto]. replace n with (N + (n - N)) by lia. rewrite alone_add, F, alone_done; reflexivity.
  - destruct (alone_results (N - n) (alone n c)) as [more R]. rewrite <- alone_add in R. replace (n + (N - n)) with N in R by lia. rewrite F in R.
    exists more. split; [exact R|lia].
Qed.
End Goroutines.
