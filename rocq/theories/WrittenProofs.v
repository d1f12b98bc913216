(** How trees of operators are written, and when the text is understood. *)

From Coq Require Import String List Bool Arith Lia.
From Verif Require Import SpecExpr ReadProofs.
Import ListNotations.
Open Scope list_scope.

Section Written.
Context {A : Type}.
Implicit Types ts l r : list (token A).

Definition conditional (t : tree A) : bool :=
  match t with Leaf _ => false | Bin s _ _ => match level s with 0 | 4 => true | _ => false end | Post _ _ => true end.

Definition parens ts : list (token A) := TOpen :: ts ++ [TClose].
Definition nest_if (b : bool) ts := if b then parens ts else ts.

Fixpoint wr (t : tree A) : list (token A) :=
  match t with
  | Leaf a => [TLeaf a]
  | Bin s x y =>
      match level s with
      | 0 | 4 => nest_if (conditional x) (wr x) ++ TSign s :: nest_if (conditional y) (wr y)
      | 3 => wr x ++ TSign s :: wr y
      | _ => parens (wr x ++ TSign s :: wr y)
      end
  | Post s x => nest_if (conditional x) (wr x) ++ [TSuffix s]
  end.

Definition standing (t : tree A) : nat :=
  match t with Leaf _ => 5 | Bin s _ _ => match level s with 0 => 0 | 3 => 3 | 4 => 4 | _ => 5 end | Post _ _ => 4 end.
Definition nested_standing (t : tree A) : nat := if conditional t then 5 else standing t.

Lemma understood_nest : forall t, understood (standing t) (wr t) t -> understood (nested_standing t) (nest_if (conditional t) (wr t)) t.
Proof.
  intros t U. unfold nested_standing, nest_if. destruct (conditional t); [|exact U]. apply u_paren.
  eapply understood_weaken; [exact U| |lia]. unfold standing. destruct t as [| s ? ? |]; try lia. destruct s; cbn; lia.
Qed.

Lemma standing_le : forall t, standing t <= 5.
Proof. destruct t as [| s ? ? |]; cbn; try lia. destruct s; cbn; lia. Qed.

Lemma faithful_understood : forall t, faithful t = true -> understood (standing t) (wr t) t.
Proof.
  induction t as [a|s l IHl r IHr|s t IH]; intros F.
  - constructor.
  - cbn in F. apply andb_prop in F as [F F']. apply andb_prop in F as [Fl Fr]. specialize (IHl Fl). specialize (IHr Fr).
    assert (Up : forall t n, understood (standing t) (wr t) t -> n <= standing t -> understood n (wr t) t)
      by (intros; eapply understood_weaken; [eassumption|apply standing_le|assumption]).
    assert (Un : forall t n, understood (standing t) (wr t) t -> n <= nested_standing t -> understood n (nest_if (conditional t) (wr t)) t).
    { intros t n U L. eapply understood_weaken; [apply understood_nest; exact U| |exact L].
      unfold nested_standing. destruct (conditional t); [lia|apply standing_le]. }
    assert (Lv : forall t, ordering t = false -> 3 <= standing t).
    { intros [x| s' x y |s' x] O; cbn in *; try lia. destruct s'; cbn in *; try lia; discriminate. }
    assert (Lw : forall t, ordering t = false -> is_power t = false -> 4 <= standing t).
    { intros [x| s' x y |s' x] O P; cbn in *; try lia. destruct s'; cbn in *; try lia; discriminate. }
    assert (Lc : forall t, 3 <= nested_standing t).
    { intros [x| s' x y |s' x]; unfold nested_standing; cbn; try lia. destruct s'; cbn; lia. }
    assert (Ln : forall t, is_power t = false -> 5 <= nested_standing t).
    { intros [x| s' x y |s' x] P; unfold nested_standing; cbn in *; try lia. destruct s'; cbn in *; try lia; discriminate. }
    destruct (level s) as [|[|[|[|[|n]]]]] eqn:E; cbn [wr standing]; rewrite E.
    + rewrite <- E. apply u_bin; rewrite E; cbn [Nat.eqb]; apply Un; auto; pose proof (Lc l); pose proof (Lc r); lia.
    + apply andb_prop in F' as [A1 A2]. apply negb_true_iff in A1. apply negb_true_iff in A2.
      apply u_paren. apply understood_weaken with (level s); [|pose proof (@level_le s); lia|lia]. apply u_bin; rewrite E; cbn [Nat.eqb]; apply Up; auto; pose proof (Lv l A1); pose proof (Lv r A2); lia.
    + apply andb_prop in F' as [A1 A2]. apply negb_true_iff in A1. apply negb_true_iff in A2.
      apply u_paren. apply understood_weaken with (level s); [|pose proof (@level_le s); lia|lia]. apply u_bin; rewrite E; cbn [Nat.eqb]; apply Up; auto; pose proof (Lv l A1); pose proof (Lv r A2); lia.
    + apply andb_prop in F' as [F' A3]. apply andb_prop in F' as [A1 A2]. apply negb_true_iff in A1. apply negb_true_iff in A2. apply negb_true_iff in A3.
      rewrite <- E. apply u_bin; rewrite E; cbn [Nat.eqb]; apply Up; auto.
    + apply andb_prop in F' as [A1 A2]. apply negb_true_iff in A1. apply negb_true_iff in A2.
      rewrite <- E. apply u_bin; rewrite E; cbn [Nat.eqb]; apply Un; auto; pose proof (Ln l A1); pose proof (Ln r A2); lia.
    + pose proof (@level_le s). lia.
  - cbn in F. apply andb_prop in F as [F P]. apply negb_true_iff in P. cbn [wr standing]. apply u_post.
    eapply understood_weaken; [apply understood_nest; auto| |].
    + unfold nested_standing. destruct (conditional t); [lia|apply standing_le].
    + destruct t as [x| s' x y |s' x]; unfold nested_standing; cbn in *; try lia. destruct s'; cbn in *; try lia; discriminate.
Qed.

(** ** The converse *)

Fixpoint leaves ts : list A := match ts with [] => [] | TLeaf a :: r => a :: leaves r | _ :: r => leaves r end.
Fixpoint fringe (t : tree A) : list A := match t with Leaf a => [a] | Bin _ x y => fringe x ++ fringe y | Post _ x => fringe x end.
(** The first token that is no opening parenthesis is a leaf. *)
Fixpoint lead ts : bool := match ts with TOpen :: r => lead r | TLeaf _ :: _ => true | _ => false end.

Lemma leaves_app : forall a b, leaves (a ++ b) = leaves a ++ leaves b.
Proof. induction a as [|x a IH]; intros b; [reflexivity|]. destruct x; cbn; rewrite ?IH; auto. Qed.
Lemma lead_app : forall a b, lead a = true -> lead (a ++ b) = true.
Proof. induction a as [|x a IH]; intros b H; [discriminate|]. destruct x; cbn in *; auto. Qed.

Lemma understood_leaves : forall n ts t, understood n ts t -> leaves ts = fringe t.
Proof.
  induction 1; cbn; rewrite ?leaves_app; cbn; rewrite ?app_nil_r; try congruence; auto.
Qed.
Lemma understood_lead : forall n ts t, understood n ts t -> lead ts = true.
Proof. induction 1; cbn; auto using lead_app. Qed.

Lemma wr_leaves : forall t, leaves (wr t) = fringe t.
Proof.
  assert (N : forall b ts, leaves (nest_if b ts) = leaves ts).
  { intros [|] ts; [|reflexivity]. unfold nest_if, parens. cbn. rewrite leaves_app. cbn. apply app_nil_r. }
  induction t as [a|s l IHl r IHr|s t IH]; [reflexivity| |].
  - assert (P : leaves (wr l ++ TSign s :: wr r) = fringe l ++ fringe r) by (rewrite leaves_app; cbn; congruence).
    cbn [wr fringe]. destruct (level s) as [|[|[|[|[|n]]]]]; try (unfold parens; cbn [leaves]; rewrite leaves_app; cbn [leaves]; rewrite app_nil_r; exact P);
      try exact P; rewrite leaves_app; cbn [leaves]; rewrite !N; congruence.
  - cbn [wr fringe]. rewrite leaves_app. cbn. rewrite app_nil_r, N. exact IH.
Qed.
Lemma nest_leaves : forall b t, leaves (nest_if b (wr t)) = fringe t.
Proof. intros [|] t; cbn; [|apply wr_leaves]. rewrite leaves_app. cbn. now rewrite app_nil_r, wr_leaves. Qed.

Lemma nest_lead : forall b ts, lead ts = true -> lead (nest_if b ts) = true.
Proof. intros [|] ts H; [|exact H]. cbn. now apply lead_app. Qed.
Lemma wr_lead : forall t, lead (wr t) = true.
Proof.
  induction t as [a|s l IHl r IHr|s t IH]; [reflexivity| |].
  - cbn [wr]. destruct (level s) as [|[|[|[|[|n]]]]]; cbn [lead parens]; repeat apply lead_app; auto using nest_lead.
  - cbn [wr]. apply lead_app. now apply nest_lead.
Qed.

Lemma parens_ok : forall ts n, ok 0 0 ts = true -> ok n 0 (parens ts) = true.
Proof. intros ts n H. exact (ok_deep ts 0 n 0 0 H). Qed.
Lemma nest_ok : forall b ts, ok 0 0 ts = true -> ok 0 0 (nest_if b ts) = true.
Proof. intros [|] ts H; [now apply parens_ok|exact H]. Qed.
Lemma wr_ok : forall t, ok 0 0 (wr t) = true.
Proof.
  assert (J : forall (a : list (token A)) s b, ok 0 0 a = true -> ok 0 0 b = true -> ok 0 0 (a ++ TSign s :: b) = true).
  { intros a s b Ha Hb. apply (ok_app a 0 0 0); [exact Ha|]. eapply op_ok; [reflexivity|lia|exact Hb]. }
  induction t as [a|s l IHl r IHr|s t IH]; [reflexivity| |].
  - cbn [wr]. destruct (level s) as [|[|[|[|[|n]]]]]; try apply parens_ok; apply J; auto using nest_ok.
  - cbn [wr]. apply (ok_app _ 0 0 0); [now apply nest_ok|reflexivity].
Qed.

Lemma ok_below : forall (w : list (token A)) n e m d b, ok n e w = true -> d < e -> ok m d (w ++ b) = true -> False.
Proof.
  induction w as [|x w IH]; intros n e m d b H L K; cbn in H.
  - apply Nat.eqb_eq in H. lia.
  - cbn [app] in K. destruct x; cbn [ok] in *.
    + eapply IH; eauto.
    + apply andb_prop in H as [_ H]. apply andb_prop in K as [_ K]. eapply IH; eauto.
    + apply andb_prop in H as [_ H]. apply andb_prop in K as [_ K]. eapply IH; eauto.
    + apply (IH n (S e) m (S d) b); auto. lia.
    + destruct e as [|e]; [discriminate|]. destruct d as [|d]; [discriminate|]. apply (IH n e m d b); auto. lia.
Qed.

(** A balanced text cut after an operator: both parts are balanced only at the
    top. *)
Lemma no_sign_in_parens : forall (w : list (token A)) l x r, ok 0 0 w = true -> ok 0 0 l = true -> l <> [] -> op_level x <> None -> parens w = l ++ x :: r -> False.
Proof.
  intros w l x r W L N O E. destruct l as [|y l]; [congruence|]. unfold parens in E. cbn [app] in E. injection E as <- E.
  assert (P : exists b, w = l ++ b).
  { clear - E O. revert w E. induction l as [|y l IH]; intros w E; [now exists w|].
    destruct w as [|z w]; cbn in E.
    - injection E as <- E. destruct l; discriminate.
    - injection E as <- E. destruct (IH w E) as [b ->]. now exists b. }
  destruct P as [b ->]. cbn [ok] in L. exact (ok_below l 0 1 0 0 b L ltac:(lia) W).
Qed.

Lemma sign_after_parens : forall (us a : list (token A)) x b, op_level x <> None -> ok 0 0 a = true -> ok 0 0 us = true -> a <> [] -> parens us = a ++ x :: b -> False.
Proof. intros us a x b O Ha Hu N E. exact (no_sign_in_parens us a x b Hu Ha N O E). Qed.

Lemma lead_nonempty : forall ts, lead ts = true -> ts <> [].
Proof. now intros [|]. Qed.

(** Reading parentheses. *)
Lemma understood_parens : forall n (w : list (token A)) t, n <= 5 -> ok 0 0 w = true -> understood n (parens w) t -> understood 0 w t.
Proof.
  intros n w t N W. assert (G : forall d n, n + d = 5 -> understood n (parens w) t -> understood 0 w t).
  { induction d as [|d IH]; intros m M U;
      destruct (split_of _ _ _ U) as [[X V]|[[_ (a & E & ->)]|[[_ (us & E & V)]|[(s & l & r & x & y & X & E & _ & Vl & Vr)|[X (s & l & x & E & _ & V)]]]]]; try lia; try discriminate.
    - injection E as E. apply app_inj_tail in E as [-> _]. exact V.
    - pose proof (@level_le s). lia.
    - apply (IH (S m)); [lia|exact V].
    - injection E as E. apply app_inj_tail in E as [-> _]. exact V.
    - exfalso. apply (no_sign_in_parens w l (TSign s) r); auto; [|apply lead_nonempty; eapply understood_lead; eassumption|discriminate].
      eapply ok_mono; [|eapply understood_ok; exact Vl]. lia.
    - exfalso. unfold parens in E. rewrite app_comm_cons in E. apply app_inj_tail in E as [_ E]. discriminate. }
  intros U. apply (G (5 - n) n); [lia|exact U].
Qed.

Lemma leafless_lead : forall (m : list (token A)) x b, op_level x <> None -> leaves m = [] -> lead (m ++ x :: b) = false.
Proof.
  induction m as [|y m IH]; intros x b O L; [destruct x; try reflexivity; now destruct O|]. destruct y; cbn in *; auto. discriminate.
Qed.

(** The same sign, the same operands on the left: the same cut. *)
Lemma same_cut : forall s l0 r0 l r, leaves l0 = leaves l -> lead r0 = true -> lead r = true ->
  l0 ++ TSign s :: r0 = l ++ TSign s :: r -> l0 = l /\ r0 = r.
Proof.
  intros s l0. induction l0 as [|x l0 IH]; intros r0 l r L R0 R E; destruct l as [|y l]; cbn [app] in E.
  - injection E as <-. auto.
  - exfalso. injection E as <- E. cbn in L. subst r0. rewrite leafless_lead in R0; [discriminate|discriminate|now symmetry].
  - exfalso. injection E as -> E. cbn in L. subst r. rewrite leafless_lead in R; [discriminate|discriminate|exact L].
  - injection E as <- E. assert (L' : leaves l0 = leaves l) by (destruct x; cbn in L; auto; now injection L).
    destruct (IH r0 l r L' R0 R E) as [-> ->]. auto.
Qed.

(** Reading a text that is not in parentheses as a whole. *)
Lemma understood_cut : forall s l r x y n, n <= 5 -> ok 0 0 l = true -> lead l = true -> lead r = true -> leaves l = fringe x ->
  understood n (l ++ TSign s :: r) (Bin s x y) ->
  understood (if Nat.eqb (level s) 0 then 1 else level s) l x /\ understood (S (level s)) r y.
Proof.
  intros s l r x y n N Ok Hl Hr Lx.
  assert (G : forall d n, n + d = 5 -> understood n (l ++ TSign s :: r) (Bin s x y) ->
     understood (if Nat.eqb (level s) 0 then 1 else level s) l x /\ understood (S (level s)) r y).
  { induction d as [|d IH]; intros m M U;
      destruct (split_of _ _ _ U) as [[X V]|[[_ (a & E & E')]|[[_ (us & E & V)]|[(s' & l0 & r0 & x' & y' & X & E & T & Vl & Vr)|[X (s' & l0 & x' & E & T & V)]]]]];
      try lia; try discriminate.
    - exfalso. apply (sign_after_parens us l (TSign s) r); auto; [discriminate|eapply understood_ok; exact V|now apply lead_nonempty].
    - pose proof (@level_le s'). lia.
    - apply (IH (S m)); [lia|exact V].
    - exfalso. apply (sign_after_parens us l (TSign s) r); auto; [discriminate|eapply understood_ok; exact V|now apply lead_nonempty].
    - injection T as <- <- <-. destruct (same_cut s l r l0 r0) as [-> ->]; auto.
      + rewrite Lx. symmetry. eapply understood_leaves; exact Vl.
      + eapply understood_lead; exact Vr. }
  intros U. apply (G (5 - n) n); [lia|exact U].
Qed.

Lemma understood_suffix : forall s l x n, n <= 5 -> ok 0 0 l = true -> lead l = true -> understood n (l ++ [TSuffix s]) (Post s x) -> understood 4 l x.
Proof.
  intros s l x n N Ok Hl. assert (G : forall d n, n + d = 5 -> understood n (l ++ [TSuffix s]) (Post s x) -> understood 4 l x).
  { induction d as [|d IH]; intros m M U;
      destruct (split_of _ _ _ U) as [[X V]|[[_ (a & E & E')]|[[_ (us & E & V)]|[(s' & l0 & r0 & x' & y' & X & E & T & Vl & Vr)|[X (s' & l0 & x' & E & T & V)]]]]];
      try lia; try discriminate.
    - exfalso. rewrite app_comm_cons in E. apply app_inj_tail in E as [_ E]. discriminate.
    - apply (IH (S m)); [lia|exact V].
    - exfalso. rewrite app_comm_cons in E. apply app_inj_tail in E as [_ E]. discriminate.
    - apply app_inj_tail in E as [<- _]. injection T as _ <-. exact V. }
  intros U. apply (G (5 - n) n); [lia|exact U].
Qed.

(** Operators that stand free are not understood above their level. *)
Lemma not_high : forall t n, n <= 5 -> understood n (wr t) t -> n <= standing t.
Proof.
  intros t n N U. destruct t as [a|s l r|s t]; cbn [standing]; [exact N| |].
  - cbn [wr] in U. destruct (level s) as [|[|[|[|[|k]]]]] eqn:E; try lia.
    all: try (apply understood_ok in U; apply (ok_tail _ 0 0 n 0) in U; [|first [apply nest_ok; apply wr_ok|apply wr_ok]];
              apply (ok_op _ (level s)) in U as [U _]; [lia|reflexivity]).
  - cbn [wr] in U. apply understood_ok in U. apply (ok_tail _ 0 0 n 0) in U; [|apply nest_ok; apply wr_ok].
    apply (ok_op _ 4) in U as [U _]; [lia|reflexivity].
Qed.

Lemma understood_nested : forall t n, n <= 5 -> understood n (nest_if (conditional t) (wr t)) t ->
  exists m, m <= 5 /\ understood m (wr t) t /\ (is_power t = true -> n <= 3).
Proof.
  intros t n N U. unfold nest_if in U. destruct (conditional t) eqn:C.
  - exists 0. split; [lia|]. split; [now apply (understood_parens n); [|apply wr_ok|]|]. intros P. destruct t as [|[]|]; discriminate.
  - exists n. split; [lia|]. split; [exact U|]. intros P. apply not_high in U; [|exact N]. destruct t as [|[]|]; try discriminate. exact U.
Qed.

Lemma understood_faithful : forall t n, n <= 5 -> understood n (wr t) t -> faithful t = true.
Proof.
  induction t as [a|s l IHl r IHr|s t IH]; intros n N U; [reflexivity| |].
  - assert (Ls : level s <= 4) by apply level_le.
    assert (Left : (if Nat.eqb (level s) 0 then 1 else level s) <= 5) by (destruct (Nat.eqb (level s) 0); lia).
    assert (Free : forall m, m <= 5 -> understood m (wr l ++ TSign s :: wr r) (Bin s l r) ->
              understood (if Nat.eqb (level s) 0 then 1 else level s) (wr l) l /\ understood (S (level s)) (wr r) r).
    { intros m M V. apply (understood_cut s (wr l) (wr r) l r m); auto using wr_ok, wr_lead, wr_leaves. }
    assert (Ord : forall t k, k <= 5 -> 1 <= k -> understood k (wr t) t -> ordering t = false).
    { intros t k K K1 V. apply not_high in V; [|exact K]. destruct t as [| s' x y |]; try reflexivity. cbn in *. destruct (level s'); [lia|reflexivity]. }
    cbn [wr] in U. cbn [faithful]. destruct (level s) as [|[|[|[|[|k]]]]] eqn:E; try lia; cbn [Nat.eqb] in *.
    + apply (understood_cut s _ _ l r n) in U; auto using nest_ok, wr_ok, nest_lead, wr_lead, nest_leaves. rewrite E in U. cbn [Nat.eqb] in U. destruct U as [Ul Ur].
      apply understood_nested in Ul as (m & M & Ul & _); [|lia]. apply understood_nested in Ur as (m' & M' & Ur & _); [|lia].
      rewrite (IHl m), (IHr m'); auto.
    + apply understood_parens in U; [|exact N|]. 2:{ apply (ok_app _ 0 0 0); [apply wr_ok|]. eapply op_ok; [reflexivity|lia|apply wr_ok]. }
      apply Free in U as [Ul Ur]; [|lia]. rewrite (IHl 1), (IHr 2), (Ord l 1), (Ord r 2); auto; lia.
    + apply understood_parens in U; [|exact N|]. 2:{ apply (ok_app _ 0 0 0); [apply wr_ok|]. eapply op_ok; [reflexivity|lia|apply wr_ok]. }
      apply Free in U as [Ul Ur]; [|lia]. rewrite (IHl 2), (IHr 3), (Ord l 2), (Ord r 3); auto; lia.
    + apply Free in U as [Ul Ur]; [|exact N]. assert (P : is_power r = false).
      { apply not_high in Ur; [|lia]. destruct r as [|[]|]; try reflexivity. cbn in Ur. lia. }
      rewrite (IHl 3), (IHr 4), (Ord l 3), (Ord r 4), P; auto; lia.
    + apply (understood_cut s _ _ l r n) in U; auto using nest_ok, wr_ok, nest_lead, wr_lead, nest_leaves. rewrite E in U. cbn [Nat.eqb] in U. destruct U as [Ul Ur].
      apply understood_nested in Ul as (m & M & Ul & Pl); [|lia]. apply understood_nested in Ur as (m' & M' & Ur & Pr); [|lia].
      rewrite (IHl m), (IHr m'); auto. destruct (is_power l); [specialize (Pl eq_refl); lia|]. destruct (is_power r); [specialize (Pr eq_refl); lia|]. reflexivity.
  - cbn [wr] in U. apply (understood_suffix s _ t n) in U; auto using nest_ok, wr_ok, nest_lead, wr_lead.
    apply understood_nested in U as (m & M & U & P); [|lia]. cbn [faithful]. rewrite (IH m); auto.
    destruct (is_power t); [specialize (P eq_refl); lia|reflexivity].
Qed.

Theorem wr_means : forall t, means (wr t) t <-> faithful t = true.
Proof.
  intros t. split; intros H.
  - apply (understood_faithful t 0); [lia|exact H].
  - unfold means. eapply understood_weaken; [now apply faithful_understood|apply standing_le|lia].
Qed.

End Written.
