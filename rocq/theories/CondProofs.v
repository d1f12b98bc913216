(** Lemmas about conditions (Cond.v) and their readings (SpecCond.v). *)

From Coq Require Import Ascii String List ZArith Bool Lia.
From Verif Require Import GoStr Escape Num VTree Ast SpecDoc SpecPrint DocProofs EscapeProofs SpecCond Cond.
Import ListNotations.
Open Scope string_scope.

(** ** The tokens of a condition *)

Definition conn_of (o : bop) : conn := match o with BAnd => CAnd | BOr => COr | BXor => CXor end.
Definition bop_of (o : conn) : bop := match o with CAnd => BAnd | COr => BOr | CXor => BXor end.

Lemma conn_bop : forall o, conn_of (bop_of o) = o.
Proof. now destruct o. Qed.
Lemma bop_conn : forall o, bop_of (conn_of o) = o.
Proof. now destruct o. Qed.
Lemma bop_eqb_eq : forall a b, bop_eqb a b = true <-> a = b.
Proof. destruct a, b; cbn; split; intros; congruence. Qed.
Lemma bop_eqb_refl : forall a, bop_eqb a a = true.
Proof. now destruct a. Qed.

(** The operator in front of a part (compound_condition.go:95-101). *)
Definition joiner (o : bop) (d : cnd) : bop := match d with Comp _ o' _ _ => o' | _ => o end.

Fixpoint tokens (c : cnd) : list (tok expr) :=
  match c with
  | Atom e => [TAtom e]
  | Neg _ _ c => TNot :: TL :: tokens c ++ [TR]
  | Comp _ o cs _ =>
      match cs with
      | [] => []
      | [c] => tokens c
      | c :: rest => TL :: (tokens c ++ flat_map (fun d => TOp (conn_of (joiner o d)) :: tokens d) rest) ++ [TR]
      end
  | _ => []
  end%list.

Fixpoint cnd_ind' (P : cnd -> Prop) (HN : P Nil) (HA : forall e, P (Atom e))
  (HG : forall k kn c, P c -> P (Neg k kn c)) (HB : forall e, P (Bad e)) (HE : P Empty)
  (HC : forall k o cs n, Forall P cs -> P (Comp k o cs n)) (HR : forall e cs, Forall P cs -> P (CompErr e cs))
  (c : cnd) : P c :=
  let rec := cnd_ind' P HN HA HG HB HE HC HR in
  let fix go cs : Forall P cs :=
    match cs with [] => Forall_nil P | c :: cs' => Forall_cons c (rec c) (go cs') end in
  match c with
  | Nil => HN
  | Atom e => HA e
  | Neg k kn c => HG k kn c (rec c)
  | Bad e => HB e
  | Empty => HE
  | Comp k o cs n => HC k o cs n (go cs)
  | CompErr e cs => HR e cs (go cs)
  end.

(** ** Values *)

Lemma and3_assoc : forall a b c, and3 (and3 a b) c = and3 a (and3 b c).
Proof. intros [[]|] [[]|] [[]|]; reflexivity. Qed.
Lemma or3_assoc : forall a b c, or3 (or3 a b) c = or3 a (or3 b c).
Proof. intros [[]|] [[]|] [[]|]; reflexivity. Qed.
Lemma xor3_assoc : forall a b c, xor3 (xor3 a b) c = xor3 a (xor3 b c).
Proof. intros [[]|] [[]|] [[]|]; reflexivity. Qed.
Lemma connect_assoc : forall o a b c, connect o (connect o a b) c = connect o a (connect o b c).
Proof. destruct o; [apply and3_assoc|apply or3_assoc|apply xor3_assoc]. Qed.

Lemma connect_some_assoc : forall o x y z,
  connect_some o (connect_some o x y) z = connect_some o x (connect_some o y z).
Proof. intros o [a|] [b|] [c|]; cbn; try reflexivity. now rewrite connect_assoc. Qed.

Lemma connect_some_none : forall o x, connect_some o x None = x.
Proof. now intros o [a|]. Qed.

Section Val.
Context (rho : expr -> tv).

Fixpoint val (c : cnd) : option tv :=
  match c with
  | Atom e => Some (rho e)
  | Neg _ _ c => option_map not3 (val c)
  | Comp _ o cs _ =>
      (fix go acc cs := match cs with
                        | [] => acc
                        | c :: cs' => go (connect_some (conn_of (joiner o c)) acc (val c)) cs'
                        end) None cs
  | _ => None
  end.

Definition step (o : bop) (acc : option tv) (c : cnd) := connect_some (conn_of (joiner o c)) acc (val c).
Definition run (o : bop) (cs : list cnd) (acc : option tv) : option tv := fold_left (step o) cs acc.

Lemma val_Comp : forall k o cs n, val (Comp k o cs n) = run o cs None.
Proof.
  intros. cbn [val]. unfold run. generalize (@None tv). induction cs as [|c cs IH]; intros acc; [reflexivity|].
  cbn. now rewrite IH.
Qed.

Lemma run_app : forall o a b acc, run o (a ++ b) acc = run o b (run o a acc).
Proof. intros. unfold run. apply fold_left_app. Qed.

(** Flattening: all parts are joined with the same operator. *)
Lemma run_flat : forall o cs acc, Forall (fun c => joiner o c = o) cs ->
  run o cs acc = connect_some (conn_of o) acc (run o cs None).
Proof.
  intros o cs. induction cs as [|c cs IH]; intros acc H; [cbn; now rewrite connect_some_none|].
  inversion H as [|? ? Hc Hcs]; subst.
  change (run o cs (step o acc c) = connect_some (conn_of o) acc (run o cs (step o None c))).
  rewrite IH by assumption. rewrite (IH (step o None c)) by assumption.
  unfold step. rewrite Hc. cbn [connect_some]. now rewrite connect_some_assoc.
Qed.

(** ** What the conditions built by the API contain *)

Inductive sound : cnd -> Prop :=
| s_atom : forall e, sound (Atom e)
| s_neg : forall k kn c, sound c -> (exists v, val c = Some v) -> sound (Neg k kn c)
| s_empty : sound Empty
| s_comp : forall k o cs n, Forall (fun c => sound c /\ exists v, val c = Some v) cs -> sound (Comp k o cs n).

Lemma sound_no_error : forall c, sound c -> get_error c = None.
Proof. now destruct 1. Qed.

Lemma run_some : forall o cs acc, Forall (fun c => sound c /\ exists v, val c = Some v) cs -> (exists v, acc = Some v) ->
  exists v, run o cs acc = Some v.
Proof.
  induction cs as [|c cs IH]; intros acc H [v ->]; [now exists v|].
  inversion H as [|? ? [_ [w Hw]] Hcs]; subst. cbn. apply IH; [assumption|].
  unfold step. rewrite Hw. cbn. eauto.
Qed.

Lemma val_comp_nil : forall k o cs n, sound (Comp k o cs n) -> val (Comp k o cs n) = None -> cs = [].
Proof.
  intros k o cs n H E. inversion H as [| | |? ? ? ? Hcs]; subst. rewrite val_Comp in E.
  destruct cs as [|c cs]; [reflexivity|]. exfalso.
  inversion Hcs as [|? ? [_ [w Hw]] Hr]; subst.
  destruct (run_some o cs (step o None c) Hr) as [v Hv]; [unfold step; rewrite Hw; cbn; eauto|].
  change (run o cs (step o None c) = None) in E. congruence.
Qed.

Lemma val_comp_cons : forall k o c cs n, sound (Comp k o (c :: cs) n) -> exists v, val (Comp k o (c :: cs) n) = Some v.
Proof.
  intros. destruct (val (Comp k o (c :: cs) n)) eqn:E; [eauto|]. now apply val_comp_nil in E.
Qed.

Definition flat (o : bop) (cs : list cnd) : Prop := Forall (fun c => joiner o c = o) cs.

Lemma flattened_flat : forall o cs, Forall (fun c => sound c /\ exists v, val c = Some v) cs ->
  can_be_flattened o cs = true -> flat o cs.
Proof.
  induction 1 as [|c cs [Hs [v Hv]] Hcs IH]; intros H; [constructor|].
  cbn in H. apply andb_prop in H as [H1 H2]. constructor; [|now apply IH].
  destruct c; cbn in *; try reflexivity; try discriminate.
  unfold has_op in H1. cbn in H1. now apply bop_eqb_eq.
Qed.

Notation parts := (Forall (fun c => sound c /\ exists v, val c = Some v)).

(** Adding a part to a compound with its own operator. *)
Lemma added_val : forall ki cs o x, parts cs -> sound x ->
  parts (added ki cs o x) /\ run o (added ki cs o x) None = connect_some (conn_of o) (run o cs None) (val x).
Proof.
  intros ki cs o x Hcs Hx. unfold added, add_conditions.
  assert (Happ : forall y, sound y -> (exists v, val y = Some v) -> joiner o y = o ->
    parts (cs ++ [y]) /\ run o (cs ++ [y]) None = connect_some (conn_of o) (run o cs None) (val y)).
  { intros y Hy Hv Hj. split; [apply Forall_app; split; [assumption|constructor; [split; assumption|constructor]]|].
    rewrite run_app. cbn. unfold step. now rewrite Hj. }
  destruct x as [|e|k kn c|e| |k o' inner n|e inner]; cbn [compound_conditions].
  - inversion Hx.
  - apply Happ; [assumption|cbn; eauto|reflexivity].
  - apply Happ; [assumption| |reflexivity]. inversion Hx as [|? ? ? _ [v Hv]| |]; subst. cbn. rewrite Hv. cbn. eauto.
  - inversion Hx.
  - split; [assumption|]. now rewrite connect_some_none.
  - destruct inner as [|i inner].
    + split; [assumption|]. cbn. now rewrite connect_some_none.
    + destruct (val_comp_cons _ _ _ _ _ Hx) as [v Hv].
      cbn [andb]. change (has_op o (Comp k o' (i :: inner) n)) with (bop_eqb o' o).
      destruct (bop_eqb o' o) eqn:Eo.
      * apply bop_eqb_eq in Eo. subst o'.
        destruct (can_be_flattened o (i :: inner)) eqn:Ef.
        -- inversion Hx as [| | |? ? ? ? Hi]; subst. split; [apply Forall_app; split; assumption|].
           cbv iota. rewrite run_app, val_Comp. apply run_flat. now apply flattened_flat.
        -- apply Happ; [assumption|eauto|reflexivity].
      * assert (Hw : val (Comp ki o [Comp k o' (i :: inner) n] 0) = val (Comp k o' (i :: inner) n)).
        { rewrite val_Comp. cbn [run fold_left]. unfold run. cbn [fold_left]. unfold step at 1. reflexivity. }
        destruct (Happ (Comp ki o [Comp k o' (i :: inner) n] 0)) as [Hp Hr].
        -- constructor. constructor; [split; [assumption|eauto]|constructor].
        -- rewrite Hw. eauto.
        -- reflexivity.
        -- split; [assumption|]. now rewrite Hr, Hw.
  - inversion Hx.
Qed.

(** Adding a compound to a compound with another operator. *)
Lemma add_other_val : forall ki cs o ch x cs', parts cs -> sound x -> bop_eqb o ch = false ->
  add_conditions ki false cs ch x = Some cs' ->
  parts cs' /\ run o cs' None = connect_some (conn_of ch) (run o cs None) (val x).
Proof.
  intros ki cs o ch x cs' Hcs Hx Ho H. unfold add_conditions in H.
  destruct x as [|e|k kn c|e| |k o' inner n|e inner]; cbn [compound_conditions] in H; try discriminate.
  - inversion H; subst. split; [assumption|]. now rewrite connect_some_none.
  - destruct inner as [|i inner].
    + inversion H; subst. split; [assumption|]. cbn. now rewrite connect_some_none.
    + destruct (val_comp_cons _ _ _ _ _ Hx) as [v Hv]. cbn [andb] in H. inversion H; subst.
      assert (Hw : val (Comp ki ch [Comp k o' (i :: inner) n] 0) = val (Comp k o' (i :: inner) n)).
      { rewrite val_Comp. unfold run. cbn [fold_left]. unfold step at 1. reflexivity. }
      split.
      * apply Forall_app; split; [assumption|]. constructor; [|constructor]. split; [|rewrite Hw; eauto].
        constructor. constructor; [split; [assumption|eauto]|constructor].
      * rewrite run_app. cbn [run fold_left]. unfold run. cbn [fold_left]. unfold step at 1. cbn [joiner].
        now rewrite Hw.
  - inversion Hx.
Qed.

Lemma create_val : forall ks l o r, sound l -> sound r ->
  sound (create ks l o r) /\ val (create ks l o r) = connect_some (conn_of o) (val l) (val r)
  /\ compound_op (create ks l o r) = Some o.
Proof.
  intros ks l o r Hl Hr. unfold create.
  rewrite (sound_no_error _ Hl), (sound_no_error _ Hr).
  destruct (added_val (ks 1) [] o l (Forall_nil _) Hl) as [P1 V1].
  destruct (added_val (ks 2) _ o r P1 Hr) as [P2 V2].
  assert (G : forall n, sound (Comp (ks 0) o (added (ks 2) (added (ks 1) [] o l) o r) n)
            /\ val (Comp (ks 0) o (added (ks 2) (added (ks 1) [] o l) o r) n) = connect_some (conn_of o) (val l) (val r)).
  { intros n. split; [now constructor|]. rewrite val_Comp, V2, V1. reflexivity. }
  destruct l; destruct r; try (now inversion Hl); try (now inversion Hr);
    cbv zeta; (split; [apply G|split; [apply G|reflexivity]]).
Qed.

Lemma chain_val : forall ks o c d x, sound c -> sound d -> container_chain ks o c d = Val x ->
  sound x /\ val x = connect_some (conn_of o) (val c) (val d).
Proof.
  intros ks o c d x Hc Hd H.
  assert (Hcr := create_val ks c o d Hc Hd).
  destruct c; cbn [container_chain] in H; try discriminate; inversion H; subst; clear H;
    try (split; apply Hcr); try (now inversion Hc).
  - (* EMPTY *) cbn [add]. destruct (added_val (ks 3) [] o d (Forall_nil _) Hd) as [P V].
    split; [now constructor|]. now rewrite val_Comp, V.
  - (* compound *)
    cbn [add]. inversion Hc as [| | |? ? ? ? Hcs]; subst.
    destruct (bop_eqb o0 o) eqn:E.
    + assert (Eo := proj1 (bop_eqb_eq _ _) E). subst o0.
      destruct (added_val (ks 3) cs o d Hcs Hd) as [P V]. unfold added in P, V.
      destruct (add_conditions (ks 3) true cs o d) eqn:Ea.
      * split; [now constructor|]. now rewrite !val_Comp, V.
      * split; apply Hcr.
    + destruct (add_conditions (ks 3) false cs o d) eqn:Ea.
      * destruct (add_other_val _ _ _ _ _ _ Hcs Hd E Ea) as [P V]. split; [now constructor|]. now rewrite !val_Comp, V.
      * split; apply Hcr.
Qed.

End Val.

(** ** Values of the conditions made by calls *)

Lemma conn_of_bop : forall o, conn_of (bop_of_conn o) = o.
Proof. now destruct o. Qed.

Lemma embedded_sound : forall ks o c d, (forall k p cs n, c <> Comp k p cs n) -> c <> Empty -> get_error c = None ->
  condition_chain ks o c d = container_chain ks o c d.
Proof. intros ks o [] d H1 H2 H3; cbn in *; try reflexivity; try congruence. Qed.

Lemma method_chain : forall rho ks o c d, sound rho c -> condition_chain ks o c d = container_chain ks o c d.
Proof. destruct 1; reflexivity. Qed.

Lemma meaning_blank : forall (rho : expr -> tv) c, blank c = true <-> meaning rho c = None.
Proof.
  intros rho c. induction c as [a| |o c IHc d IHd|c IHc]; cbn.
  - split; discriminate.
  - tauto.
  - rewrite andb_true_iff, IHc, IHd. destruct (meaning rho c), (meaning rho d); cbn; intuition congruence.
  - rewrite IHc. destruct (meaning rho c); cbn; intuition congruence.
Qed.

Lemma makes_val : forall rho c x, makes c x -> proper c = true -> sound rho x /\ val rho x = meaning rho c.
Proof.
  intros rho c x H. induction H as [e| |ks o c d x y z H1 IH1 H2 IH2 Hz|ks o c d x y z H1 IH1 H2 IH2 Hz
    |ks o c e x z H1 IH1 Hz|ks c x z H1 IH1 Hz]; intros P; cbn in P.
  - split; [constructor|reflexivity].
  - split; [constructor|reflexivity].
  - apply andb_prop in P as [P1 P2]. destruct (IH1 P1) as [S1 V1]. destruct (IH2 P2) as [S2 V2].
    destruct (chain_val rho _ _ _ _ _ S1 S2 Hz) as [S V]. split; [assumption|]. cbn.
    now rewrite V, V1, V2, conn_of_bop.
  - apply andb_prop in P as [P1 P2]. destruct (IH1 P1) as [S1 V1]. destruct (IH2 P2) as [S2 V2].
    rewrite (method_chain rho _ _ _ _ S1) in Hz.
    destruct (chain_val rho _ _ _ _ _ S1 S2 Hz) as [S V]. split; [assumption|]. cbn.
    now rewrite V, V1, V2, conn_of_bop.
  - rewrite andb_true_r in P. destruct (IH1 P) as [S1 V1].
    assert (E : z = create ks x (bop_of_conn o) (Atom e)) by (unfold container_pattern in Hz; destruct x; congruence). subst z.
    destruct (create_val rho ks x (bop_of_conn o) (Atom e) S1 (s_atom rho e)) as [S [V _]].
    split; [assumption|]. cbn. now rewrite V, V1, conn_of_bop.
  - apply andb_prop in P as [P1 P2]. destruct (IH1 P1) as [S1 V1].
    unfold container_not, comparison_not in Hz. rewrite (sound_no_error rho _ S1) in Hz.
    assert (E : z = Neg (ks 0) (ks 1) x) by (destruct x; inversion Hz; subst; try reflexivity; inversion S1). subst z.
    split; [|cbn; now rewrite V1]. constructor; [assumption|]. rewrite V1.
    destruct (meaning rho c) eqn:E; [eauto|]. apply meaning_blank in E. rewrite E in P2. discriminate.
Qed.

(** ** Reading the tokens *)

Lemma reads_weaken : forall A (rho : A -> tv) n ts v, reads rho n ts v -> n <= 3 -> forall m, m <= n -> reads rho m ts v.
Proof.
  intros A rho n ts v H Hn m Hm. revert ts v H Hn. induction Hm as [|n Hm IH]; intros; [assumption|].
  apply IH; [apply r_up; [lia|assumption]|lia].
Qed.

Fixpoint descending (n : nat) (l : list conn) : Prop :=
  match l with [] => True | o :: l' => prec o <= n /\ descending (prec o) l' end.

Fixpoint tight (c : cnd) : Prop :=
  match c with
  | Neg _ _ c => tight c
  | Comp _ o cs _ =>
      (fix go cs := match cs with [] => True | c :: cs' => tight c /\ go cs' end) cs
      /\ descending 3 (map (fun d => conn_of (joiner o d)) (tl cs))
  | _ => True
  end.

Definition tights (cs : list cnd) : Prop := Forall tight cs.

Lemma tight_Comp : forall k o cs n, tight (Comp k o cs n) <->
  Forall tight cs /\ descending 3 (map (fun d => conn_of (joiner o d)) (tl cs)).
Proof.
  intros. cbn [tight].
  assert (E : forall cs, (fix go cs := match cs with [] => True | c :: cs' => tight c /\ go cs' end) cs <-> Forall tight cs).
  { clear. induction cs as [|c cs IH]; [split; constructor|]. rewrite IH. split.
    - intros [? ?]. now constructor.
    - inversion 1; tauto. }
  now rewrite E.
Qed.

Lemma prec_le : forall o, prec o <= 2.
Proof. destruct o; cbn; lia. Qed.

Lemma seq_reads : forall rho o rest n ts acc,
  reads rho n ts acc -> n <= 3 ->
  descending n (map (fun d => conn_of (joiner o d)) rest) ->
  Forall (fun d => exists v, val rho d = Some v /\ reads rho 3 (tokens d) v) rest ->
  exists v, run rho o rest (Some acc) = Some v
         /\ reads rho 0 (ts ++ flat_map (fun d => TOp (conn_of (joiner o d)) :: tokens d) rest) v.
Proof.
  intros rho o rest. induction rest as [|d rest IH]; intros n ts acc H Hn Hd Hv.
  - exists acc. split; [reflexivity|]. cbn. rewrite app_nil_r. eapply reads_weaken; [eassumption|assumption|lia].
  - inversion Hv as [|? ? [w [Ew Rw]] Hr]; subst. destruct Hd as [Hp Hd].
    set (p := conn_of (joiner o d)) in *.
    assert (R : reads rho (prec p) (ts ++ TOp p :: tokens d) (connect p acc w)).
    { apply r_op.
      - eapply reads_weaken; [eassumption|assumption|assumption].
      - eapply reads_weaken; [eassumption|lia|]. pose proof (prec_le p). lia. }
    destruct (IH _ _ _ R) as [v [Ev Rv]]; [pose proof (prec_le p); lia|assumption|assumption|].
    exists v. split.
    + change (run rho o rest (step rho o (Some acc) d) = Some v). unfold step. fold p. rewrite Ew. exact Ev.
    + cbn. fold p. rewrite <- app_assoc in Rv. exact Rv.
Qed.

Lemma tight_reads : forall rho c v, sound rho c -> tight c -> val rho c = Some v -> reads rho 3 (tokens c) v.
Proof.
  intros rho c. induction c as [|e|k kn c IH|e| |k o cs n IH|e cs IH] using cnd_ind'; intros v S T V; cbn in V; try discriminate.
  - inversion V. apply r_atom.
  - inversion S as [|? ? ? Sc [w Hw]| |]; subst. rewrite Hw in V. inversion V; subst.
    cbn. apply r_not. apply r_paren. apply reads_weaken with 3; [|lia|lia]. apply IH; assumption.
  - change (val rho (Comp k o cs n) = Some v) in V. rewrite val_Comp in V.
    apply tight_Comp in T as [T D]. inversion S as [| | |? ? ? ? P]; subst.
    assert (Q : Forall (fun d => exists v, val rho d = Some v /\ reads rho 3 (tokens d) v) cs).
    { clear - IH T P. induction cs as [|c cs IHcs]; [constructor|].
      inversion IH; inversion T; inversion P as [|? ? [S [w W]]]; subst. constructor; [eauto|auto]. }
    destruct cs as [|c [|c' cs]]; [discriminate| |].
    + inversion Q as [|? ? [w [W R]] _]; subst. cbn in V. unfold step in V. rewrite W in V. cbn in V.
      inversion V; subst. exact R.
    + inversion Q as [|? ? [w [W R]] Q']; subst.
      change (run rho o (c' :: cs) (step rho o None c) = Some v) in V. unfold step in V. rewrite W in V.
      destruct (seq_reads rho o (c' :: cs) 3 (tokens c) w R) as [u [U RU]]; [lia|exact D|assumption|].
      cbn [connect_some] in V. rewrite U in V. inversion V; subst. cbn [tokens]. apply r_paren. exact RU.
Qed.

(** ** Chains that are not mixed *)

Fixpoint uniform (c : cnd) : Prop :=
  match c with
  | Neg _ _ c => uniform c
  | Comp _ o cs _ =>
      (fix go cs := match cs with [] => True | c :: cs' => uniform c /\ go cs' end) cs /\ flat o (tl cs)
  | _ => True
  end.

Lemma uniform_Comp : forall k o cs n, uniform (Comp k o cs n) <-> Forall uniform cs /\ flat o (tl cs).
Proof.
  intros. cbn [uniform].
  assert (E : forall cs, (fix go cs := match cs with [] => True | c :: cs' => uniform c /\ go cs' end) cs <-> Forall uniform cs).
  { clear. induction cs as [|c cs IH]; [split; constructor|]. rewrite IH. split.
    - intros [? ?]. now constructor.
    - inversion 1; tauto. }
  now rewrite E.
Qed.

Lemma flat_descending : forall o cs n, flat o cs -> prec (conn_of o) <= n ->
  descending n (map (fun d => conn_of (joiner o d)) cs).
Proof.
  intros o cs. induction cs as [|c cs IH]; intros n H L; [exact I|].
  inversion H as [|? ? E F]; subst. cbn. rewrite E. split; [assumption|]. apply IH; [assumption|lia].
Qed.

Lemma uniform_tight : forall c, uniform c -> tight c.
Proof.
  intros c. induction c as [|e|k kn c IH|e| |k o cs n IH|e cs IH] using cnd_ind'; intros U; cbn; try exact I.
  - now apply IH.
  - change (tight (Comp k o cs n)). apply uniform_Comp in U as [U F]. apply tight_Comp. split.
    + clear - IH U. induction cs; inversion IH; inversion U; subst; constructor; auto.
    + apply flat_descending; [assumption|]. pose proof (prec_le (conn_of o)). lia.
Qed.

Lemma flat_tl_app : forall o a b, flat o (tl a) -> flat o b -> flat o (tl (a ++ b)).
Proof.
  intros o [|x a] b Ha Hb; cbn in *.
  - destruct b; [constructor|]. now inversion Hb.
  - now apply Forall_app.
Qed.

(** A part may be added to a compound with operator [o] by [ch]. *)
Lemma added_uniform : forall rho ki cs o x, Forall uniform cs -> flat o (tl cs) -> uniform x -> sound rho x ->
  Forall uniform (added ki cs o x) /\ flat o (tl (added ki cs o x)).
Proof.
  intros rho ki cs o x Hc Hf Hx Sx. unfold added, add_conditions.
  assert (Happ : forall y, uniform y -> joiner o y = o -> Forall uniform (cs ++ [y]) /\ flat o (tl (cs ++ [y]))).
  { intros y Hy Hj. split; [apply Forall_app; split; [assumption|constructor; [assumption|constructor]]|].
    apply flat_tl_app; [assumption|constructor; [assumption|constructor]]. }
  destruct x as [|e|k kn c|e| |k o' inner n|e inner]; cbn [compound_conditions]; try (now split);
    try (apply Happ; [assumption|reflexivity]); try (now inversion Sx).
  destruct inner as [|i inner]; [now split|].
  cbn [andb]. change (has_op o (Comp k o' (i :: inner) n)) with (bop_eqb o' o).
  destruct (bop_eqb o' o) eqn:Eo.
  - apply bop_eqb_eq in Eo. subst o'.
    destruct (can_be_flattened o (i :: inner)) eqn:Ef.
    + apply uniform_Comp in Hx as [Hi _]. inversion Sx as [| | |? ? ? ? Hp]; subst.
      split; [now apply Forall_app|]. apply flat_tl_app; [assumption|]. eapply flattened_flat; eassumption.
    + apply Happ; [assumption|reflexivity].
  - apply Happ; [|reflexivity]. apply uniform_Comp. split; [constructor; [assumption|constructor]|constructor].
Qed.

Lemma create_uniform : forall rho ks l o r, sound rho l -> sound rho r -> uniform l -> uniform r ->
  uniform (create ks l o r).
Proof.
  intros rho ks l o r Sl Sr Ul Ur. unfold create.
  rewrite (sound_no_error _ _ Sl), (sound_no_error _ _ Sr).
  destruct (added_uniform rho (ks 1) [] o l) as [U1 F1]; [constructor|constructor|assumption|assumption|].
  destruct (added_uniform rho (ks 2) (added (ks 1) [] o l) o r) as [U2 F2]; [assumption|assumption|assumption|assumption|].
  destruct l; destruct r; try (now inversion Sl); try (now inversion Sr);
    cbv zeta; apply uniform_Comp; split; assumption.
Qed.

Definition goes_with (o : bop) (x y : cnd) : Prop :=
  compound_op x = None \/ compound_op x = Some o \/ compound_conditions y = None \/ compound_conditions y = Some [].

Lemma chain_uniform : forall rho ks o x y z, sound rho x -> sound rho y -> uniform x -> uniform y ->
  goes_with o x y -> container_chain ks o x y = Val z ->
  uniform z /\ compound_op z = match compound_op x with
                               | Some p => match compound_conditions y with Some [] => Some p | _ => Some o end
                               | None => Some o
                               end.
Proof.
  intros rho ks o x y z Sx Sy Ux Uy G H.
  assert (Hc := create_uniform rho ks x o y Sx Sy Ux Uy).
  destruct (create_val rho ks x o y Sx Sy) as [_ [_ Ho]].
  destruct x; cbn [container_chain] in H; try discriminate; inversion H; subst; clear H;
    try (now split); try (now inversion Sx).
  - cbn [add]. destruct (added_uniform rho (ks 3) [] o y) as [U F]; [constructor|constructor|assumption|assumption|].
    split; [|reflexivity]. apply uniform_Comp. now split.
  - cbn [add]. apply uniform_Comp in Ux as [Ucs Fcs]. cbn [compound_op].
    destruct (bop_eqb o0 o) eqn:E.
    + assert (Eo := proj1 (bop_eqb_eq _ _) E). subst o0.
      destruct (added_uniform rho (ks 3) cs o y) as [U F]; [assumption|assumption|assumption|assumption|].
      unfold added in U, F. destruct (add_conditions (ks 3) true cs o y) eqn:Ea.
      * split; [apply uniform_Comp; now split|]. cbn [compound_op].
        destruct (compound_conditions y) as [[|? ?]|]; reflexivity.
      * unfold add_conditions in Ea. destruct (compound_conditions y) as [[|? ?]|]; try discriminate.
        cbn [andb] in Ea. destruct (has_op o y), (can_be_flattened o (c :: l)); discriminate.
    + unfold add_conditions. destruct (compound_conditions y) as [[|i inner]|] eqn:Ey.
      * split; [apply uniform_Comp; now split|reflexivity].
      * exfalso. destruct G as [G|[G|[G|G]]]; try discriminate; try (rewrite Ey in G; discriminate).
        cbn in G. inversion G; subst. now rewrite bop_eqb_refl in E.
      * now split.
Qed.

Lemma compound_none_val : forall rho x, sound rho x -> val rho x = None ->
  compound_conditions x = Some [].
Proof.
  intros rho x S V. inversion S; subst; cbn in V; try discriminate.
  - destruct H0 as [v Hv]. rewrite Hv in V. discriminate.
  - reflexivity.
  - cbn. f_equal. eapply val_comp_nil; eassumption.
Qed.

Lemma compound_some_val : forall rho x v, sound rho x -> val rho x = Some v ->
  compound_conditions x <> Some [].
Proof. intros rho x v S V E. destruct x; cbn in E; inversion E; subst; discriminate. Qed.

Lemma makes_not_chain : forall c x, makes c x -> (forall o c' d, c <> Chain o c' d) ->
  compound_op x = None /\ (compound_conditions x = None \/ compound_conditions x = Some []).
Proof.
  intros c x H N. destruct H as [e| |? ? ? ? ? ? ? ? ? ?|? ? ? ? ? ? ? ? ? ?|? ? ? ? ? ? ? ?|ks c x z H1 Hz];
    try (exfalso; eapply N; reflexivity); cbn; auto.
  unfold container_not, comparison_not in Hz. destruct (get_error x); [inversion Hz; subst; cbn; auto|].
  destruct x; inversion Hz; subst; cbn; auto.
Qed.

Lemma makes_uniform : forall c x, makes c x -> proper c = true -> unmixed c = true ->
  uniform x /\ compound_op x = option_map bop_of_conn (outer c).
Proof.
  set (rho := fun _ : expr => @None bool).
  assert (STEP : forall ks o c d x y z, makes c x -> makes d y ->
     (uniform x /\ compound_op x = option_map bop_of_conn (outer c)) ->
     (uniform y /\ compound_op y = option_map bop_of_conn (outer d)) ->
     proper c = true -> proper d = true ->
     (negb (is_chain d) || match outer c with Some p => conn_eqb p o | None => true end = true)%bool ->
     container_chain ks (bop_of_conn o) x y = Val z ->
     uniform z /\ compound_op z = option_map bop_of_conn (outer (Chain o c d))).
  { intros ks o c d x y z H1 H2 [U1 O1] [U2 O2] P1 P2 M Hz.
    destruct (makes_val rho _ _ H1 P1) as [S1 V1]. destruct (makes_val rho _ _ H2 P2) as [S2 V2].
    assert (G : goes_with (bop_of_conn o) x y).
    { unfold goes_with. rewrite O1. apply orb_prop in M as [M|M].
      - destruct (blank d) eqn:Bd.
        + right; right; right. apply meaning_blank with (rho := rho) in Bd. rewrite <- V2 in Bd.
          eapply compound_none_val; eassumption.
        + right; right. eapply makes_not_chain; [eassumption|]. intros o' c' d' ->. cbn in M, Bd.
          rewrite Bd in M. discriminate.
      - destruct (outer c) as [p|]; [|now left]. right; left. cbn. f_equal. destruct p, o; cbn in M; congruence. }
    destruct (chain_uniform rho _ _ _ _ _ S1 S2 U1 U2 G Hz) as [U O]. split; [assumption|].
    rewrite O, O1. cbn [outer]. destruct (outer c) as [p|]; [|reflexivity]. cbn [option_map].
    destruct (blank d) eqn:Bd.
    - apply meaning_blank with (rho := rho) in Bd. rewrite <- V2 in Bd.
      now rewrite (compound_none_val rho _ S2 Bd).
    - destruct (val rho y) eqn:Vy.
      + pose proof (compound_some_val rho _ _ S2 Vy). destruct (compound_conditions y) as [[|? ?]|]; [congruence|reflexivity|reflexivity].
      + symmetry in V2. apply meaning_blank in V2. congruence. }
  intros c x H. induction H as [e| |ks o c d x y z H1 IH1 H2 IH2 Hz|ks o c d x y z H1 IH1 H2 IH2 Hz
    |ks o c e x z H1 IH1 Hz|ks c x z H1 IH1 Hz]; intros P M; cbn in P, M.
  - now split.
  - now split.
  - apply andb_prop in P as [P1 P2]. apply andb_prop in M as [M M3]. apply andb_prop in M as [M1 M2].
    apply STEP with (5 := P1) (6 := P2) (8 := Hz); auto.
  - apply andb_prop in P as [P1 P2]. apply andb_prop in M as [M M3]. apply andb_prop in M as [M1 M2].
    destruct (makes_val rho _ _ H1 P1) as [S1 V1]. rewrite (method_chain rho _ _ _ _ S1) in Hz.
    apply STEP with (5 := P1) (6 := P2) (8 := Hz); auto.
  - rewrite andb_true_r in P, M. rewrite andb_true_r in M. destruct (IH1 P M) as [U1 O1].
    assert (E : z = create ks x (bop_of_conn o) (Atom e)) by (unfold container_pattern in Hz; destruct x; congruence). subst z.
    destruct (makes_val rho _ _ H1 P) as [S1 V1].
    split; [apply create_uniform with rho; [assumption|constructor|assumption|exact I]|].
    destruct (create_val rho ks x (bop_of_conn o) (Atom e) S1 (s_atom rho e)) as [_ [_ ->]].
    cbn. now destruct (outer c).
  - apply andb_prop in P as [P1 P2]. destruct (IH1 P1 M) as [U1 O1]. destruct (makes_val rho _ _ H1 P1) as [S1 V1].
    unfold container_not, comparison_not in Hz. rewrite (sound_no_error rho _ S1) in Hz.
    assert (E : z = Neg (ks 0) (ks 1) x) by (destruct x; inversion Hz; subst; try reflexivity; inversion S1). subst z.
    now split.
Qed.

(** ** A reading is unique *)

Section Unique.
Context {A : Type} (rho : A -> tv).

Definition opens (n : nat) (ts : list (tok A)) : bool :=
  match ts with TOp o :: _ => Nat.eqb (prec o) n | _ => false end.

Inductive pr : nat -> list (tok A) -> tv -> list (tok A) -> Prop :=
| p_atom : forall a r, pr 3 (TAtom a :: r) (rho a) r
| p_not : forall r v r', pr 3 r v r' -> pr 3 (TNot :: r) (not3 v) r'
| p_paren : forall r v r', pr 0 r v (TR :: r') -> pr 3 (TL :: r) v r'
| p_lvl : forall n ts v r w r', n < 3 -> pr (S n) ts v r -> lp n v r w r' -> pr n ts w r'
with lp : nat -> tv -> list (tok A) -> tv -> list (tok A) -> Prop :=
| l_stop : forall n v ts, opens n ts = false -> lp n v ts v ts
| l_go : forall o v r w r' u r'', pr (S (prec o)) r w r' -> lp (prec o) (connect o v w) r' u r'' ->
    lp (prec o) v (TOp o :: r) u r''.

Scheme pr_mut := Induction for pr Sort Prop with lp_mut := Induction for lp Sort Prop.
Combined Scheme pr_lp_ind from pr_mut, lp_mut.

Lemma pr_det :
  (forall n ts v r, pr n ts v r -> forall v' r', pr n ts v' r' -> v = v' /\ r = r')
  /\ (forall n a ts v r, lp n a ts v r -> forall v' r', lp n a ts v' r' -> v = v' /\ r = r').
Proof.
  apply pr_lp_ind.
  - intros a r v' r' H. inversion H; subst; [now split|lia].
  - intros r v r' _ IH v' r2 H. inversion H; subst; [|lia]. destruct (IH _ _ H1) as [-> ->]. now split.
  - intros r v r' _ IH v' r2 H. inversion H; subst; [|lia]. destruct (IH _ _ H1) as [-> E]. inversion E. now split.
  - intros n ts v r w r' L _ IH1 _ IH2 v' r2 H. inversion H; subst; try lia.
    destruct (IH1 _ _ H1) as [-> ->]. now apply IH2.
  - intros n v ts O v' r' H. inversion H; subst; [now split|]. cbn in O. rewrite Nat.eqb_refl in O. discriminate.
  - intros o v r w r' u r'' _ IH1 _ IH2 v' r2 H. inversion H; subst.
    + cbn in H0. rewrite Nat.eqb_refl in H0. discriminate.
    + match goal with X : pr _ r _ _ |- _ => destruct (IH1 _ _ X) as [-> ->] end. now apply IH2.
Qed.

Definition tighter (n : nat) (ts : list (tok A)) : bool :=
  match ts with TOp o :: _ => Nat.ltb n (prec o) | _ => false end.

Definition fin (n : nat) (v : tv) (r : list (tok A)) (u : tv) (r' : list (tok A)) : Prop :=
  if Nat.ltb n 3 then lp n v r u r' else u = v /\ r' = r.

Lemma fin_done : forall n v r, tighter n r = false -> fin (S n) v r v r.
Proof.
  intros n v r T. unfold fin. destruct (Nat.ltb (S n) 3); [|now split]. apply l_stop.
  destruct r as [|[]]; try reflexivity. cbn in *. apply Nat.ltb_ge in T. apply Nat.eqb_neq. lia.
Qed.

Lemma reads_pr : forall n ts v, reads rho n ts v -> forall rest u rest',
  tighter n rest = false -> fin n v rest u rest' -> pr n (ts ++ rest) u rest'.
Proof.
  induction 1 as [a|ts v H IH|ts v H IH|o l r v w H1 IH1 H2 IH2|n ts v L H IH]; intros rest u rest' T F.
  - unfold fin in F. cbn in F. destruct F as [-> ->]. apply p_atom.
  - unfold fin in F. cbn in F. destruct F as [-> ->]. cbn. apply p_paren. rewrite <- app_assoc.
    apply IH; [reflexivity|]. unfold fin. cbn. apply l_stop. reflexivity.
  - unfold fin in F. cbn in F. destruct F as [-> ->]. cbn. apply p_not. apply IH; [assumption|]. unfold fin. cbn. now split.
  - rewrite <- app_assoc. cbn. apply IH1; [cbn; apply Nat.ltb_irrefl|].
    unfold fin in *. pose proof (prec_le o) as P.
    replace (Nat.ltb (prec o) 3) with true in * by (symmetry; apply Nat.ltb_lt; lia).
    apply l_go with w rest; [|assumption]. apply IH2.
    + destruct rest as [|[]]; try reflexivity. unfold tighter in *. apply Nat.ltb_ge in T. apply Nat.ltb_ge. lia.
    + exact (fin_done _ _ _ T).
  - unfold fin in F. replace (Nat.ltb n 3) with true in F by (symmetry; apply Nat.ltb_lt; lia).
    apply p_lvl with v rest; [assumption| |assumption]. apply IH.
    + destruct rest as [|[]]; try reflexivity. unfold tighter in *. apply Nat.ltb_ge in T. apply Nat.ltb_ge. lia.
    + now apply fin_done.
Qed.

Theorem reads_unique : forall n m ts v w, n <= 3 -> m <= 3 -> reads rho n ts v -> reads rho m ts w -> v = w.
Proof.
  intros n m ts v w Hn Hm H1 H2. apply reads_weaken with (m := 0) in H1; [|lia|lia]. apply reads_weaken with (m := 0) in H2; [|lia|lia].
  assert (P1 : pr 0 (ts ++ []) v []). { apply reads_pr with v; [assumption|reflexivity|]. unfold fin. cbn. now apply l_stop. }
  assert (P2 : pr 0 (ts ++ []) w []). { apply reads_pr with w; [assumption|reflexivity|]. unfold fin. cbn. now apply l_stop. }
  now destruct (proj1 pr_det _ _ _ _ P1 _ _ P2).
Qed.

End Unique.

(** ** The text of a condition *)

From Verif Require Import VTreeSim RenderProofs.

Lemma no_alias_introduce : forall d m, no_alias d = true -> introduced (introduce_all d m) = introduced m.
Proof.
  apply (doc_ind' (fun d => forall m, no_alias d = true -> introduced (introduce_all d m) = introduced m)
                  (fun l => forall m, forallb no_alias l = true -> introduced (intros_l l m) = introduced m)).
  - reflexivity.
  - intros l IH m H. rewrite intro_Cat. now apply IH.
  - intros l IH m H. rewrite intro_Commas. now apply IH.
  - intros k d IH m H. now apply IH.
  - intros k n d IH m H. now apply IH.
  - discriminate.
  - reflexivity.
  - intros d l IHd IHl m H. cbn in H. apply andb_prop in H as [H1 H2]. cbn [intros_l]. rewrite IHl by assumption. now apply IHd.
Qed.

Lemma no_alias_write : forall d m, no_alias d = true -> introduced m = [] -> introduced (snd (write d m)) = [].
Proof.
  apply (doc_ind' (fun d => forall m, no_alias d = true -> introduced m = [] -> introduced (snd (write d m)) = [])
                  (fun l => forall m, forallb no_alias l = true -> introduced m = [] ->
                     introduced (snd (wcat l m)) = [] /\ introduced (snd (wrest l m)) = [])).
  - auto.
  - intros l IH m H I. rewrite write_Cat. now apply IH.
  - intros l IH m H I. destruct l as [|d l]; [exact I|]. rewrite write_Commas.
    destruct (IH m H I) as [_ J]. cbn [wrest] in J. destruct (write d m) as [x m1]. destruct (wrest l m1) as [y m2]. exact J.
  - intros k d IH m H I. rewrite write_Shared, I. cbn [alias_of]. now apply IH.
  - intros k n d IH m H I. cbn [write]. destruct (existsb (String.eqb k) (written m)).
    + cbn [snd]. rewrite no_alias_introduce by exact H. exact I.
    + specialize (IH (mark k m) H I). destruct (write d (mark k m)). exact IH.
  - discriminate.
  - intros m _ I. now split.
  - intros d l IHd IHl m H I. cbn in H. apply andb_prop in H as [H1 H2]. cbn [wcat wrest].
    specialize (IHd m H1 I). destruct (write d m) as [x m1]. cbn in IHd. destruct (IHl m1 H2 IHd) as [J1 J2].
    split; [destruct (wcat l m1); exact J1|destruct (wrest l m1); exact J2].
Qed.

Definition is_compound (e : expr) : bool := match e with ECompound _ _ _ => true | _ => false end.
Definition operand_ok (E : env) (e : expr) : Prop := is_compound e = false /\ no_alias (print E e) = true.

Lemma op_word_conn : forall o, op_word (op_of o) = conn_text (conn_of o).
Proof. now destruct o. Qed.

Lemma joiner_print : forall E rho o d, sound rho d -> (exists v, val rho d = Some v) ->
  Forall (fun t => match t with TAtom a => operand_ok E a | _ => True end) (tokens d) ->
  (match cond_expr d with ECompound _ o' _ => o' | _ => op_of o end) = op_of (joiner o d).
Proof.
  intros E rho o d S [v V] H. inversion S; subst; cbn in *; try reflexivity; try discriminate.
  inversion H as [|? ? N _]; subst. cbn in N. destruct N as [N _]. destruct e; try reflexivity. discriminate.
Qed.

Notation fine E ts := (Forall (fun t => match t with TAtom a => operand_ok E a | _ => True end) ts).

Lemma fine_no_alias : forall E ts, fine E ts -> forallb no_alias (map (token_doc (print E)) ts) = true.
Proof.
  induction ts as [|t ts IH]; intros H; [reflexivity|]. inversion H as [|? ? H1 H2]; subst. cbn.
  rewrite IH by assumption. destruct t; cbn in *; try reflexivity. now destruct H1 as [_ ->].
Qed.

Lemma wcat_txt : forall s l m, wcat (Txt s :: l) m = let (y, m2) := wcat l m in (s ++ y, m2).
Proof. reflexivity. Qed.

Lemma wcat_intro : forall E ts m, fine E ts -> introduced m = [] -> introduced (snd (wcat (map (token_doc (print E)) ts) m)) = [].
Proof.
  intros E ts m H I. rewrite <- write_Cat. apply no_alias_write; [|assumption]. cbn. now apply fine_no_alias.
Qed.

Lemma write_op : forall E o m, introduced m = [] -> write (print_op E o) m = (op_word o, m).
Proof. intros E o m I. unfold print_op. rewrite write_Shared, I. reflexivity. Qed.

Theorem tokens_text : forall E rho c, sound rho c -> fine E (tokens c) -> forall m, introduced m = [] ->
  write (print E (cond_expr c)) m = wcat (map (token_doc (print E)) (tokens c)) m.
Proof.
  intros E rho c. induction c as [|e|k kn c IH|e| |k o cs n IH|e cs IH] using cnd_ind'; intros S F m I;
    try (now inversion S); try reflexivity.
  - cbn. destruct (write (print E e) m). now rewrite sapp_nil_r.
  - inversion S as [|? ? ? Sc _| |]; subst. cbn [cond_expr print option_map maybe app].
    assert (Fc : fine E (tokens c)).
    { cbn in F. inversion F as [|? ? _ F1]; subst. inversion F1 as [|? ? _ F2]; subst.
      apply Forall_app in F2. tauto. }
    rewrite write_Shared, I. cbn [alias_of]. rewrite write_Cat. cbn [wcat].
    rewrite (write_op E Not m I), write_Shared, I. cbn [alias_of]. rewrite write_Cat. cbn [wcat].
    change (write (Txt "(") m) with ("(", m). cbv iota beta. rewrite (IH Sc Fc m I).
    cbn [tokens map token_doc]. rewrite !wcat_txt, map_app, wcat_app.
    destruct (wcat (map (token_doc (print E)) (tokens c)) m) as [x m1]. cbn [map token_doc wcat].
    change (write (Txt ")") m1) with (")", m1). cbv iota beta.
    cbn [app]. rewrite !sapp_nil_r. reflexivity.
  - inversion S as [| | |? ? ? ? P]; subst.
    destruct cs as [|c [|c' cs]]; [reflexivity| |].
    + cbn [cond_expr map print]. inversion IH as [|? ? IHc _]; subst. inversion P as [|? ? [Sc _] _]; subst.
      apply IHc; assumption.
    + cbn [cond_expr map print]. rewrite write_Shared, I. cbn [alias_of]. rewrite write_Cat.
      inversion IH as [|? ? IHc IHr]; subst. inversion P as [|? ? [Sc _] Pr]; subst.
      assert (Fs : fine E (tokens c) /\ Forall (fun d => fine E (tokens d)) (c' :: cs)).
      { cbn [tokens] in F. inversion F as [|? ? _ F1]; subst. apply Forall_app in F1 as [F1 _].
        apply Forall_app in F1 as [F1 F2]. split; [assumption|].
        change (fine E (flat_map (fun d => TOp (conn_of (joiner o d)) :: tokens d) (c' :: cs))) in F2.
        revert F2. generalize (c' :: cs). clear. intros l F2. induction l as [|d l IHl]; [constructor|]. cbn in F2. inversion F2 as [|? ? _ F3]; subst.
        apply Forall_app in F3 as [F3 F4]. constructor; [exact F3|exact (IHl F4)]. }
      destruct Fs as [Fc Fr].
      change (cond_expr c' :: map cond_expr cs) with (map cond_expr (c' :: cs)).
      assert (R : forall l m, Forall (fun c => sound rho c -> fine E (tokens c) -> forall m, introduced m = [] ->
                    write (print E (cond_expr c)) m = wcat (map (token_doc (print E)) (tokens c)) m) l ->
                  Forall (fun c => sound rho c /\ exists v, val rho c = Some v) l ->
                  Forall (fun d => fine E (tokens d)) l -> introduced m = [] ->
                  wcat (flat_map (fun d => [print_op E (match d with ECompound _ o' _ => o' | _ => op_of o end); print E d])
                                 (map cond_expr l)) m
                  = wcat (map (token_doc (print E)) (flat_map (fun d => TOp (conn_of (joiner o d)) :: tokens d) l)) m).
      { clear. induction l as [|d l IHl]; intros m IH P F I; [reflexivity|].
        inversion IH as [|? ? IHd IHr]; subst. inversion P as [|? ? [Sd Vd] Pr]; subst. inversion F as [|? ? Fd Fr]; subst.
        cbn [map flat_map]. rewrite (joiner_print E rho o d Sd Vd Fd).
        cbn [app wcat]. rewrite (write_op E _ m I), (IHd Sd Fd m I).
        cbn [map token_doc app]. rewrite wcat_txt, map_app, wcat_app.
        pose proof (wcat_intro E (tokens d) m Fd I) as I1.
        destruct (wcat (map (token_doc (print E)) (tokens d)) m) as [x m1]. cbn [snd] in I1.
        rewrite (IHl m1 IHr Pr Fr I1). rewrite op_word_conn.
        match goal with |- context [wcat ?l m1] => destruct (wcat l m1) as [y m2] end. reflexivity. }
      cbn [wcat]. change (write (Txt "(") m) with ("(", m). cbv iota beta.
      rewrite (IHc Sc Fc m I).
      cbn [tokens]. cbn [map token_doc]. rewrite wcat_txt. rewrite map_app, wcat_app, map_app, wcat_app.
      fold (flat_map (fun d => TOp (conn_of (joiner o d)) :: tokens d) (c' :: cs)).
      pose proof (wcat_intro E (tokens c) m Fc I) as I1.
      destruct (wcat (map (token_doc (print E)) (tokens c)) m) as [x m1]. cbn [snd] in I1.
      pose proof (R (c' :: cs) m1 IHr Pr Fr I1) as RR. cbn [map] in RR. rewrite write_Cat, RR.
      change ((TOp (conn_of (joiner o c')) :: tokens c') ++ flat_map (fun d : cnd => TOp (conn_of (joiner o d)) :: tokens d) cs)%list
        with (flat_map (fun d : cnd => TOp (conn_of (joiner o d)) :: tokens d) (c' :: cs)).
      match goal with |- context [wcat ?l m1] => destruct (wcat l m1) as [y m2] end.
      change (write (Txt ")") m2) with (")", m2). cbn [map token_doc wcat].
      change (write (Txt ")") m2) with (")", m2). cbv iota beta. cbn [app].
      now rewrite !sapp_nil_r, !sapp_assoc.
Qed.

(** ** The operands of a condition *)

Section Operands.
Context (P : expr -> Prop).

Fixpoint over_atoms (c : cnd) : Prop :=
  match c with
  | Atom e => P e
  | Neg _ _ c => over_atoms c
  | Comp _ _ cs _ | CompErr _ cs => (fix go cs := match cs with [] => True | c :: cs' => over_atoms c /\ go cs' end) cs
  | _ => True
  end.

Lemma over_atoms_list : forall cs,
  (fix go cs := match cs with [] => True | c :: cs' => over_atoms c /\ go cs' end) cs <-> Forall over_atoms cs.
Proof.
  induction cs as [|c cs IH]; [split; constructor|]. rewrite IH. split; [intros [? ?]; now constructor|inversion 1; tauto].
Qed.

Lemma over_atoms_Comp : forall k o cs n, over_atoms (Comp k o cs n) <-> Forall over_atoms cs.
Proof. intros. apply over_atoms_list. Qed.

Lemma tokens_over : forall c, over_atoms c -> Forall (fun t => match t with TAtom a => P a | _ => True end) (tokens c).
Proof.
  intros c. induction c as [|e|k kn c IH|e| |k o cs n IH|e cs IH] using cnd_ind'; intros H; try (now constructor).
  - cbn. constructor; [exact I|]. constructor; [exact I|]. apply Forall_app. split; [now apply IH|]. constructor; [exact I|constructor].
  - apply over_atoms_Comp in H.
    assert (Q : Forall (fun d => Forall (fun t => match t with TAtom a => P a | _ => True end) (tokens d)) cs).
    { clear - IH H. induction cs; inversion IH; inversion H; subst; constructor; auto. }
    clear IH H. destruct cs as [|c [|c' cs]]; [constructor|now inversion Q|].
    inversion Q as [|? ? Q1 Q2]; subst. cbn [tokens]. constructor; [exact I|].
    apply Forall_app. split; [|constructor; [exact I|constructor]]. apply Forall_app. split; [assumption|].
    revert Q2. generalize (c' :: cs). clear. induction l as [|d l IH]; intros H; [constructor|].
    inversion H; subst. cbn. constructor; [exact I|]. apply Forall_app. split; [assumption|]. now apply IH.
Qed.

Lemma added_over : forall ki same cs ch x cs', Forall over_atoms cs -> over_atoms x ->
  add_conditions ki same cs ch x = Some cs' -> Forall over_atoms cs'.
Proof.
  intros ki same cs ch x cs' Hcs Hx H. unfold add_conditions in H.
  assert (App : forall y, over_atoms y -> Forall over_atoms (cs ++ [y])).
  { intros y Hy. apply Forall_app. split; [assumption|]. constructor; [assumption|constructor]. }
  assert (Hin : forall inner, compound_conditions x = Some inner -> Forall over_atoms inner).
  { intros inner E. destruct x; inversion E; subst; try constructor; apply over_atoms_list; exact Hx. }
  destruct (compound_conditions x) as [[|i inner]|].
  - inversion H. now subst.
  - specialize (Hin _ eq_refl). destruct (same && has_op ch x).
    + destruct (can_be_flattened ch (i :: inner)); inversion H; subst; [now apply Forall_app|now apply App].
    + inversion H; subst. apply App. apply over_atoms_Comp. constructor; [assumption|constructor].
  - destruct same; inversion H; subst. now apply App.
Qed.

Lemma create_over : forall ks l o r, over_atoms l -> over_atoms r -> over_atoms (create ks l o r).
Proof.
  intros ks l o r Hl Hr. unfold create.
  assert (G : forall n, over_atoms (Comp (ks 0) o (added (ks 2) (added (ks 1) [] o l) o r) n)).
  { intros n. apply over_atoms_Comp. unfold added.
    destruct (add_conditions (ks 1) true [] o l) as [cs|] eqn:E1.
    - apply added_over in E1; [|constructor|assumption].
      destruct (add_conditions (ks 2) true cs o r) as [cs'|] eqn:E2; [|assumption].
      now apply added_over in E2.
    - destruct (add_conditions (ks 2) true [] o r) as [cs'|] eqn:E2; [|constructor]. apply added_over in E2; [assumption|constructor|assumption]. }
  destruct (get_error l); [exact I|]. destruct (get_error r); [exact I|].
  destruct l; try exact I; destruct r; try exact I; cbv zeta; apply G.
Qed.

Lemma chain_over : forall ks o x y z, over_atoms x -> over_atoms y -> container_chain ks o x y = Val z -> over_atoms z.
Proof.
  intros ks o x y z Hx Hy H. pose proof (create_over ks x o y Hx Hy) as C.
  destruct x; cbn [container_chain] in H; try discriminate; inversion H; subst; try exact C; clear H.
  - cbn [add]. apply over_atoms_Comp. unfold added. destruct (add_conditions (ks 3) true [] o y) eqn:E; [|constructor].
    apply added_over in E; [assumption|constructor|assumption].
  - unfold add. destruct (add_conditions (ks 3) (bop_eqb o0 o) cs o y) eqn:E; [|exact C].
    apply over_atoms_Comp. apply over_atoms_Comp in Hx. now apply added_over in E.
  - unfold add. destruct (add_conditions (ks 3) false cs o y) eqn:E; [|exact C].
    apply over_atoms_list. apply over_atoms_list in Hx. now apply added_over in E.
Qed.

Lemma makes_over : forall c x, makes c x -> proper c = true -> Forall P (operands c) -> over_atoms x.
Proof.
  intros c x H. induction H as [e| |ks o c d x y z H1 IH1 H2 IH2 Hz|ks o c d x y z H1 IH1 H2 IH2 Hz
    |ks o c e x z H1 IH1 Hz|ks c x z H1 IH1 Hz]; intros Pr F; cbn in Pr, F.
  - now inversion F.
  - exact I.
  - apply andb_prop in Pr as [P1 P2]. apply Forall_app in F as [F1 F2]. exact (chain_over _ _ _ _ _ (IH1 P1 F1) (IH2 P2 F2) Hz).
  - apply andb_prop in Pr as [P1 P2]. apply Forall_app in F as [F1 F2].
    destruct (makes_val (fun _ => None) _ _ H1 P1) as [S1 _]. rewrite (method_chain _ _ _ _ _ S1) in Hz. exact (chain_over _ _ _ _ _ (IH1 P1 F1) (IH2 P2 F2) Hz).
  - rewrite andb_true_r in Pr. apply Forall_app in F as [F1 F2].
    assert (E : z = create ks x (bop_of_conn o) (Atom e)) by (unfold container_pattern in Hz; destruct x; congruence). subst z.
    apply create_over; [auto|]. now inversion F2.
  - apply andb_prop in Pr as [P1 P2]. specialize (IH1 P1 F).
    unfold container_not, comparison_not in Hz. destruct (get_error x); [inversion Hz; exact I|].
    destruct x; inversion Hz; subst; exact IH1.
Qed.

End Operands.

(** ** Chains with one connective *)

Definition is_single (o : bop) (l : list expr) (x : cnd) : Prop :=
  (exists e, x = Atom e /\ l = [e]) \/ (x = Empty /\ l = []) \/ (exists k n, x = Comp k o (map Atom l) n).

Lemma flat_atoms : forall o l, can_be_flattened o (map Atom l) = true.
Proof. unfold can_be_flattened. induction l; cbn; auto. Qed.

Lemma added_single : forall ki o l m y, is_single o m y ->
  add_conditions ki true (map Atom l) o y = Some (map Atom (l ++ m)).
Proof.
  intros ki o l m y [[e [-> ->]]|[[-> ->]|[k [n ->]]]]; cbn.
  - now rewrite map_app.
  - now rewrite app_nil_r.
  - destruct m as [|e m]; cbn [map]; [now rewrite app_nil_r|].
    unfold has_op. cbn [compound_op]. rewrite bop_eqb_refl.
    change (can_be_flattened o (Atom e :: map Atom m)) with (can_be_flattened o (map Atom (e :: m))).
    now rewrite flat_atoms, map_app.
Qed.

Lemma create_single : forall ks o l m x y, is_single o l x -> is_single o m y ->
  create ks x o y = Comp (ks 0) o (map Atom (l ++ m)) (length (l ++ m)).
Proof.
  intros ks o l m x y Hx Hy.
  assert (E1 : added (ks 1) [] o x = map Atom l).
  { unfold added. change (@nil cnd) with (map Atom []). now rewrite (added_single _ _ [] l x Hx). }
  assert (E2 : added (ks 2) (map Atom l) o y = map Atom (l ++ m)).
  { unfold added. now rewrite (added_single _ _ l m y Hy). }
  assert (N1 : get_error x = None) by (destruct Hx as [[e [-> _]]|[[-> _]|[k [n ->]]]]; reflexivity).
  assert (N2 : get_error y = None) by (destruct Hy as [[e [-> _]]|[[-> _]|[k [n ->]]]]; reflexivity).
  unfold create. rewrite N1, N2.
  assert (NX : x <> Nil) by (destruct Hx as [[e [-> _]]|[[-> _]|[k [n ->]]]]; discriminate).
  assert (NY : y <> Nil) by (destruct Hy as [[e [-> _]]|[[-> _]|[k [n ->]]]]; discriminate).
  destruct x; try congruence; destruct y; try congruence; cbv zeta; rewrite E1, E2, map_length; reflexivity.
Qed.

Lemma chain_single : forall ks o l m x y z, is_single o l x -> is_single o m y ->
  container_chain ks o x y = Val z -> is_single o (l ++ m) z.
Proof.
  intros ks o l m x y z Hx Hy H. pose proof (create_single ks o l m x y Hx Hy) as C.
  destruct Hx as [[e [-> ->]]|[[-> ->]|[k [n ->]]]]; cbn [container_chain] in H; inversion H; subst; clear H.
  - right. right. rewrite C. eauto.
  - right. right. cbn [add]. unfold added. change (@nil cnd) with (map Atom []). rewrite (added_single _ _ [] m y Hy). eauto.
  - right. right. unfold add. rewrite bop_eqb_refl, (added_single _ _ l m y Hy). eauto.
Qed.

Lemma makes_single : forall o c x, makes c x -> only o c -> is_single (bop_of_conn o) (operands c) x.
Proof.
  intros o c x H. induction H as [e| |ks p c d x y z H1 IH1 H2 IH2 Hz|ks p c d x y z H1 IH1 H2 IH2 Hz
    |ks p c e x z H1 IH1 Hz|ks c x z H1 IH1 Hz]; intros O; cbn in O.
  - left. eauto.
  - right. left. auto.
  - destruct O as [-> [O1 O2]]. cbn. eapply chain_single; eauto.
  - destruct O as [-> [O1 O2]]. cbn. specialize (IH1 O1). specialize (IH2 O2).
    assert (E : condition_chain ks (bop_of_conn o) x y = container_chain ks (bop_of_conn o) x y)
      by (destruct IH1 as [[e [-> _]]|[[-> _]|[k [n ->]]]]; reflexivity).
    rewrite E in Hz. eapply chain_single; eauto.
  - destruct O as [-> [O1 _]]. specialize (IH1 O1).
    assert (E : z = create ks x (bop_of_conn o) (Atom e)) by (unfold container_pattern in Hz; destruct x; congruence). subst z.
    right. right. cbn. erewrite create_single; [eauto|exact IH1|left; eauto].
  - destruct O.
Qed.

Lemma single_tokens : forall o l x, is_single (bop_of_conn o) l x -> tokens x = joined o l.
Proof.
  intros o l x [[e [-> ->]]|[[-> ->]|[k [n ->]]]]; try reflexivity.
  destruct l as [|a [|b l]]; try reflexivity.
  change (TL :: (tokens (Atom a) ++ flat_map (fun d => TOp (conn_of (joiner (bop_of_conn o) d)) :: tokens d) (map Atom (b :: l))) ++ [TR]
          = joined o (a :: b :: l))%list.
  unfold joined. f_equal. f_equal. cbn [tokens app]. f_equal. generalize (b :: l). clear.
  induction l as [|c l IH]; [reflexivity|]. cbn. now rewrite conn_of_bop, IH.
Qed.

(** ** The empty condition *)

Lemma chain_empty_right : forall rho ks o x y z, sound rho x -> compound_conditions y = Some [] -> get_error y = None ->
  container_chain ks o x y = Val z -> tokens z = tokens x.
Proof.
  intros rho ks o x y z S Y Ny H.
  assert (Hy : y = Empty \/ exists k p n, y = Comp k p [] n).
  { destruct y; inversion Y; subst; [now left|right; eauto|discriminate]. }
  assert (A : forall ki same cs, add_conditions ki same cs o y = Some cs) by (intros; unfold add_conditions; now rewrite Y).
  assert (C : forall e, x = Atom e \/ (exists k kn c, x = Neg k kn c) -> tokens (create ks x o y) = tokens x).
  { intros e0 Hx. unfold create. rewrite (sound_no_error _ _ S), Ny.
    assert (G : forall n, tokens (Comp (ks 0) o (added (ks 2) (added (ks 1) [] o x) o y) n) = tokens x).
    { intros n. unfold added at 1. rewrite A. destruct Hx as [->|[k [kn [c ->]]]]; reflexivity. }
    destruct Hx as [->|[k [kn [c ->]]]]; destruct Hy as [->|[k' [p [n ->]]]]; cbv zeta; apply G. }
  destruct S; cbn [container_chain] in H; inversion H; subst; clear H.
  - apply (C e). now left.
  - apply (C (ESym "" "")). right. eauto.
  - cbn [add]. unfold added. now rewrite A.
  - unfold add. rewrite A. reflexivity.
Qed.

Lemma chain_empty_left : forall rho ks o x y z, sound rho y ->
  (x = Empty \/ exists k n, x = Comp k o [] n) ->
  container_chain ks o x y = Val z -> tokens z = tokens y.
Proof.
  intros rho ks o x y z S Hx H.
  assert (G : forall k n ki, tokens (Comp k o (added ki [] o y) n) = tokens y).
  { intros k n ki. unfold added, add_conditions. destruct S as [e|k' kn c Sc Vc| |k' p cs n' Hcs]; cbn [compound_conditions]; try reflexivity.
    destruct cs as [|i cs]; [reflexivity|]. cbn [andb]. change (has_op o (Comp k' p (i :: cs) n')) with (bop_eqb p o).
    destruct (bop_eqb p o) eqn:E; [|reflexivity]. apply bop_eqb_eq in E. subst p.
    destruct (can_be_flattened o (i :: cs)); reflexivity. }
  destruct Hx as [->|[k [n ->]]]; cbn [container_chain] in H; inversion H; subst; clear H.
  - cbn [add]. apply G.
  - cbn [add]. rewrite bop_eqb_refl. specialize (G k n (ks 3)). unfold added in G.
    destruct (add_conditions (ks 3) true [] o y) eqn:E; [exact G|].
    unfold add_conditions in E. destruct (compound_conditions y) as [[|? ?]|]; try discriminate.
    destruct (true && has_op o y); [destruct (can_be_flattened o (c :: l))|]; discriminate.
Qed.

Lemma chain_empty_any : forall rho ks o x y z, sound rho x -> sound rho y -> val rho x = None ->
  container_chain ks o x y = Val z -> tokens z = tokens y.
Proof.
  intros rho ks o x y z Sx Sy V H.
  inversion Sx as [e|k kn c Sc [v Hv]| |k p cs n Hcs]; subst; cbn in V; try discriminate.
  - rewrite Hv in V. discriminate.
  - eapply chain_empty_left; [eassumption|now left|eassumption].
  - apply (val_comp_nil rho k p cs n Sx) in V. subst cs.
    destruct (bop_eqb p o) eqn:E.
    + apply bop_eqb_eq in E. subst p. eapply chain_empty_left; [eassumption|right; eauto|eassumption].
    + cbn [container_chain add] in H. rewrite E in H. unfold add_conditions in H.
      destruct Sy as [e|k' kn c Sc Vc| |k' q cs n' Hcs']; cbn [compound_conditions] in H.
      * inversion H; subst. reflexivity.
      * inversion H; subst. reflexivity.
      * inversion H; subst. reflexivity.
      * destruct cs; inversion H; subst; reflexivity.
Qed.
