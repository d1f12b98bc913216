(** Proofs: chains in memory.  A chain that has not been used as a receiver is
    what the calls that made it say. *)

From Coq Require Import Ascii String List ZArith Bool Arith Lia.
From Verif Require Import GoStr Escape VTree Ast GoVal Slices HeapCondProofs Patterns SpecPattern PatternProofs.
Import ListNotations.
Open Scope string_scope.
Open Scope list_scope.

(** What the calls say, without memory. *)
Definition extended (ks : nat -> key) (rs : list rel) (d : direction) (n : node) (types : list string) : option (list rel) :=
  match rev rs with r :: _ => Some (rs ++ [rel_create ks (r_right r) d n types]) | [] => None end.
Definition changed (ks : nat -> key) (c : change) (rs : list rel) : option (list rel) :=
  match rev rs with r :: _ => Some (removelast rs ++ [rel_change ks c r]) | [] => None end.

Definition said_step (env : list (list rel)) (p : chain_call) : option (list rel) :=
  match p with
  | StartChain ks r d n types => extended ks [r] d n types
  | ExtendChain ks i d n types => match nth_error env i with Some c => extended ks c d n types | None => None end
  | ChangeChain ks i ch => match nth_error env i with Some c => changed ks ch c | None => None end
  | AddToChain i r => match nth_error env i with Some c => Some (c ++ [r]) | None => None end
  end.

Fixpoint said_run (env : list (list rel)) (ps : list chain_call) : option (list (list rel)) :=
  match ps with
  | [] => Some env
  | p :: ps' => match said_step env p with Some c => said_run (env ++ [c]) ps' | None => None end
  end.

Definition receiver (p : chain_call) : list nat :=
  match p with StartChain _ _ _ _ _ => [] | ExtendChain _ i _ _ _ | ChangeChain _ i _ | AddToChain i _ => [i] end.

Definition holds (h : arrays) (c : slice) (rs : list rel) : Prop :=
  exists a n, c = Prefix a n /\ a < length h /\ 1 <= n <= length (cells h a) /\ firstn n (cells h a) = rs.
Definition array_of (c : slice) : option nat := match c with Prefix a _ => Some a | NoCells => None end.

Definition inv (h : arrays) (env : list slice) (said : list (list rel)) (used : list nat) : Prop :=
  length env = length said
  /\ (forall i, i < length env -> ~ In i used -> holds h (nth i env NoCells) (nth i said []))
  /\ (forall i j, i < length env -> j < length env -> ~ In i used -> ~ In j used -> i <> j ->
      array_of (nth i env NoCells) <> array_of (nth j env NoCells)).

Lemma cells_update : forall (h : arrays) a x b, a < length h -> cells (update h a x) b = if Nat.eqb a b then x else cells h b.
Proof. intros h a x b L. unfold cells. rewrite nth_update. replace (Nat.ltb a (length h)) with true by (symmetry; now apply Nat.ltb_lt). now rewrite andb_true_r. Qed.

(** A step that takes the array of the receiver, or a new one. *)
Definition step_ok (h : arrays) (from : option nat) (h' : arrays) (c : slice) (rs : list rel) : Prop :=
  holds h' c rs /\ length h <= length h'
  /\ (forall a, a < length h -> from <> Some a -> cells h' a = cells h a)
  /\ (array_of c = from \/ exists a, array_of c = Some a /\ length h <= a).

Lemma inv_step : forall h env said used from h' c rs,
  inv h env said used ->
  match from with Some i => i < length env /\ ~ In i used | None => True end ->
  step_ok h (match from with Some i => array_of (nth i env NoCells) | None => None end) h' c rs ->
  inv h' (env ++ [c]) (said ++ [rs]) ((match from with Some i => [i] | None => [] end) ++ used).
Proof.
  intros h env said used from h' c rs (L & H & D) F (S1 & S2 & S3 & S4).
  assert (O : forall i, i < length env -> ~ In i (match from with Some i => [i] | None => [] end ++ used) ->
    ~ In i used /\ array_of (nth i env NoCells) <> match from with Some i => array_of (nth i env NoCells) | None => None end).
  { intros i Hi N. assert (N1 : ~ In i used) by (intros X; apply N; apply in_or_app; now right). split; [assumption|].
    destruct from as [j|]; [|destruct (H i Hi N1) as (a & n & -> & _); discriminate].
    apply D; try tauto. intros ->. apply N. now left. }
  split; [rewrite !app_length, L; reflexivity|]. split.
  - intros i Hi N. rewrite app_length in Hi. cbn in Hi. destruct (Nat.eq_dec i (length env)) as [->|Ne].
    + rewrite app_nth2 by lia. rewrite L, app_nth2, !Nat.sub_diag by lia. exact S1.
    + assert (Hi' : i < length env) by lia. rewrite !app_nth1 by lia. destruct (O i Hi' N) as [N1 A].
      destruct (H i Hi' N1) as (a & n & E & La & B & Rd). exists a, n. rewrite E in A. cbn in A.
      rewrite S3 by (auto; intros X; apply A; now rewrite X). repeat split; auto; lia.
  - assert (G : forall i, i < length env -> ~ In i (match from with Some i => [i] | None => [] end ++ used) ->
                array_of (nth i env NoCells) <> array_of c).
    { intros i Hi N. destruct (O i Hi N) as [N1 A]. destruct S4 as [->|(b & -> & Lb)]; [exact A|].
      destruct (H i Hi N1) as (a & n & -> & La & _). cbn. intros X. inversion X. lia. }
    intros i j Hi Hj Ni Nj Ne. rewrite app_length in Hi, Hj. cbn in Hi, Hj.
    destruct (Nat.eq_dec i (length env)) as [->|Ni'].
    + rewrite app_nth2 by lia. rewrite Nat.sub_diag, app_nth1 by lia. cbn [nth]. intros X. symmetry in X. revert X. apply G; [lia|assumption].
    + rewrite (app_nth1 _ _ _ (n := i)) by lia. destruct (Nat.eq_dec j (length env)) as [->|Nj'].
      * rewrite app_nth2 by lia. rewrite Nat.sub_diag. cbn [nth]. apply G; [lia|assumption].
      * rewrite app_nth1 by lia. destruct (O i ltac:(lia) Ni), (O j ltac:(lia) Nj). apply D; auto; lia.
Qed.

Lemma add_ok : forall grow h c rs r, holds h c rs -> let (h', c') := chain_add grow h c r in step_ok h (array_of c) h' c' (rs ++ [r]).
Proof.
  intros grow h c rs r (a & n & -> & La & B & R). unfold chain_add, append. cbn [slice_len length capacity array_of].
  destruct (Nat.leb_spec (n + 1) (length (cells h a))) as [Le|Gt].
  - split; [|split; [|split]].
    + exists a, (n + 1). split; [reflexivity|]. rewrite update_length. split; [assumption|].
      rewrite cells_update, Nat.eqb_refl by assumption. unfold overwrite.
      assert (Ln : length (firstn n (cells h a)) = n) by (rewrite firstn_length; lia).
      rewrite !app_length, Ln. cbn [length]. split; [lia|].
      replace (n + 1) with (length (firstn n (cells h a)) + 1) at 1 by lia. rewrite firstn_app_2. cbn. now rewrite R.
    + rewrite update_length. lia.
    + intros b Lb Nb. rewrite cells_update by assumption. destruct (Nat.eqb_spec a b); [subst; congruence|reflexivity].
    + now left.
  - assert (Ln : length rs = n) by (rewrite <- R, firstn_length; lia).
    split; [|split; [|split]].
    + exists (length h), (n + 1). split; [reflexivity|]. rewrite app_length. cbn [length]. split; [lia|].
      cbn [read]. rewrite R.
      assert (C : forall x : list rel, cells (h ++ [x]) (length h) = x) by (intros x; unfold cells; rewrite app_nth2, Nat.sub_diag by lia; reflexivity).
      rewrite C, !app_length, Ln. cbn [length]. split; [lia|].
      replace (n + 1) with (length rs + 1) at 1 by lia. rewrite firstn_app_2. now cbn.
    + rewrite app_length. lia.
    + intros b Lb Nb. unfold cells. now rewrite app_nth1.
    + right. exists (length h). split; [reflexivity|lia].
Qed.

Lemma last_ok : forall h c rs, holds h c rs -> read h c = rs /\ exists r l, rev rs = r :: l /\ chain_last h c = Some r /\ removelast rs ++ [r] = rs.
Proof.
  intros h c rs (a & n & -> & La & B & R). cbn [read]. split; [exact R|].
  destruct (rev rs) as [|r l] eqn:E.
  - assert (X : length (rev rs) = 0) by now rewrite E. rewrite rev_length, <- R, firstn_length in X. lia.
  - exists r, l. split; [reflexivity|]. unfold chain_last. cbn [read]. rewrite R, E. split; [reflexivity|].
    assert (X : rs = rev l ++ [r]). { rewrite <- (rev_involutive rs), E. reflexivity. }
    rewrite X. now rewrite removelast_last.
Qed.

Lemma change_ok : forall ks ch h c rs rs', holds h c rs -> changed ks ch rs = Some rs' ->
  exists h', chain_change ks ch h c = Some (h', c) /\ step_ok h (array_of c) h' c rs'.
Proof.
  intros ks ch h c rs rs' H E. destruct (last_ok _ _ _ H) as (_ & r & l & Er & Lr & Rm). unfold changed in E. rewrite Er in E. inversion E; subst rs'.
  destruct H as (a & n & -> & La & B & R). unfold chain_change. rewrite Lr. eexists. split; [reflexivity|]. cbn [array_of].
  split; [|split; [|split]].
  - exists a, n. split; [reflexivity|]. rewrite update_length. split; [assumption|].
    rewrite cells_update, Nat.eqb_refl by assumption. unfold overwrite.
    assert (Ln : length (firstn (n - 1) (cells h a)) = n - 1) by (rewrite firstn_length; lia).
    cbn [length]. rewrite !app_length, Ln, skipn_length. cbn [length]. split; [lia|].
    replace n with (length (firstn (n - 1) (cells h a)) + 1) at 1 by lia. rewrite firstn_app_2. cbn [firstn app]. f_equal.
    rewrite <- R. symmetry. replace (firstn n (cells h a)) with (firstn (S (n - 1)) (cells h a)) by (f_equal; lia).
    apply removelast_firstn. lia.
  - rewrite update_length. lia.
  - intros b Lb Nb. rewrite cells_update by assumption. destruct (Nat.eqb_spec a b); [subst; congruence|reflexivity].
  - now left.
Qed.

Lemma chain_step_ok : forall grow h env said used p,
  inv h env said used -> (forall i, In i (receiver p) -> ~ In i used) ->
  match said_step said p, chain_step grow h env p with
  | Some rs, Some (h', c) => inv h' (env ++ [c]) (said ++ [rs]) (receiver p ++ used)
  | None, None => True
  | _, _ => False
  end.
Proof.
  intros grow h env said used p I U. pose proof I as (L & H & D).
  assert (G : forall i c, nth_error env i = Some c -> ~ In i used -> exists rs, nth_error said i = Some rs /\ holds h c rs /\ i < length env /\ nth i env NoCells = c).
  { intros i c E N. assert (Hi : i < length env) by (apply nth_error_Some; congruence). exists (nth i said []).
    split; [apply nth_error_nth'; lia|]. pose proof (nth_error_nth _ _ NoCells E) as X. rewrite <- X. auto. }
  assert (Z : forall i, nth_error env i = None -> nth_error said i = None).
  { intros i E. apply nth_error_None in E. apply nth_error_None. lia. }
  destruct p as [ks r d n ts|ks i d n ts|ks i ch|i r]; cbn [said_step chain_step receiver] in *.
  - unfold extended. cbn [rev app]. unfold rel_extend, chain_create.
    pose proof (add_ok grow (h ++ [[r]]) (Prefix (length h) 1) [r] (rel_create ks (r_right r) d n ts)) as A.
    assert (H1 : holds (h ++ [[r]]) (Prefix (length h) 1) [r]).
    { exists (length h), 1. split; [reflexivity|]. rewrite app_length. cbn [length]. unfold cells. rewrite app_nth2, Nat.sub_diag by lia. cbn. repeat split; lia. }
    specialize (A H1). destruct (chain_add grow (h ++ [[r]]) (Prefix (length h) 1) (rel_create ks (r_right r) d n ts)) as [h' c].
    apply (inv_step h env said used None); [exact I|exact Logic.I|].
    destruct A as (A1 & A2 & A3 & A4). rewrite app_length in A2. cbn in A2. split; [exact A1|]. split; [lia|]. split.
    + intros a La _. rewrite A3; [|rewrite app_length; cbn; lia|cbn; intros X; inversion X; lia]. unfold cells. now rewrite app_nth1.
    + right. destruct A4 as [->|(b & -> & Lb)]; [exists (length h); split; [reflexivity|lia]|]. exists b. split; [reflexivity|].
      rewrite app_length in Lb. lia.
  - destruct (nth_error env i) as [c|] eqn:E; [|now rewrite (Z i E)].
    destruct (G i c E (U i (or_introl eq_refl))) as (rs & -> & Hc & Hi & Nc). unfold chain_extend, extended.
    destruct (last_ok _ _ _ Hc) as (_ & r & l & -> & -> & _).
    pose proof (add_ok grow h c rs (rel_create ks (r_right r) d n ts) Hc) as A.
    destruct (chain_add grow h c (rel_create ks (r_right r) d n ts)) as [h' c'].
    apply (inv_step h env said used (Some i)); [exact I|split; [exact Hi|exact (U i (or_introl eq_refl))]|]. cbn beta iota. now rewrite Nc.
  - destruct (nth_error env i) as [c|] eqn:E; [|now rewrite (Z i E)].
    destruct (G i c E (U i (or_introl eq_refl))) as (rs & -> & Hc & Hi & Nc).
    destruct (changed ks ch rs) as [rs'|] eqn:Ec.
    + destruct (change_ok ks ch h c rs rs' Hc Ec) as (h' & -> & A).
      apply (inv_step h env said used (Some i)); [exact I|split; [exact Hi|exact (U i (or_introl eq_refl))]|]. cbn beta iota. now rewrite Nc.
    + unfold changed in Ec. destruct (last_ok _ _ _ Hc) as (_ & r & l & X & _). rewrite X in Ec. discriminate.
  - destruct (nth_error env i) as [c|] eqn:E; [|now rewrite (Z i E)].
    destruct (G i c E (U i (or_introl eq_refl))) as (rs & -> & Hc & Hi & Nc).
    pose proof (add_ok grow h c rs r Hc) as A. destruct (chain_add grow h c r) as [h' c'].
    apply (inv_step h env said used (Some i)); [exact I|split; [exact Hi|exact (U i (or_introl eq_refl))]|]. cbn beta iota. now rewrite Nc.
Qed.

Definition receivers (ps : list chain_call) : list nat := flat_map receiver ps.

Lemma chain_run_ok : forall grow ps h env said used, inv h env said used -> NoDup (receivers ps) -> (forall i, In i (receivers ps) -> ~ In i used) ->
  match said_run said ps, chain_run grow h env ps with
  | Some said', Some (h', env') => exists used', inv h' env' said' used' /\ (forall i, In i used' <-> In i (receivers ps) \/ In i used)
  | None, None => True
  | _, _ => False
  end.
Proof.
  induction ps as [|p ps IH]; intros h env said used I N U; [exists used; split; [exact I|]; cbn; tauto|].
  cbn [receivers flat_map] in N, U. cbn [said_run chain_run].
  pose proof (chain_step_ok grow h env said used p I) as S. specialize (S ltac:(intros i Hi; apply U; apply in_or_app; now left)).
  destruct (said_step said p) as [rs|], (chain_step grow h env p) as [[h' c]|]; try contradiction; [|exact Logic.I].
  assert (N2 : NoDup (receivers ps)). { clear - N. unfold receivers. induction (receiver p); [exact N|]. inversion N; auto. }
  specialize (IH h' (env ++ [c]) (said ++ [rs]) (receiver p ++ used) S N2).
  assert (U2 : forall i, In i (receivers ps) -> ~ In i (receiver p ++ used)).
  { intros i Hi X. apply in_app_or in X as [X|X]; [|revert X; apply U; apply in_or_app; now right].
    clear - N Hi X. unfold receivers in *. induction (receiver p) as [|x l IHl]; [destruct X|]. cbn in N. inversion N; subst. destruct X as [->|X]; [|auto].
    apply H1. apply in_or_app. now right. }
  specialize (IH U2). destruct (said_run (said ++ [rs]) ps), (chain_run grow h' (env ++ [c]) ps) as [[h2 env2]|]; try exact IH.
  destruct IH as (used' & I' & E). exists used'. split; [exact I'|]. intros i. rewrite E. cbn [receivers flat_map]. rewrite !in_app_iff. unfold receivers. tauto.
Qed.

Theorem chains_once : forall grow ps, NoDup (receivers ps) ->
  match said_run [] ps, chain_run grow [] [] ps with
  | Some said, Some (h, env) => length env = length said
      /\ forall i, i < length env -> ~ In i (receivers ps) -> read h (nth i env NoCells) = nth i said []
  | None, None => True
  | _, _ => False
  end.
Proof.
  intros grow ps N. pose proof (chain_run_ok grow ps [] [] [] []) as R.
  assert (I0 : inv [] [] [] []). { split; [reflexivity|]. split; intros i; cbn; lia. }
  specialize (R I0 N (fun i _ X => X)). destruct (said_run [] ps) as [said|], (chain_run grow [] [] ps) as [[h env]|]; try exact R.
  destruct R as (used & (L & H & _) & E). split; [exact L|]. intros i Hi Ni. apply last_ok. apply H; [exact Hi|]. rewrite E. cbn. tauto.
Qed.

(** ** A chain made by one sequence of calls *)

Fixpoint change_calls (i : nat) (cs : list ((nat -> key) * change)) : list chain_call :=
  match cs with [] => [] | (ks, c) :: cs' => ChangeChain ks i c :: change_calls (S i) cs' end.

Fixpoint leg_calls (i : nat) (ls : list leg) : list chain_call :=
  match ls with
  | [] => []
  | l :: ls' => ExtendChain (l_keys l) i (l_dir l) (l_node l) (l_types l) :: change_calls (S i) (l_changes l)
                ++ leg_calls (S i + length (l_changes l)) ls'
  end.

(** first.RelationshipTo(...)...; .RelationshipTo(...)...; ... *)
Definition fluent (first : node) (l1 l2 : leg) (ls : list leg) : list chain_call :=
  StartChain (l_keys l2) (leg_rel first l1) (l_dir l2) (l_node l2) (l_types l2)
  :: change_calls 0 (l_changes l2) ++ leg_calls (length (l_changes l2)) ls.

Lemma change_calls_receivers : forall cs i, receivers (change_calls i cs) = seq i (length cs).
Proof. induction cs as [|[ks c] cs IH]; intros i; [reflexivity|]. cbn. f_equal. apply IH. Qed.

Lemma leg_calls_receivers : forall ls i, exists n, receivers (leg_calls i ls) = seq i n.
Proof.
  induction ls as [|l ls IH]; intros i; [now exists 0|]. destruct (IH (S i + length (l_changes l))) as [n E].
  exists (S (length (l_changes l) + n)). cbn [leg_calls receivers flat_map receiver app seq]. f_equal.
  rewrite flat_map_app. fold receivers. change (flat_map receiver) with receivers. rewrite change_calls_receivers, E, seq_app. reflexivity.
Qed.

Lemma fluent_receivers : forall first l1 l2 ls, exists n, receivers (fluent first l1 l2 ls) = seq 0 n.
Proof.
  intros. destruct (leg_calls_receivers ls (length (l_changes l2))) as [n E]. exists (length (l_changes l2) + n).
  unfold fluent. cbn [receivers flat_map receiver app]. rewrite flat_map_app. change (flat_map receiver) with receivers.
  now rewrite change_calls_receivers, E, seq_app.
Qed.

Lemma change_calls_said : forall cs env rs r, length env = S (length (removelast env)) -> last env [] = rs ++ [r] ->
  exists env', said_run env (change_calls (length env - 1) cs) = Some env' /\ length env' = length env + length cs
    /\ last env' [] = rs ++ [fold_left (fun r (c : (nat -> key) * change) => rel_change (fst c) (snd c) r) cs r].
Proof.
  induction cs as [|[ks c] cs IH]; intros env rs r L E; [exists env; cbn; auto|].
  cbn [change_calls said_run said_step].
  assert (Ne : env <> []) by (intros ->; discriminate).
  assert (N : nth_error env (length env - 1) = Some (rs ++ [r])).
  { rewrite (app_removelast_last [] Ne), E. rewrite nth_error_app2; rewrite app_length; cbn; [|lia].
    replace (length (removelast env) + 1 - 1 - length (removelast env)) with 0 by lia. reflexivity. }
  rewrite N. unfold changed. rewrite rev_app_distr. cbn [rev app]. rewrite removelast_last.
  replace (S (length env - 1)) with (length (env ++ [rs ++ [rel_change ks c r]]) - 1) by (rewrite app_length; cbn; lia).
  destruct (IH (env ++ [rs ++ [rel_change ks c r]]) rs (rel_change ks c r)) as (env' & R & L' & E').
  - rewrite removelast_last, app_length. cbn. lia.
  - now rewrite last_last.
  - exists env'. split; [exact R|]. split; [rewrite L', app_length; cbn; lia|exact E'].
Qed.

Lemma said_run_app : forall ps qs env, said_run env (ps ++ qs) = match said_run env ps with Some env' => said_run env' qs | None => None end.
Proof. induction ps as [|p ps IH]; intros qs env; [reflexivity|]. cbn. destruct (said_step env p); [apply IH|reflexivity]. Qed.

(** The relationships of the chain. *)
Fixpoint leg_rels (left : node) (ls : list leg) : list rel :=
  match ls with [] => [] | l :: ls' => leg_rel left l :: leg_rels (r_right (leg_rel left l)) ls' end.

Lemma leg_calls_said : forall ls env rs r, 1 <= length env -> last env [] = rs ++ [r] ->
  exists env', said_run env (leg_calls (length env - 1) ls) = Some env' /\ 1 <= length env' /\ last env' [] = rs ++ [r] ++ leg_rels (r_right r) ls
    /\ length env' = length env + length (leg_calls (length env - 1) ls).
Proof.
  induction ls as [|l ls IH]; intros env rs r L E; [exists env; cbn; auto|].
  cbn [leg_calls said_run said_step].
  assert (Ne : env <> []) by (intros ->; cbn in L; lia).
  assert (N : nth_error env (length env - 1) = Some (rs ++ [r])).
  { rewrite (app_removelast_last [] Ne), E. rewrite nth_error_app2; rewrite app_length; cbn; [|lia].
    replace (length (removelast env) + 1 - 1 - length (removelast env)) with 0 by lia. reflexivity. }
  rewrite N. unfold extended. rewrite rev_app_distr. cbn [rev app].
  set (r' := rel_create (l_keys l) (r_right r) (l_dir l) (l_node l) (l_types l)).
  set (env1 := env ++ [(rs ++ [r]) ++ [r']]).
  assert (L1 : length env1 = S (length env)) by (unfold env1; rewrite app_length; cbn; lia).
  rewrite said_run_app. replace (S (length env - 1)) with (length env1 - 1) by lia.
  destruct (change_calls_said (l_changes l) env1 (rs ++ [r]) r') as (env2 & R2 & L2 & E2).
  { unfold env1. rewrite removelast_last, app_length. cbn. lia. }
  { unfold env1. now rewrite last_last. }
  rewrite R2. replace (length env1 - 1 + length (l_changes l)) with (length env2 - 1) by lia.
  destruct (IH env2 (rs ++ [r]) (leg_rel (r_right r) l)) as (env3 & R3 & L3 & E3 & Le3); [lia|exact E2|].
  exists env3. split; [exact R3|]. split; [exact L3|]. split.
  - rewrite E3. cbn [leg_rels]. rewrite <- !app_assoc. reflexivity.
  - rewrite Le3. cbn [length]. rewrite app_length. 
    assert (X : forall cs i, length (change_calls i cs) = length cs) by (induction cs as [|[? ?] cs IHc]; intros; cbn; auto).
    rewrite X. lia.
Qed.

Theorem fluent_chain : forall grow first l1 l2 ls, exists h env,
  chain_run grow [] [] (fluent first l1 l2 ls) = Some (h, env)
  /\ read h (last env NoCells) = leg_rels first (l1 :: l2 :: ls).
Proof.
  intros grow first l1 l2 ls. destruct (fluent_receivers first l1 l2 ls) as [n En].
  pose proof (chains_once grow (fluent first l1 l2 ls)) as R. rewrite En in R. specialize (R (seq_NoDup n 0)).
  assert (S : exists said, said_run [] (fluent first l1 l2 ls) = Some said /\ last said [] = leg_rels first (l1 :: l2 :: ls) /\ length said = S n).
  { unfold fluent. cbn [said_run said_step]. unfold extended. cbn [rev app].
    set (r1 := leg_rel first l1). set (r2 := rel_create (l_keys l2) (r_right r1) (l_dir l2) (l_node l2) (l_types l2)).
    rewrite said_run_app.
    destruct (change_calls_said (l_changes l2) [[r1; r2]] [r1] r2 eq_refl eq_refl) as (env2 & R2 & L2 & E2). cbn [length Nat.sub] in R2, L2.
    rewrite R2.
    destruct (leg_calls_said ls env2 [r1] (leg_rel (r_right r1) l2)) as (env3 & R3 & L3 & E3 & Le3); [lia|exact E2|].
    replace (length env2 - 1) with (length (l_changes l2)) in * by lia.
    exists env3. split; [exact R3|]. split; [exact E3|]. rewrite Le3, L2.
    assert (X : length (receivers (fluent first l1 l2 ls)) = n) by (rewrite En; apply seq_length).
    unfold fluent, receivers in X. cbn [flat_map receiver app] in X. rewrite flat_map_app, app_length in X.
    assert (X1 : forall cs i, length (flat_map receiver (change_calls i cs)) = length cs) by (induction cs as [|[? ?] cs IHc]; intros; cbn; auto).
    assert (X0 : forall cs i, length (change_calls i cs) = length cs) by (induction cs as [|[? ?] cs IHc]; intros; cbn; auto).
    assert (X2 : forall ls i, length (flat_map receiver (leg_calls i ls)) = length (leg_calls i ls)).
    { induction ls0 as [|l0 ls0 IHl]; intros; cbn; [reflexivity|]. rewrite flat_map_app, !app_length, X1, X0, IHl. reflexivity. }
    rewrite X1, X2 in X. lia. }
  destruct S as (said & Rs & Es & Ls). rewrite Rs in R. destruct (chain_run grow [] [] (fluent first l1 l2 ls)) as [[h env]|]; [|contradiction].
  exists h, env. split; [reflexivity|]. destruct R as [L H]. rewrite <- Es.
  assert (Q : forall A (l : list A) d, l <> [] -> last l d = nth (length l - 1) l d).
  { clear. induction l as [|x [|y l] IH]; intros d X; [congruence|reflexivity|]. change (last (y :: l) d = nth (length (x :: y :: l) - 1) (x :: y :: l) d).
    rewrite IH by discriminate. cbn [length nth]. now replace (S (S (length l)) - 1) with (S (S (length l) - 1)) by lia. }
  rewrite !Q by (intros ->; cbn in *; lia). rewrite <- L. apply H; [lia|]. rewrite in_seq. lia.
Qed.

Lemma leg_rels_chained : forall ls first, nd_err first = None -> forallb good_leg ls = true ->
  chained first (map (fun l => (leg_arrow l, l_node l)) ls) (leg_rels first ls).
Proof.
  induction ls as [|l ls IH]; intros first F G; [exact Logic.I|]. cbn in G. apply andb_prop in G as [G1 G2]. cbn [map leg_rels chained].
  pose proof (leg_made first l F G1) as M. split; [exact M|]. destruct M as (_ & -> & _). apply IH; [|assumption].
  apply andb_prop in G1 as [G1 _]. now apply good_node_err in G1.
Qed.
