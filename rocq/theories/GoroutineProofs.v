(** Proofs: programs that use no builder value twice are careful; so are
    goroutines with chains of calls of their own. *)

From Coq Require Import String List ZArith Bool Arith Lia.
From Verif Require Import GoStr VTree Ast GoVal Cond Queries Builder Slices HeapBuilder SpecPersist PersistProofs SpecGoroutines.
Import ListNotations.
Open Scope list_scope.

(** ** Values used once *)

Definition unused_by (u : uses) (o : origin) : Prop :=
  ~ List.In (of_clauses o) (used_clauses u) /\ (forall e, List.In e (used_sorts u) -> fst e <> of_sorts o).

Lemma unused_allowed : forall u o b x, unused_by u o -> allowed u o b x = true.
Proof.
  intros u o b x [C S]. unfold allowed. apply andb_true_iff. split.
  - apply orb_true_iff. right. unfold clauses_free. apply negb_true_iff. destruct (existsb _ _) eqn:Q; [|reflexivity].
    apply existsb_exists in Q as (y & I & E). apply Nat.eqb_eq in E. subst. contradiction.
  - destruct x; cbn [sorts_free]; auto.
    + apply negb_true_iff. destruct (existsb _ _) eqn:Q; [|reflexivity]. apply existsb_exists in Q as (y & I & E). apply Nat.eqb_eq in E. exfalso. now apply (S y I).
    + apply forallb_forall. intros e I. apply orb_true_iff. left. apply negb_true_iff. apply Nat.eqb_neq. intros E. now apply (S e I).
Qed.

Definition below (n : nat) (u : uses) : Prop :=
  (forall x, List.In x (used_clauses u) -> x < n) /\ (forall e, List.In e (used_sorts u) -> fst e < n).

(** [live]: the values that may still be used. *)
Record one_use (vs : list (state * origin)) (u : uses) (live : nat -> Prop) : Prop := {
  ou_below : below (length vs) u;
  ou_origin : forall i v o, nth_error vs i = Some (v, o) -> of_clauses o < length vs /\ of_sorts o < length vs;
  ou_unused : forall i v o, live i -> nth_error vs i = Some (v, o) -> unused_by u o;
  ou_apart : forall i j v w o o', live i -> live j -> i <> j -> nth_error vs i = Some (v, o) -> nth_error vs j = Some (w, o') ->
    of_clauses o <> of_clauses o' /\ of_sorts o <> of_sorts o' }.

Lemma nth_snoc : forall A (l : list A) x i y, nth_error (l ++ [x]) i = Some y -> nth_error l i = Some y \/ (i = length l /\ y = x).
Proof.
  intros A l x i y H. destruct (lt_dec i (length l)) as [L|L].
  - rewrite nth_error_app1 in H by exact L. now left.
  - rewrite nth_error_app2 in H by lia. destruct (i - length l) as [|d] eqn:D; cbn in H; [|destruct d; discriminate]. right. split; [lia|congruence].
Qed.

Lemma one_use_begin : forall vs u live v, one_use vs u live ->
  one_use (vs ++ [(v, Origin (length vs) (length vs) (length vs))]) u (fun i => live i \/ i = length vs).
Proof.
  intros vs u live v [[B1 B2] O U A]. constructor; rewrite ?app_length; cbn [length].
  - split; intros x I; [specialize (B1 x I)|specialize (B2 x I)]; lia.
  - intros i w o H. apply nth_snoc in H as [H|[-> H]]; [destruct (O _ _ _ H); lia|]. inversion H; subst; cbn; lia.
  - intros i w o L H. apply nth_snoc in H as [H|[-> H]].
    + destruct L as [L| ->]; [now apply (U i w)|]. assert (X : length vs < length vs) by (apply nth_error_Some; congruence). lia.
    + inversion H; subst. split; cbn; [intros I; specialize (B1 _ I); lia|intros e I; specialize (B2 _ I); lia].
  - intros i j w x o o' Li Lj N Hi Hj. apply nth_snoc in Hi as [Hi|[-> Hi]]; apply nth_snoc in Hj as [Hj|[-> Hj]].
    + destruct Li as [Li| ->]; [|assert (X : length vs < length vs) by (apply nth_error_Some; congruence); lia].
      destruct Lj as [Lj| ->]; [|assert (X : length vs < length vs) by (apply nth_error_Some; congruence); lia].
      now apply (A i j w x).
    + inversion Hj; subst; cbn. destruct (O _ _ _ Hi). lia.
    + inversion Hi; subst; cbn. destruct (O _ _ _ Hj). lia.
    + lia.
Qed.

(** What a call on a value does to clauses and sort items. *)
Lemma used_not_kept : forall s c, (adds_clause s c = true -> keeps_clauses s c = false) /\ (sort_use_of s c <> Unused -> keeps_sorts s c = false).
Proof.
  intros s c. split.
  - unfold keeps_clauses. destruct s; intros H; rewrite ?H; auto.
  - destruct s as [d|u|w|r|d p|p]; cbn [sort_use_of keeps_sorts]; auto.
    + destruct u as [e d u l b o]. destruct (adds_sort c) eqn:A; [|congruence]. intros _. destruct d, u, c; try discriminate A; reflexivity.
    + destruct (adds_sort c) eqn:A; [intros _; now rewrite orb_true_r|]. destruct (adds_clause (W w) c) eqn:C; cbn [andb]; [reflexivity|congruence].
    + destruct (adds_sort c) eqn:A; [intros _; now rewrite orb_true_r|congruence].
Qed.

Lemma use_entries : forall u o b x,
  (forall y, List.In y (used_clauses (use u o b x)) -> List.In y (used_clauses u) \/ (b = true /\ y = of_clauses o))
  /\ (forall e, List.In e (used_sorts (use u o b x)) -> List.In e (used_sorts u) \/ (x <> Unused /\ fst e = of_sorts o)).
Proof.
  intros u o b x. split.
  - intros y. cbn [use used_clauses]. destruct b; [intros [<-|I]; auto|auto].
  - intros e. cbn [use used_sorts]. destruct x; [auto| |]; (intros [<-|I]; [right; cbn; split; [discriminate|reflexivity]|auto]).
Qed.

Lemma one_use_less : forall vs u i v o b x (live live' : nat -> Prop), one_use vs u live -> live i -> nth_error vs i = Some (v, o) ->
  (forall j, live' j -> live j /\ j <> i) -> one_use vs (use u o b x) live'.
Proof.
  intros vs u i v o b x live live' [[B1 B2] O U A] Li H L'. destruct (O _ _ _ H) as [O1 O2]. destruct (use_entries u o b x) as [E1 E2]. constructor.
  - split; intros y I; [apply E1 in I as [I|[_ ->]]|apply E2 in I as [I|[_ ->]]]; auto.
  - exact O.
  - intros j w o' Lj Hj. destruct (L' j Lj) as [Lj' N]. destruct (U j w o' Lj' Hj) as [U1 U2]. destruct (A i j v w o o' Li Lj' (not_eq_sym N) H Hj) as [A1 A2].
    split; [intros I; apply E1 in I as [I|[_ X]]; [contradiction|congruence]|intros e I X; apply E2 in I as [I|[_ Y]]; [now apply (U2 e I)|congruence]].
  - intros j k w y o1 o2 Lj Lk N Hj Hk. destruct (L' j Lj), (L' k Lk). now apply (A j k w y).
Qed.

Lemma one_use_do : forall vs u live i v o v' c (b : bool) x, one_use vs u live -> live i -> nth_error vs i = Some (v, o) ->
  (b = true -> keeps_clauses v c = false) -> (x <> Unused -> keeps_sorts v c = false) ->
  one_use (vs ++ [(v', next_origin (length vs) o v c)]) (use u o b x) (fun j => (live j /\ j <> i) \/ j = length vs).
Proof.
  intros vs u live i v o v' c b x H0 Li H Kc Ks.
  pose proof (one_use_less vs u i v o b x live (fun j => live j /\ j <> i) H0 Li H (fun j X => X)) as [[B1 B2] O U A].
  destruct H0 as [[C1 C2] _ U0 A0]. destruct (O _ _ _ H) as [O1 O2]. destruct (use_entries u o b x) as [E1 E2]. destruct (U0 i v o Li H) as [Uc Us].
  set (n := next_origin (length vs) o v c). 
  assert (Nc : (keeps_clauses v c = true /\ of_clauses n = of_clauses o) \/ (of_clauses n = length vs)).
  { unfold n, next_origin. cbn. destruct (keeps_clauses v c); auto. }
  assert (Ns : (keeps_sorts v c = true /\ of_sorts n = of_sorts o) \/ (of_sorts n = length vs)).
  { unfold n, next_origin. cbn. destruct (keeps_sorts v c); auto. }
  assert (Ou : forall j w y o', (live j /\ j <> i) \/ j = length vs -> nth_error vs j = Some (w, y) -> o' = y ->
    live j /\ j <> i).
  { intros j w y o' [L|L] Hj _; [exact L|]. subst j. assert (X : length vs < length vs) by (apply nth_error_Some; congruence). lia. }
  constructor; rewrite ?app_length; cbn [length].
  - split; intros y I; [specialize (B1 y I)|specialize (B2 y I)]; lia.
  - intros j w o' Hj. apply nth_snoc in Hj as [Hj|[-> Hj]]; [destruct (O _ _ _ Hj); lia|]. inversion Hj; subst. fold n.
    destruct Nc as [[_ ->]| ->], Ns as [[_ ->]| ->]; lia.
  - intros j w o' Lj Hj. apply nth_snoc in Hj as [Hj|[-> Hj]]; [apply (U j w o'); [eapply Ou; eauto|exact Hj]|].
    inversion Hj; subst. fold n. split.
    + intros I. destruct Nc as [[K Q]|Q]; rewrite Q in I; apply E1 in I as [I|[X Y]]; [contradiction|rewrite (Kc X) in K; discriminate|specialize (C1 _ I); lia|lia].
    + intros e I X. destruct Ns as [[K Q]|Q]; rewrite Q in X; apply E2 in I as [I|[Y Z]]; [now apply (Us e I)|rewrite (Ks Y) in K; discriminate|specialize (C2 _ I); lia|lia].
  - assert (Half : forall j w y, (live j /\ j <> i) -> nth_error vs j = Some (w, y) -> of_clauses y <> of_clauses n /\ of_sorts y <> of_sorts n).
    { intros j w y [Lj Nj] Hj. destruct (O _ _ _ Hj) as [P1 P2]. destruct (A0 j i w v y o Lj Li Nj Hj H) as [Q1 Q2].
      destruct Nc as [[_ ->]| ->], Ns as [[_ ->]| ->]; split; try assumption; lia. }
    intros j k w y o1 o2 Lj Lk N Hj Hk. apply nth_snoc in Hj as [Hj|[-> Hj]]; apply nth_snoc in Hk as [Hk|[-> Hk]].
    + apply (A j k w y); auto; [exact (Ou j w o1 o1 Lj Hj eq_refl)|exact (Ou k y o2 o2 Lk Hk eq_refl)].
    + inversion Hk; subst. fold n. apply (Half j w o1 (Ou j w o1 o1 Lj Hj eq_refl) Hj).
    + inversion Hj; subst. fold n. destruct (Half k y o2 (Ou k y o2 o2 Lk Hk eq_refl) Hk) as [P1 P2]. split; congruence.
    + lia.
Qed.

Lemma one_use_weaken : forall vs u (live live' : nat -> Prop), one_use vs u live -> (forall i, live' i -> live i) -> one_use vs u live'.
Proof.
  intros vs u live live' [B O U A] L. constructor; auto; [intros i v o Li; apply (U i v o); auto|].
  intros i j v w o o' Li Lj. apply A; auto.
Qed.

Lemma used_once_careful_from : forall ps vs u (live : nat -> Prop), one_use vs u live -> NoDup (flat_map receiver ps) ->
  (forall i, List.In i (flat_map receiver ps) -> i < length vs -> live i) -> careful_from vs u ps = true.
Proof.
  induction ps as [|p ps IH]; intros vs u live H N L; [reflexivity|]. destruct p as [ks c|ks i c|ks i]; cbn [careful_from flat_map receiver app] in *.
  - destruct (start ks c) as [[v| |]|]; try reflexivity. apply (IH _ _ _ (one_use_begin vs u live v H) N).
    intros i I B. rewrite app_length in B. cbn in B. destruct (Nat.eq_dec i (length vs)); [auto|]. left. apply L; [exact I|lia].
  - inversion N as [|? ? Ni N']; subst. destruct (nth_error vs i) as [[v o]|] eqn:Q; [|reflexivity].
    assert (Li : live i) by (apply L; [now left|apply nth_error_Some; congruence]).
    rewrite (unused_allowed u o _ _ (ou_unused _ _ _ H i v o Li Q)). cbn [andb]. destruct (step ks v c) as [[v'| |]|]; try reflexivity.
    destruct (used_not_kept v c) as [Kc Ks].
    apply (IH _ _ _ (one_use_do vs u live i v o v' c _ _ H Li Q Kc Ks) N').
    intros j I B. rewrite app_length in B. cbn in B. destruct (Nat.eq_dec j (length vs)); [auto|]. left. split; [apply L; [now right|lia]|congruence].
  - inversion N as [|? ? Ni N']; subst. destruct (nth_error vs i) as [[v o]|] eqn:Q; [|reflexivity].
    assert (Li : live i) by (apply L; [now left|apply nth_error_Some; congruence]).
    rewrite (unused_allowed u o _ _ (ou_unused _ _ _ H i v o Li Q)). cbn [andb]. destruct (build ks v) as [[b| |]|]; try reflexivity.
    apply (IH _ _ (fun j => live j /\ j <> i)); [|exact N'|intros j I B; split; [apply L; [now right|exact B]|congruence]].
    apply (one_use_less vs u i v o _ _ live _ H Li Q). auto.
Qed.

Lemma used_once_careful : forall ps, used_once ps -> careful ps = true.
Proof.
  intros ps N. apply (used_once_careful_from ps [] no_uses (fun _ => False)); [|exact N|intros i _ B; cbn in B; lia].
  constructor; cbn; try tauto. - split; cbn; tauto. - intros [|i] v o H; discriminate.
Qed.

(** ** Goroutines *)

Lemma set_nth_same : forall A (l : list A) i x y, nth_error l i = Some y -> nth_error (set_nth l i x) i = Some x.
Proof. induction l as [|a l IH]; intros [|i] x y H; try discriminate; cbn in *; eauto. Qed.
Lemma set_nth_other : forall A (l : list A) i j x, i <> j -> nth_error (set_nth l i x) j = nth_error l j.
Proof. induction l as [|a l IH]; intros [|i] [|j] x H; cbn; try reflexivity; try congruence. apply IH. congruence. Qed.
Lemma set_nth_case : forall A (l : list A) i j x y z, nth_error l i = Some z -> nth_error (set_nth l i x) j = Some y ->
  (j = i /\ y = x) \/ (j <> i /\ nth_error l j = Some y).
Proof.
  intros A l i j x y z H G. destruct (Nat.eq_dec i j) as [->|N].
  - rewrite (set_nth_same _ _ _ _ _ H) in G. inversion G; auto.
  - rewrite set_nth_other in G by exact N. auto.
Qed.

Notation instrs l := (map (@snd nat instr) l).
Notation receivers l := (flat_map receiver (instrs l)).


(** Goroutines that make no more calls. *)
Definition gone (w : worker) : Prop := w_rest w = [] /\ w_built w = true.

(** The next call of a goroutine, case by case. *)
Lemma next_cases : forall n w p w', next_call n w = Some (p, w') ->
  (exists ks c, w_rest w = (ks, c) :: w_rest w' /\ w_keys w' = w_keys w /\ w_value w' = Some n /\ w_built w' = false /\ makes_value p = 1
     /\ p = match w_value w with None => Begin ks c | Some v => Do ks v c end)
  \/ (exists v, w_rest w = [] /\ w_rest w' = [] /\ w_keys w' = w_keys w /\ w_value w = Some v /\ w_value w' = Some v /\ w_built w = false /\ w_built w' = true
     /\ makes_value p = 0 /\ p = Finish (w_keys w) v).
Proof.
  intros n [rest keys value done] p w' H. unfold next_call in H. cbn [w_rest w_value w_built w_keys] in *.
  destruct rest as [|[ks c] l], value as [v|]; try discriminate; [destruct done; [discriminate|]| |]; inversion H; subst; cbn;
    [right; eauto 20|left; eauto 20|left; eauto 20].
Qed.

Lemma later_receivers : forall turns ws n x, List.In x (receivers (merged ws n turns)) ->
  n <= x \/ exists i w, nth_error ws i = Some w /\ ~ gone w /\ w_value w = Some x.
Proof.
  induction turns as [|i turns IH]; intros ws n x I; cbn [merged] in I; [destruct I|].
  destruct (nth_error ws i) as [w|] eqn:Q; [|now apply IH]. destruct (next_call n w) as [[p w']|] eqn:P; [|now apply IH].
  cbn [map snd flat_map] in I. unfold gone. destruct (next_cases n w p w' P) as [(ks & c & R & _ & V & _ & M & ->)|(v & R & R' & _ & V & V' & D & D' & M & ->)].
  - apply in_app_or in I as [I|I].
    + destruct (w_value w) as [v|] eqn:E; cbn in I; [destruct I as [<-|[]]|destruct I]. right. exists i, w. repeat split; auto. rewrite R. intros [X _]. discriminate.
    + apply IH in I as [I|(j & y & Hj & G & Vj)]; [left; lia|]. apply (set_nth_case _ _ _ _ _ _ _ Q) in Hj as [[-> ->]|[N Hj]].
      * left. rewrite V in Vj. inversion Vj. lia.
      * right. exists j, y. auto.
  - apply in_app_or in I as [[<-|[]]|I].
    + right. exists i, w. repeat split; auto. rewrite D. intros [_ X]. discriminate.
    + apply IH in I as [I|(j & y & Hj & G & Vj)]; [left; lia|]. apply (set_nth_case _ _ _ _ _ _ _ Q) in Hj as [[-> ->]|[N Hj]].
      * exfalso. apply G. now split.
      * right. exists j, y. auto.
Qed.

Record own_values (ws : list worker) (n : nat) : Prop := {
  ov_below : forall i w v, nth_error ws i = Some w -> w_value w = Some v -> v < n;
  ov_apart : forall i j w x v, i <> j -> nth_error ws i = Some w -> nth_error ws j = Some x -> w_value w = Some v -> w_value x = Some v -> False }.

Lemma own_values_next : forall ws n i w p w', own_values ws n -> nth_error ws i = Some w -> next_call n w = Some (p, w') ->
  own_values (set_nth ws i w') (makes_value p + n).
Proof.
  intros ws n i w p w' [B A] Q P. destruct (next_cases n w p w' P) as [(ks & c & R & _ & V & _ & M & _)|(v & R & R' & _ & V & V' & D & D' & M & _)]; rewrite M; cbn [plus].
  - assert (X : forall j y v, nth_error (set_nth ws i w') j = Some y -> w_value y = Some v -> (j = i /\ v = n) \/ (j <> i /\ nth_error ws j = Some y /\ v < n)).
    { intros j y v Hj Vj. apply (set_nth_case _ _ _ _ _ _ _ Q) in Hj as [[-> ->]|[N Hj]]; [left; split; congruence|right; eauto]. }
    constructor.
    + intros j y v Hj Vj. destruct (X j y v Hj Vj) as [[_ ->]|(_ & _ & L)]; lia.
    + intros j k y z v N Hj Hk Vj Vk. destruct (X j y v Hj Vj) as [[-> ->]|(N1 & H1 & L1)], (X k z _ Hk Vk) as [[-> E]|(N2 & H2 & L2)]; try lia.
      now apply (A j k y z v).
  - assert (X : forall j y u, nth_error (set_nth ws i w') j = Some y -> w_value y = Some u -> exists y', nth_error ws j = Some y' /\ w_value y' = Some u).
    { intros j y u Hj Vj. apply (set_nth_case _ _ _ _ _ _ _ Q) in Hj as [[-> ->]|[N Hj]]; [exists w; split; congruence|eauto]. }
    constructor.
    + intros j y u Hj Vj. destruct (X j y u Hj Vj) as (y' & H1 & V1). eauto.
    + intros j k y z u N Hj Hk Vj Vk. destruct (X j y u Hj Vj) as (y' & H1 & V1), (X k z u Hk Vk) as (z' & H2 & V2). now apply (A j k y' z' u).
Qed.

Lemma merged_once : forall turns ws n, own_values ws n -> NoDup (receivers (merged ws n turns)).
Proof.
  induction turns as [|i turns IH]; intros ws n O; cbn [merged]; [constructor|].
  destruct (nth_error ws i) as [w|] eqn:Q; [|now apply IH]. destruct (next_call n w) as [[p w']|] eqn:P; [|now apply IH].
  pose proof (IH _ _ (own_values_next ws n i w p w' O Q P)) as D. cbn [map snd flat_map].
  assert (F : forall v, w_value w = Some v -> (w_value w' = Some n \/ gone w') -> ~ List.In v (receivers (merged (set_nth ws i w') (makes_value p + n) turns))).
  { intros v V G I. pose proof (ov_below _ _ O i w v Q V) as L. apply later_receivers in I as [I|(j & y & Hj & Gy & Vj)].
    - lia.
    - apply (set_nth_case _ _ _ _ _ _ _ Q) in Hj as [[-> ->]|[N Hj]].
      + destruct G as [G|G]; [|contradiction]. rewrite G in Vj. inversion Vj. lia.
      + now apply (ov_apart _ _ O j i y w v). }
  destruct (next_cases n w p w' P) as [(ks & c & R & _ & V & _ & M & ->)|(v & R & R' & _ & V & V' & _ & D' & M & ->)].
  - destruct (w_value w) as [v|]; cbn [receiver app]; [|exact D]. constructor; [apply F; auto|exact D].
  - cbn [receiver app]. constructor; [apply F; [auto|right; now split]|exact D].
Qed.

Lemma hired_nth : forall (jobs : list job) i w, nth_error (map hire jobs) i = Some w -> exists j, nth_error jobs i = Some j /\ w = hire j.
Proof.
  intros jobs i w H. rewrite nth_error_map in H. destruct (nth_error jobs i) as [j|]; [|discriminate]. inversion H. eauto.
Qed.

Lemma program_once : forall jobs turns, used_once (program_of jobs turns).
Proof.
  intros jobs turns. apply merged_once. constructor.
  - intros i w v H V. apply hired_nth in H as (j & _ & ->). discriminate.
  - intros i j w x v _ H _ V _. apply hired_nth in H as (y & _ & ->). discriminate.
Qed.

(** What each has called so far. *)
Record on_the_job (jobs : list job) (ls : list (list link)) (ws : list worker) : Prop := {
  oj_below : forall i w v, nth_error ws i = Some w -> w_value w = Some v -> v < length ls;
  oj_calls : forall i w, nth_error ws i = Some w -> exists j, nth_error jobs i = Some j /\ w_keys w = snd j
    /\ match w_value w with None => w_rest w = fst j | Some v => nth v ls [] ++ w_rest w = fst j end }.

Lemma nth_app_old : forall A (l : list A) x v d, v < length l -> nth v (l ++ [x]) d = nth v l d.
Proof. intros. now apply app_nth1. Qed.
Lemma nth_app_new : forall A (l : list A) x d, nth (length l) (l ++ [x]) d = x.
Proof. intros. rewrite app_nth2 by lia. now rewrite Nat.sub_diag. Qed.

Lemma on_the_job_call : forall jobs ls ws i w w' ks c, on_the_job jobs ls ws -> nth_error ws i = Some w ->
  w_rest w = (ks, c) :: w_rest w' -> w_keys w' = w_keys w -> w_value w' = Some (length ls) ->
  on_the_job jobs (ls ++ [match w_value w with None => [] | Some v => nth v ls [] end ++ [(ks, c)]]) (set_nth ws i w').
Proof.
  intros jobs ls ws i w w' ks c [B C] Q R Kw V. constructor.
  - intros j y v Hj Vj. rewrite app_length. cbn [length]. apply (set_nth_case _ _ _ _ _ _ _ Q) in Hj as [[-> ->]|[N Hj]]; [|specialize (B j y v Hj Vj); lia].
    rewrite V in Vj. inversion Vj. lia.
  - intros j y Hj. apply (set_nth_case _ _ _ _ _ _ _ Q) in Hj as [[-> ->]|[N Hj]].
    + destruct (C i w Q) as (x & Hx & Kx & Cx). exists x. split; [exact Hx|]. split; [congruence|]. rewrite V, nth_app_new, <- app_assoc. cbn [app].
      rewrite R in Cx. destruct (w_value w); exact Cx.
    + destruct (C j y Hj) as (x & Hx & Kx & Cx). exists x. split; [exact Hx|]. split; [exact Kx|]. destruct (w_value y) as [v|] eqn:E; [|exact Cx].
      rewrite nth_app_old by (eapply B; eauto). exact Cx.
Qed.

Definition built_by (l : list (nat * instr)) : list nat :=
  flat_map (fun e : nat * instr => match snd e with Finish _ _ => [fst e] | _ => [] end) l.

Lemma merged_finished : forall turns jobs ls ws, on_the_job jobs ls ws ->
  Forall2 (fun x i => nth_error jobs i = Some x) (finished ls (instrs (merged ws (length ls) turns))) (built_by (merged ws (length ls) turns)).
Proof.
  induction turns as [|i turns IH]; intros jobs ls ws O; cbn [merged]; [constructor|].
  destruct (nth_error ws i) as [w|] eqn:Q; [|now apply IH]. destruct (next_call (length ls) w) as [[p w']|] eqn:P; [|now apply IH].
  destruct (next_cases _ w p w' P) as [(ks & c & R & Kw & V & _ & M & ->)|(v & R & R' & Kw & V & V' & _ & D' & M & ->)].
  - pose proof (on_the_job_call jobs ls ws i w w' ks c O Q R Kw V) as O'. pose proof (IH _ _ _ O') as F. rewrite app_length in F. cbn [length] in F.
    rewrite Nat.add_comm in F. rewrite M. destruct (w_value w) as [v|]; cbn [map snd finished built_by flat_map fst app] in *; exact F.
  - rewrite M. cbn [plus map snd finished built_by flat_map fst app]. constructor.
    + destruct O as [_ C]. destruct (C i w Q) as (x & Hx & Kx & Cx). rewrite V, R, app_nil_r in Cx. rewrite Hx, Cx, Kx. now destruct x.
    + apply IH. destruct O as [B C]. constructor.
      * intros j y u Hj Vj. apply (set_nth_case _ _ _ _ _ _ _ Q) in Hj as [[-> ->]|[N Hj]]; [apply (B i w); congruence|eauto].
      * intros j y Hj. apply (set_nth_case _ _ _ _ _ _ _ Q) in Hj as [[-> ->]|[N Hj]]; [|auto].
        destruct (C i w Q) as (x & Hx & Kx & Cx). exists x. split; [exact Hx|]. split; [congruence|]. rewrite V', R'. now rewrite V, R in Cx.
Qed.

Lemma program_finished : forall jobs turns,
  Forall2 (fun x i => nth_error jobs i = Some x) (finished [] (program_of jobs turns)) (builders jobs turns).
Proof.
  intros jobs turns. apply (merged_finished turns jobs [] (map hire jobs)). constructor.
  - intros i w v H V. apply hired_nth in H as (j & _ & ->). discriminate.
  - intros i w H. apply hired_nth in H as (j & Hj & ->). exists j. repeat split; auto.
Qed.

(** ** All calls return *)

Definition all_returns (x : option (outcome built)) : Prop := exists b, x = Some (Returns b).

Record on_the_way (vs : list state) (ws : list worker) : Prop := {
  ow_values : forall i w v, nth_error ws i = Some w -> w_value w = Some v -> exists s, nth_error vs v = Some s
    /\ all_returns (after (replay_from s (w_rest w)) (build (w_keys w)));
  ow_new : forall i w, nth_error ws i = Some w -> w_value w = None -> w_rest w <> [] -> all_returns (alone (w_rest w, w_keys w)) }.

Lemma merged_returns : forall turns ws vs bs, on_the_way vs ws ->
  exists r, ideal vs bs (instrs (merged ws (length vs) turns)) = Some (Returns r).
Proof.
  induction turns as [|i turns IH]; intros ws vs bs O; cbn [merged]; [cbn; eauto|].
  destruct (nth_error ws i) as [w|] eqn:Q; [|now apply IH]. destruct (next_call (length vs) w) as [[p w']|] eqn:P; [|now apply IH].
  assert (Call : forall s', w_value w' = Some (length vs) -> all_returns (after (replay_from s' (w_rest w')) (build (w_keys w'))) ->
    on_the_way (vs ++ [s']) (set_nth ws i w')).
  { intros s' V A. destruct O as [Ov On]. constructor.
    - intros j y u Hj Vj. apply (set_nth_case _ _ _ _ _ _ _ Q) in Hj as [[-> ->]|[N Hj]].
      + rewrite V in Vj. inversion Vj; subst. exists s'. split; [|exact A]. rewrite nth_error_app2 by lia. now rewrite Nat.sub_diag.
      + destruct (Ov j y u Hj Vj) as (s & Hs & As). exists s. split; [|exact As]. rewrite nth_error_app1; [exact Hs|]. apply nth_error_Some. congruence.
    - intros j y Hj Vj R. apply (set_nth_case _ _ _ _ _ _ _ Q) in Hj as [[-> ->]|[N Hj]]; [congruence|eauto]. }
  destruct (next_cases _ w p w' P) as [(ks & c & R & Kw & V & _ & M & ->)|(v & R & R' & Kw & V & V' & _ & D' & M & ->)]; rewrite M; cbn [plus].
  - destruct (w_value w) as [v|] eqn:E; cbn [map snd ideal].
    + destruct (ow_values _ _ O i w v Q E) as (s & Hs & b & As). rewrite Hs. rewrite R in As. cbn [replay_from] in As.
      destruct (step ks s c) as [[s'| |]|]; cbn [after] in As |- *; try discriminate.
      destruct (IH (set_nth ws i w') (vs ++ [s']) bs) as [r Hr]; [apply Call; [exact V|rewrite Kw; now exists b]|]. rewrite app_length in Hr. cbn [length] in Hr.
      rewrite Nat.add_comm in Hr. exists r. exact Hr.
    + destruct (ow_new _ _ O i w Q E) as [b As]; [rewrite R; discriminate|]. unfold alone in As. rewrite R in As. cbn [fst snd replay] in As.
      destruct (start ks c) as [[s'| |]|]; cbn [after] in As |- *; try discriminate.
      destruct (IH (set_nth ws i w') (vs ++ [s']) bs) as [r Hr]; [apply Call; [exact V|rewrite Kw; now exists b]|]. rewrite app_length in Hr. cbn [length] in Hr.
      rewrite Nat.add_comm in Hr. exists r. exact Hr.
  - cbn [map snd ideal]. destruct (ow_values _ _ O i w v Q V) as (s & Hs & b & As). rewrite Hs. rewrite R in As. cbn [replay_from after] in As. rewrite As. cbn [after].
    apply IH. destruct O as [Ov On]. constructor.
    + intros j y u Hj Vj. apply (set_nth_case _ _ _ _ _ _ _ Q) in Hj as [[-> ->]|[N Hj]]; [|eauto].
      exists s. split; [congruence|]. rewrite R', Kw. exists b. exact As.
    + intros j y Hj Vj X. apply (set_nth_case _ _ _ _ _ _ _ Q) in Hj as [[-> ->]|[N Hj]]; [congruence|eauto].
Qed.

Lemma program_returns : forall (jobs : list job) turns, (forall j, List.In j jobs -> fst j <> [] -> all_returns (alone j)) ->
  exists r, ideal [] [] (program_of jobs turns) = Some (Returns r).
Proof.
  intros jobs turns A. apply (merged_returns turns (map hire jobs) [] []). constructor.
  - intros i w v H V. apply hired_nth in H as (j & _ & ->). discriminate.
  - intros i w H _ R. apply hired_nth in H as (j & Hj & ->). cbn [w_rest w_keys hire] in *. destruct (A j) as [b Hb]; [eapply nth_error_In; eauto|exact R|].
    exists b. destruct j; exact Hb.
Qed.

(** ** Who builds, and when *)

Lemma builder_not_gone : forall turns ws n i, List.In i (built_by (merged ws n turns)) -> exists w, nth_error ws i = Some w /\ ~ gone w.
Proof.
  induction turns as [|j turns IH]; intros ws n i I; cbn [merged] in I; [destruct I|].
  destruct (nth_error ws j) as [w|] eqn:Q; [|eapply IH; exact I]. destruct (next_call n w) as [[p w']|] eqn:P; [|eapply IH; exact I].
  unfold gone. destruct (next_cases n w p w' P) as [(ks & c & R & Kw & V & _ & M & ->)|(v & R & R' & Kw & V & V' & D & D' & M & ->)].
  - assert (I' : List.In i (built_by (merged (set_nth ws j w') (makes_value match w_value w with Some v => Do ks v c | None => Begin ks c end + n) turns)))
      by (destruct (w_value w); exact I).
    apply IH in I' as (y & Hy & G). apply (set_nth_case _ _ _ _ _ _ _ Q) in Hy as [[-> ->]|[N Hy]]; [|eauto].
    exists w. split; [exact Q|]. rewrite R. intros [X _]. discriminate.
  - destruct I as [<-|I].
    + exists w. split; [exact Q|]. rewrite D. intros [_ X]. discriminate.
    + apply IH in I as (y & Hy & G). apply (set_nth_case _ _ _ _ _ _ _ Q) in Hy as [[-> ->]|[N Hy]]; [|eauto]. exfalso. apply G. now split.
Qed.

Lemma builders_once : forall turns ws n, NoDup (built_by (merged ws n turns)).
Proof.
  induction turns as [|j turns IH]; intros ws n; cbn [merged]; [constructor|].
  destruct (nth_error ws j) as [w|] eqn:Q; [|apply IH]. destruct (next_call n w) as [[p w']|] eqn:P; [|apply IH].
  destruct (next_cases n w p w' P) as [(ks & c & R & Kw & V & _ & M & ->)|(v & R & R' & Kw & V & V' & D & D' & M & ->)].
  - destruct (w_value w); cbn [built_by flat_map snd app]; apply IH.
  - cbn [built_by flat_map snd fst app]. constructor; [|apply IH]. intros I. apply builder_not_gone in I as (y & Hy & G).
    apply (set_nth_case _ _ _ _ _ _ _ Q) in Hy as [[_ ->]|[N _]]; [|congruence]. apply G. now split.
Qed.

Lemma builder_done : forall turns ws n i w, nth_error ws i = Some w -> w_built w = false -> (w_value w = None -> w_rest w <> []) ->
  length (w_rest w) < count_occ Nat.eq_dec turns i -> List.In i (built_by (merged ws n turns)).
Proof.
  induction turns as [|j turns IH]; intros ws n i w H B N L; cbn [merged count_occ] in *; [lia|].
  destruct (Nat.eq_dec j i) as [->|D].
  - rewrite H. destruct (next_call n w) as [[p w']|] eqn:P.
    + destruct (next_cases n w p w' P) as [(ks & c & R & Kw & V & Bw & M & ->)|(v & R & R' & Kw & V & V' & Dw & D' & M & ->)].
      * assert (X : List.In i (built_by (merged (set_nth ws i w') (makes_value match w_value w with Some v => Do ks v c | None => Begin ks c end + n) turns))).
        { apply (IH _ _ i w'); [eapply set_nth_same; eauto|exact Bw|congruence|rewrite R in L; cbn in L; lia]. }
        destruct (w_value w); exact X.
      * now left.
    + exfalso. unfold next_call in P. destruct (w_rest w) as [|[ks c] l]; destruct (w_value w); try discriminate; [rewrite B in P; discriminate|now apply N].
  - assert (X : forall ws' n', nth_error ws' i = Some w -> List.In i (built_by (merged ws' n' turns))) by (intros; now apply (IH _ _ i w)).
    destruct (nth_error ws j) as [y|] eqn:Q; [|now apply X]. destruct (next_call n y) as [[p y']|] eqn:P; [|now apply X].
    assert (Y : List.In i (built_by (merged (set_nth ws j y') (makes_value p + n) turns))) by (apply X; now rewrite set_nth_other).
    destruct p; [exact Y|exact Y|now right].
Qed.
