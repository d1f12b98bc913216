(** Lemmas for the exact form of C16: a condition keeps its meaning only if in
    every pair of parentheses its operators are in the order of precedence. *)

From Coq Require Import Ascii String List ZArith Bool Lia.
From Verif Require Import GoStr Escape Num VTree Ast SpecDoc SpecPrint DocProofs EscapeProofs SpecCond SpecOrder Cond CondProofs.
Import ListNotations.
Open Scope string_scope.
Open Scope list_scope.

(** ** The basic conditions of a condition *)

Fixpoint atoms (c : cnd) : list expr :=
  match c with
  | Atom e => [e]
  | Neg _ _ c => atoms c
  | Comp _ _ cs _ | CompErr _ cs => flat_map atoms cs
  | _ => []
  end.

Lemma added_atoms : forall ki same cs ch x cs', add_conditions ki same cs ch x = Some cs' ->
  flat_map atoms cs' = flat_map atoms cs ++ atoms x.
Proof.
  intros ki same cs ch x cs' H. unfold add_conditions in H.
  assert (App : forall y, flat_map atoms (cs ++ [y]) = flat_map atoms cs ++ atoms y) by (intros y; rewrite flat_map_app; cbn; now rewrite app_nil_r).
  assert (Hin : forall inner, compound_conditions x = Some inner -> atoms x = flat_map atoms inner) by (intros inner E; destruct x; inversion E; reflexivity).
  destruct (compound_conditions x) as [[|i inner]|].
  - rewrite (Hin _ eq_refl). inversion H. cbn. now rewrite app_nil_r.
  - destruct (same && has_op ch x).
    + destruct (can_be_flattened ch (i :: inner)); inversion H; subst; [now rewrite flat_map_app, (Hin _ eq_refl)|apply App].
    + inversion H; subst. rewrite App. cbn. now rewrite app_nil_r.
  - destruct same; inversion H; subst. apply App.
Qed.
Lemma added_atoms' : forall ki cs ch x, flat_map atoms (added ki cs ch x) = flat_map atoms cs ++ atoms x.
Proof.
  intros ki cs ch x. unfold added. destruct (add_conditions ki true cs ch x) as [cs'|] eqn:E; [now apply added_atoms in E|].
  unfold add_conditions in E. destruct (compound_conditions x) as [[|]|]; [discriminate| |discriminate]. destruct (true && has_op ch x); [destruct (can_be_flattened _ _)|]; discriminate.
Qed.
Lemma create_atoms : forall rho ks l o r, sound rho l -> sound rho r -> atoms (create ks l o r) = atoms l ++ atoms r.
Proof.
  intros rho ks l o r Sl Sr. unfold create. inversion Sl; inversion Sr; subst; cbn [get_error]; cbv zeta; cbn [atoms]; rewrite !added_atoms'; reflexivity.
Qed.
Lemma chain_atoms : forall rho ks o x y z, sound rho x -> sound rho y -> container_chain ks o x y = Val z -> atoms z = atoms x ++ atoms y.
Proof.
  intros rho ks o x y z Sx Sy H. pose proof (create_atoms rho ks x o y Sx Sy) as C.
  destruct x; cbn [container_chain] in H; try discriminate; inversion H; subst; try exact C; clear H; try (now inversion Sx).
  - cbn [add atoms]. now rewrite added_atoms'.
  - unfold add. destruct (add_conditions (ks 3) (bop_eqb o0 o) cs o y) eqn:E; [|exact C]. cbn [atoms]. now apply added_atoms in E.
Qed.
Lemma makes_atoms : forall c x, makes c x -> proper c = true -> atoms x = operands c.
Proof.
  intros c x H. induction H as [e| |ks o c d x y z H1 IH1 H2 IH2 Hz|ks o c d x y z H1 IH1 H2 IH2 Hz
    |ks o c e x z H1 IH1 Hz|ks c x z H1 IH1 Hz]; intros Pr; cbn in Pr |- *; try reflexivity.
  - apply andb_prop in Pr as [P1 P2]. destruct (makes_val (fun _ => None) _ _ H1 P1) as [S1 _]. destruct (makes_val (fun _ => None) _ _ H2 P2) as [S2 _].
    rewrite (chain_atoms _ _ _ _ _ _ S1 S2 Hz), IH1, IH2; auto.
  - apply andb_prop in Pr as [P1 P2]. destruct (makes_val (fun _ => None) _ _ H1 P1) as [S1 _]. destruct (makes_val (fun _ => None) _ _ H2 P2) as [S2 _].
    rewrite (method_chain _ _ _ _ _ S1) in Hz. rewrite (chain_atoms _ _ _ _ _ _ S1 S2 Hz), IH1, IH2; auto.
  - rewrite andb_true_r in Pr. destruct (makes_val (fun _ => None) _ _ H1 Pr) as [S1 _].
    assert (E : z = create ks x (bop_of_conn o) (Atom e)) by (unfold container_pattern in Hz; destruct x; congruence). subst z.
    rewrite (create_atoms _ _ _ _ _ S1 (s_atom (fun _ => None) e)), IH1; auto.
  - apply andb_prop in Pr as [P1 P2]. destruct (makes_val (fun _ => None) _ _ H1 P1) as [S1 _]. rewrite <- (IH1 P1).
    unfold container_not, comparison_not in Hz. inversion S1; subst; cbn [get_error] in Hz; inversion Hz; reflexivity.
Qed.

Lemma tokens_atoms : forall x a, In (TAtom a) (tokens x) -> In a (atoms x).
Proof.
  intros x a. induction x as [|e|k kn c IH|e| |k o cs n IH|e cs IH] using cnd_ind'; cbn [tokens atoms]; try contradiction.
  - intros [H|[]]. injection H as ->. now left.
  - intros [H|[H|H]]; [discriminate|discriminate|]. apply in_app_or in H as [H|[H|[]]]; [auto|discriminate].
  - assert (Q : forall d, In d cs -> In (TAtom a) (tokens d) -> In a (flat_map atoms cs)).
    { intros d J H. apply in_flat_map. exists d. split; [exact J|]. rewrite Forall_forall in IH. auto. }
    destruct cs as [|c [|c' cs]]; [contradiction|intros H; apply (Q c); [now left|exact H]|].
    intros [H|H]; [discriminate|]. apply in_app_or in H as [H|[H|[]]]; [|discriminate]. apply in_app_or in H as [H|H]; [apply (Q c); [now left|exact H]|].
    apply in_flat_map in H as (d & J & [H|H]); [discriminate|]. apply (Q d); [now right|exact H].
Qed.

Lemma val_ext : forall rho rho' x, (forall e, In e (atoms x) -> rho e = rho' e) -> val rho x = val rho' x.
Proof.
  intros rho rho' x. induction x as [|e|k kn c IH|e| |k o cs n IH|e cs IH] using cnd_ind'; intros H; try reflexivity.
  - cbn. f_equal. apply H. now left.
  - cbn. f_equal. now apply IH.
  - rewrite !val_Comp. unfold run. cbn [atoms] in H. generalize (@None tv). induction cs as [|c cs IHc]; intros acc; [reflexivity|].
    inversion IH as [|? ? I1 I2]; subst. cbn [fold_left flat_map] in *. unfold step at 2 4. rewrite I1 by (intros e J; apply H; apply in_or_app; now left).
    apply IHc; [assumption|]. intros e J. apply H. apply in_or_app. now right.
Qed.

Lemma reads_ext : forall (rho rho' : expr -> tv) n ts v, reads rho n ts v -> (forall a, In (TAtom a) ts -> rho a = rho' a) -> reads rho' n ts v.
Proof.
  intros rho rho' n ts v H. induction H as [a|ts v H IH|ts v H IH|o l r v w Hl IHl Hr IHr|n ts v L H IH]; intros Q.
  - rewrite (Q a) by now left. constructor.
  - constructor. apply IH. intros a J. apply Q. right. apply in_or_app. now left.
  - constructor. apply IH. intros a J. apply Q. now right.
  - constructor; [apply IHl|apply IHr]; intros a J; apply Q; apply in_or_app; [now left|right; now right].
  - apply r_up; auto.
Qed.

(** ** Reading a sequence of operands *)

(** What has been read in front of the last OR, behind it in front of the last
    XOR, and behind that. *)
Section Layers.
Context (rho : expr -> tv).

Definition kept (n : nat) (o : conn) (ts : list (tok expr)) (v : option tv) : Prop :=
  (ts = [] /\ v = None) \/ (exists t w, ts = t ++ [TOp o] /\ v = Some w /\ reads rho n t w).
Definition layers (ts : list (tok expr)) (vo vx : option tv) (va : tv) : Prop :=
  exists t1 t2 t3, ts = t1 ++ t2 ++ t3 /\ kept 0 COr t1 vo /\ kept 1 CXor t2 vx /\ reads rho 2 t3 va.
Definition inner (vx : option tv) (va : tv) : tv := match vx with Some v => xor3 v va | None => va end.
Definition whole (vo vx : option tv) (va : tv) : tv := match vo with Some v => or3 v (inner vx va) | None => inner vx va end.

Lemma kept_xor : forall t2 t3 vx va, kept 1 CXor t2 vx -> reads rho 2 t3 va -> reads rho 1 (t2 ++ t3) (inner vx va).
Proof.
  intros t2 t3 vx va [[-> ->]|(t & w & -> & -> & H)] R; cbn [app inner].
  - apply r_up; [lia|exact R].
  - rewrite <- app_assoc. cbn [app]. exact (r_op rho CXor t t3 w va H R).
Qed.
Lemma kept_or : forall t1 t vo v, kept 0 COr t1 vo -> reads rho 1 t v -> reads rho 0 (t1 ++ t) (match vo with Some u => or3 u v | None => v end).
Proof.
  intros t1 t vo v [[-> ->]|(u & w & -> & -> & H)] R; cbn [app].
  - apply r_up; [lia|exact R].
  - rewrite <- app_assoc. cbn [app]. exact (r_op rho COr u t w v H R).
Qed.
Lemma layers_whole : forall ts vo vx va, layers ts vo vx va -> reads rho 0 ts (whole vo vx va).
Proof. intros ts vo vx va (t1 & t2 & t3 & -> & H1 & H2 & H3). exact (kept_or t1 _ vo _ H1 (kept_xor t2 t3 vx va H2 H3)). Qed.

(** One more operand. *)
Definition next (o : conn) (s : option tv * option tv * tv) (w : tv) : option tv * option tv * tv :=
  let '(vo, vx, va) := s in
  match o with
  | CAnd => (vo, vx, and3 va w)
  | CXor => (vo, Some (inner vx va), w)
  | COr => (Some (whole vo vx va), None, w)
  end.
Definition laid (ts : list (tok expr)) (s : option tv * option tv * tv) : Prop := let '(vo, vx, va) := s in layers ts vo vx va.
Definition total (s : option tv * option tv * tv) : tv := let '(vo, vx, va) := s in whole vo vx va.

Lemma next_laid : forall o ts s t w, laid ts s -> reads rho 3 t w -> laid (ts ++ TOp o :: t) (next o s w).
Proof.
  intros o ts [[vo vx] va] t w L R. assert (R2 : reads rho 2 t w) by (apply r_up; [lia|exact R]). unfold laid in L. pose proof (layers_whole _ _ _ _ L) as W. destruct L as (t1 & t2 & t3 & -> & H1 & H2 & H3). destruct o; cbn [next laid].
  - exists t1, t2, (t3 ++ TOp CAnd :: t). split; [now rewrite <- !app_assoc|]. split; [exact H1|]. split; [exact H2|]. exact (r_op rho CAnd t3 t va w H3 R).
  - exists ((t1 ++ t2 ++ t3) ++ [TOp COr]), [], t. split; [now rewrite <- !app_assoc|]. split; [right; do 2 eexists; split; [reflexivity|]; split; [reflexivity|exact W]|]. split; [now left|exact R2].
  - exists t1, ((t2 ++ t3) ++ [TOp CXor]), t. split; [now rewrite <- !app_assoc|]. split; [exact H1|]. split; [|exact R2].
    right. do 2 eexists. split; [reflexivity|]. split; [reflexivity|]. now apply kept_xor.
Qed.

(** The operands that change nothing. *)
Definition ident (o : conn) : bool := match o with CAnd => true | _ => false end.
Lemma next_ident : forall o s, total (next o s (Some (ident o))) = total s.
Proof. intros [] [[[[[]|]|] [[[]|]|]] [[]|]]; reflexivity. Qed.
Lemma connect_ident : forall o v, connect o v (Some (ident o)) = v.
Proof. intros [] [[]|]; reflexivity. Qed.

(** An operand behind [a] that is F, and behind it with a stronger operator the
    one that makes the difference. *)
Definition flip (o : conn) : bool := match o with CAnd => false | _ => true end.
Lemma next_flip : forall a b s, prec a < prec b -> total s = Some true ->
  total (next b (next a s (Some false)) (Some (flip b))) = Some true
  /\ connect b (connect a (Some true) (Some false)) (Some (flip b)) = Some false.
Proof. intros a b [[vo vx] va] L T. destruct a, b; cbn in L; try lia; (split; [|reflexivity]); destruct vo as [[[]|]|]; destruct vx as [[[]|]|]; destruct va as [[]|]; cbn in T |- *; congruence. Qed.

End Layers.

Lemma ordered_or_not : forall l n, (forall o, In o l -> prec o <= n) \/ n < 3 -> match l with o :: _ => prec o <= n | [] => True end ->
  descending n l \/ exists l1 a b l2, l = l1 ++ a :: b :: l2 /\ prec a < prec b.
Proof.
  induction l as [|o l IH]; intros n _ H; [left; exact I|]. destruct l as [|p l]; [left; cbn; auto|].
  destruct (le_lt_dec (prec p) (prec o)) as [G|G]; [|right; exists [], o, p, l; auto].
  destruct (IH (prec o)) as [D|(l1 & a & b & l2 & -> & L)]; [right; pose proof (prec_le o); lia|exact G|left; split; assumption|].
  right. exists (o :: l1), a, b, l2. auto.
Qed.

Section Exact.
Context (name : expr -> string).
Notation given g := (fun e => g (name e)).
Definition names (x : cnd) : list string := map name (atoms x).

(** The values can be chosen so that the condition is [b] by the calls and [b']
    for who reads the text. *)
Definition takes (g : string -> tv) (x : cnd) (b b' : bool) : Prop :=
  val (given g) x = Some (Some b) /\ reads (given g) 3 (tokens x) (Some b').
Definition can (x : cnd) (b b' : bool) : Prop := exists g, takes g x b b'.

Lemma takes_ext : forall g g' x b b', takes g x b b' -> (forall s, In s (names x) -> g s = g' s) -> takes g' x b b'.
Proof.
  intros g g' x b b' [V R] H. assert (Q : forall e, In e (atoms x) -> g (name e) = g' (name e)) by (intros e J; apply H; now apply in_map).
  split; [rewrite <- V; symmetry; now apply val_ext|]. apply reads_ext with (given g); [exact R|]. intros a J. apply Q. now apply tokens_atoms.
Qed.

Lemma NoDup_split : forall (A : Type) (l l' : list A), NoDup (l ++ l') -> NoDup l /\ NoDup l' /\ forall x, In x l -> ~ In x l'.
Proof.
  intros A l l'. induction l as [|x l IH]; intros H; [split; [constructor|]; split; [exact H|]; intros x []|].
  inversion H as [|? ? N D]; subst. destruct (IH D) as (D1 & D2 & D3). split; [constructor; [|exact D1]; intros J; apply N; apply in_or_app; now left|]. split; [exact D2|].
  intros y [<-|J] K; [apply N; apply in_or_app; now right|exact (D3 y J K)].
Qed.

Lemma all_can : forall cs ps, Forall2 (fun c p => can c (fst p) (snd p)) cs ps -> NoDup (flat_map names cs) ->
  exists g, Forall2 (fun c p => takes g c (fst p) (snd p)) cs ps.
Proof.
  intros cs ps H. induction H as [|c p cs ps [g1 H1] H IH]; intros D; [exists (fun _ => None); constructor|].
  cbn [flat_map] in D. apply NoDup_split in D as (_ & D2 & D3). destruct (IH D2) as [g2 H2].
  exists (fun s => if in_dec string_dec s (names c) then g1 s else g2 s). constructor.
  - apply takes_ext with g1; [exact H1|]. intros s J. now destruct (in_dec string_dec s (names c)).
  - assert (Q : forall d, In d cs -> forall s, In s (names d) -> ~ In s (names c)) by (intros d J s K L; apply (D3 s L); apply in_flat_map; eauto).
    clear - H2 Q. induction H2 as [|d q cs ps T H2 IH]; constructor.
    + apply takes_ext with g2; [exact T|]. intros s J. destruct (in_dec string_dec s (names c)) as [K|]; [|reflexivity]. destruct (Q d (or_introl eq_refl) s J K).
    + apply IH. intros e J. apply Q. now right.
Qed.

(** ** A sequence of operands that takes given values *)

Notation op o d := (conn_of (joiner o d)).
Definition joined_tokens (o : bop) (rest : list cnd) : list (tok expr) := flat_map (fun d => TOp (op o d) :: tokens d) rest.
Definition steps (o : bop) (rest : list cnd) (ps : list (bool * bool)) (s : option tv * option tv * tv) : option tv * option tv * tv :=
  fold_left (fun s dp => next (op o (fst dp)) s (Some (snd (snd dp)))) (combine rest ps) s.
Definition left_value (o : bop) (rest : list cnd) (ps : list (bool * bool)) (v : tv) : tv :=
  fold_left (fun v dp => connect (op o (fst dp)) v (Some (fst (snd dp)))) (combine rest ps) v.

Lemma run_steps : forall g o rest ps, Forall2 (fun c p => takes g c (fst p) (snd p)) rest ps -> forall ts s v,
  laid (given g) ts s ->
  run (given g) o rest (Some v) = Some (left_value o rest ps v) /\ laid (given g) (ts ++ joined_tokens o rest) (steps o rest ps s).
Proof.
  intros g o rest ps H. induction H as [|d p rest ps [V R] H IH]; intros ts s v L.
  - split; [reflexivity|]. cbn. now rewrite app_nil_r.
  - unfold joined_tokens, steps, left_value, run in *. cbn [combine fold_left flat_map fst snd].
    pose proof (next_laid (given g) (op o d) ts s (tokens d) _ L R) as L'. destruct (IH _ _ (connect (op o d) v (Some (fst p))) L') as [E1 E2]. split.
    + rewrite <- E1. f_equal. unfold step. rewrite V. reflexivity.
    + rewrite <- app_assoc in E2. exact E2.
Qed.

Lemma comp_takes : forall g k o c d rest n p ps, takes g c (fst p) (snd p) -> Forall2 (fun c p => takes g c (fst p) (snd p)) (d :: rest) ps ->
  val (given g) (Comp k o (c :: d :: rest) n) = Some (left_value o (d :: rest) ps (Some (fst p)))
  /\ reads (given g) 3 (tokens (Comp k o (c :: d :: rest) n)) (total (steps o (d :: rest) ps (None, None, Some (snd p)))).
Proof.
  intros g k o c d rest n p ps [V R] H.
  assert (L : laid (given g) (tokens c) (None, None, Some (snd p))).
  { exists [], [], (tokens c). split; [reflexivity|]. split; [now left|]. split; [now left|]. apply r_up; [lia|exact R]. }
  destruct (run_steps g o (d :: rest) ps H _ _ (Some (fst p)) L) as [E1 E2]. split.
  - rewrite val_Comp. rewrite <- E1. change (run (given g) o (d :: rest) (step (given g) o None c) = run (given g) o (d :: rest) (Some (Some (fst p)))). f_equal. unfold step. rewrite V. reflexivity.
  - cbn [tokens]. apply r_paren. destruct (steps o (d :: rest) ps (None, None, Some (snd p))) as [[vo vx] va]. exact (layers_whole _ _ _ _ _ E2).
Qed.

Definition idents (o : bop) (rest : list cnd) : list (bool * bool) := map (fun d => (ident (op o d), ident (op o d))) rest.
Lemma steps_ident : forall o rest s, total (steps o rest (idents o rest) s) = total s.
Proof.
  intros o rest. unfold steps, idents. induction rest as [|d rest IH]; intros s; [reflexivity|]. cbn [map combine fold_left fst snd]. now rewrite IH, next_ident.
Qed.
Lemma left_ident : forall o rest v, left_value o rest (idents o rest) v = v.
Proof.
  intros o rest. unfold left_value, idents. induction rest as [|d rest IH]; intros v; [reflexivity|]. cbn [map combine fold_left fst snd]. now rewrite IH, connect_ident.
Qed.
Lemma combine_app' : forall (A B : Type) (l1 : list A) (m1 : list B) l2 m2, length l1 = length m1 -> combine (l1 ++ l2) (m1 ++ m2) = combine l1 m1 ++ combine l2 m2.
Proof. intros A B l1. induction l1 as [|x l1 IH]; intros [|y m1] l2 m2 H; try discriminate; [reflexivity|]. cbn. f_equal. apply IH. now injection H. Qed.
Lemma steps_app : forall o r1 r2 p1 p2 s, length r1 = length p1 -> steps o (r1 ++ r2) (p1 ++ p2) s = steps o r2 p2 (steps o r1 p1 s).
Proof. intros. unfold steps. now rewrite combine_app', fold_left_app. Qed.
Lemma left_app : forall o r1 r2 p1 p2 v, length r1 = length p1 -> left_value o (r1 ++ r2) (p1 ++ p2) v = left_value o r2 p2 (left_value o r1 p1 v).
Proof. intros. unfold left_value. now rewrite combine_app', fold_left_app. Qed.
Lemma idents_length : forall o r, length r = length (idents o r).
Proof. intros. unfold idents. now rewrite map_length. Qed.

(** ** Every value can be taken *)

Lemma idents_can : forall o rest, Forall (fun c => forall b, can c b b) rest -> Forall2 (fun c p => can c (fst p) (snd p)) rest (idents o rest).
Proof. intros o rest H. induction H; cbn; constructor; auto. Qed.

Lemma parts_whole : forall k o cs n, (forall rho, sound rho (Comp k o cs n)) ->
  Forall (fun c => (forall rho, sound rho c) /\ forall rho, exists v, val rho c = Some v) cs.
Proof.
  intros k o cs n S. apply Forall_forall. intros c J. split; intros rho; specialize (S rho); inversion S as [| | |? ? ? ? P]; subst; rewrite Forall_forall in P; destruct (P c J); auto.
Qed.

Lemma can_be : forall x, (forall rho, sound rho x) -> (forall rho, exists v, val rho x = Some v) -> NoDup (names x) -> forall b, can x b b.
Proof.
  intros x. induction x as [|e|k kn c IH|e| |k o cs m IH|e cs IH] using cnd_ind'; intros S V D b; try (specialize (S (fun _ => None)); now inversion S).
  - exists (fun _ => Some b). split; [reflexivity|]. cbn [tokens]. exact (r_atom (fun _ => Some b) e).
  - destruct (IH) with (b := negb b) as (g & Hv & Hr).
    + intros rho. specialize (S rho). now inversion S.
    + intros rho. specialize (S rho). now inversion S.
    + exact D.
    + exists g. split; [cbn [val]; rewrite Hv; cbn; now rewrite negb_involutive|]. cbn [tokens]. replace (Some b) with (not3 (Some (negb b))) by (cbn; now rewrite negb_involutive).
      apply r_not. apply r_paren. apply reads_weaken with 3; [exact Hr|lia|lia].
  - destruct (V (fun _ => None)) as [v W]. discriminate W.
  - pose proof (parts_whole k o cs m S) as P.
    assert (C : Forall (fun c => forall b, can c b b) cs).
    { unfold names in D. cbn [atoms] in D. clear - IH P D. induction cs as [|c cs IHc]; constructor; inversion IH; inversion P as [|? ? [? ?] ?]; subst; cbn [flat_map] in D; rewrite map_app in D; apply NoDup_split in D as (D1 & D2 & _); auto. }
    assert (D' : NoDup (flat_map names cs)).
    { unfold names in *. cbn [atoms] in D. clear - D. rewrite flat_map_concat_map in D |- *. rewrite concat_map, map_map in D. exact D. }
    destruct cs as [|c [|d rest]].
    + destruct (V (fun _ => None)) as [v W]. discriminate W.
    + inversion C as [|? ? Cc _]; subst. destruct (Cc b) as (g & Hv & Hr). exists g. split; [rewrite val_Comp; unfold run; cbn [fold_left]; unfold step; now rewrite Hv|exact Hr].
    + inversion C as [|? ? Cc Cr]; subst. destruct (all_can (c :: d :: rest) ((b, b) :: idents o (d :: rest))) as [g G]; [constructor; [exact (Cc b)|now apply idents_can]|exact D'|].
      inversion G as [|? ? ? ? G1 G2]; subst. destruct (comp_takes g k o c d rest m (b, b) _ G1 G2) as [Ev Er]. exists g. split.
      * rewrite Ev, left_ident. reflexivity.
      * rewrite steps_ident in Er. exact Er.
Qed.

Lemma ops_split : forall (f : cnd -> conn) rest l1 a b l2, map f rest = l1 ++ a :: b :: l2 ->
  exists r1 d1 d2 r2, rest = r1 ++ d1 :: d2 :: r2 /\ f d1 = a /\ f d2 = b.
Proof.
  intros f rest l1. revert rest. induction l1 as [|o l1 IH]; intros rest a b l2 H.
  - destruct rest as [|d1 [|d2 rest]]; try discriminate. injection H as H1 H2 _. exists [], d1, d2, rest. auto.
  - destruct rest as [|d rest]; [discriminate|]. injection H as _ H. destruct (IH rest a b l2 H) as (r1 & d1 & d2 & r2 & -> & ? & ?). exists (d :: r1), d1, d2, r2. auto.
Qed.

Lemma descending_before : forall l1 n a l2, descending n (l1 ++ a :: l2) -> forall p, In p l1 -> prec a <= prec p.
Proof.
  induction l1 as [|q l1 IH]; intros n a l2 H p J; [contradiction|]. destruct H as [_ H]. destruct J as [<-|J]; [|exact (IH _ _ _ H p J)].
  clear - H. revert H. generalize (prec q). induction l1 as [|r l1 IH]; intros m [H1 H2]; [exact H1|]. pose proof (IH _ H2). lia.
Qed.

Lemma steps_ands : forall o rest, (forall d, In d rest -> op o d = CAnd) -> steps o rest (idents o rest) (None, None, Some true) = (None, None, Some true).
Proof.
  intros o rest. unfold steps, idents. induction rest as [|d rest IH]; intros H; [reflexivity|]. cbn [map combine fold_left fst snd]. rewrite (H d) by now left. cbn [next ident and3].
  apply IH. intros e J. apply H. now right.
Qed.

(** An operand that passes its value on. *)
Lemma next_pass : forall a s b b', total s = Some (ident a) -> (a = CAnd -> s = (None, None, Some true)) ->
  total (next a s (Some b')) = Some b' /\ connect a (Some (ident a)) (Some b) = Some b.
Proof.
  intros a s b b' T E. destruct a.
  - rewrite (E eq_refl). split; [destruct b'|destruct b]; reflexivity.
  - clear E. destruct s as [[vo vx] va]. split; [|destruct b; reflexivity]. cbn [next total] in *. cbn [whole inner]. cbn [total] in T. rewrite T. destruct b'; reflexivity.
  - clear E. destruct s as [[vo vx] va]. split; [|destruct b; reflexivity]. destruct vo as [[[]|]|]; destruct vx as [[[]|]|]; destruct va as [[]|]; destruct b'; cbn in T |- *; congruence.
Qed.

(** ** The exact condition *)

Lemma tight_or_misread : forall x, (forall rho, sound rho x) -> (forall rho, exists v, val rho x = Some v) -> NoDup (names x) ->
  tight x \/ exists b, can x b (negb b).
Proof.
  intros x. induction x as [|e|k kn c IH|e| |k o cs m IH|e cs IH] using cnd_ind'; intros S V D; try (left; exact I).
  - destruct IH as [T|(b & g & Hv & Hr)].
    + intros rho. specialize (S rho). now inversion S.
    + intros rho. specialize (S rho). now inversion S.
    + exact D.
    + left. exact T.
    + right. exists (negb b), g. split; [cbn [val]; now rewrite Hv|]. cbn [tokens]. change (Some (negb (negb b))) with (not3 (Some (negb b))). apply r_not. apply r_paren. apply reads_weaken with 3; [exact Hr|lia|lia].
  - pose proof (parts_whole k o cs m S) as P.
    assert (D' : NoDup (flat_map names cs)).
    { unfold names in *. cbn [atoms] in D. clear - D. rewrite flat_map_concat_map in D |- *. rewrite concat_map, map_map in D. exact D. }
    assert (C : Forall (fun c => forall b, can c b b) cs).
    { clear - P D'. induction P as [|c cs [P1 P2] P IHc]; constructor; cbn [flat_map] in D'; apply NoDup_split in D' as (D1 & D2 & _); [now apply can_be|auto]. }
    assert (T : Forall tight cs \/ exists r1 c r2 b, cs = r1 ++ c :: r2 /\ can c b (negb b)).
    { clear - IH P D'. induction P as [|c cs [P1 P2] P IHc]; [left; constructor|]. cbn [flat_map] in D'. apply NoDup_split in D' as (D1 & D2 & _). inversion IH as [|? ? I1 I2]; subst.
      destruct (I1 P1 P2 D1) as [T|(b & B)]; [|right; exists [], c, cs, b; auto]. destruct (IHc I2 D2) as [Ts|(r1 & d & r2 & b & -> & B)]; [left; now constructor|right; exists (c :: r1), d, r2, b; auto]. }
    destruct cs as [|c [|d rest]].
    + left. apply tight_Comp. split; [constructor|exact I].
    + destruct T as [T|(r1 & c' & r2 & b & Q & B)]; [left; apply tight_Comp; split; [exact T|exact I]|]. right. assert (c' = c) by (destruct r1 as [|? [|? ?]]; injection Q; congruence). subst c'.
      exists b. destruct B as (g & Hv & Hr). exists g. split; [rewrite val_Comp; unfold run; cbn [fold_left]; unfold step; now rewrite Hv|exact Hr].
    + assert (OD : descending 3 (map (fun d => op o d) (d :: rest)) \/ exists l1 a b l2, map (fun d => op o d) (d :: rest) = l1 ++ a :: b :: l2 /\ prec a < prec b).
      { apply ordered_or_not; [left; intros p _; pose proof (prec_le p); lia|cbn; pose proof (prec_le (op o d)); lia]. }
      inversion C as [|? ? Cc Cr]; subst. destruct OD as [OD|(l1 & a & b & l2 & Q & L)].
      * destruct T as [T|(r1 & x & r2 & b & Q & B)]; [left; apply tight_Comp; now split|]. right. exists b. destruct r1 as [|c0 r1].
        -- injection Q as <- <-. destruct (all_can (c :: d :: rest) ((b, negb b) :: idents o (d :: rest))) as [g G]; [constructor; [exact B|now apply idents_can]|exact D'|].
           inversion G as [|? ? ? ? G1 G2]; subst. destruct (comp_takes g k o c d rest m (b, negb b) _ G1 G2) as [Ev Er]. exists g. rewrite left_ident in Ev. rewrite steps_ident in Er. split; [exact Ev|exact Er].
        -- injection Q as <- Q.
           set (i := ident (op o x)). set (ps := idents o r1 ++ (b, negb b) :: idents o r2).
           destruct (all_can (c :: d :: rest) ((i, i) :: ps)) as [g G]; [constructor; [exact (Cc i)|]|exact D'|].
           { rewrite Q in *. unfold ps. apply Forall_app in Cr as [C1 C2]. inversion C2; subst. apply Forall2_app; [now apply idents_can|]. constructor; [exact B|now apply idents_can]. }
           inversion G as [|? ? ? ? G1 G2]; subst. destruct (comp_takes g k o c d rest m (i, i) _ G1 G2) as [Ev Er]. exists g. cbn [fst snd] in Ev, Er. rewrite Q in OD. rewrite Q in Ev at 2. rewrite Q in Er at 2. unfold ps in Ev, Er.
           rewrite left_app in Ev by apply idents_length. rewrite left_ident in Ev. rewrite steps_app in Er by apply idents_length.
           pose proof (steps_ident o r1 (None, None, Some i)) as E1. cbn [total whole inner] in E1.
           assert (E2 : op o x = CAnd -> steps o r1 (idents o r1) (None, None, Some i) = (None, None, Some true)).
           { intros E. unfold i. rewrite E. cbn [ident]. apply steps_ands. rewrite map_app in OD. cbn [map] in OD. rewrite E in OD. intros e J. apply (in_map (fun d => op o d)) in J. apply (descending_before _ _ _ _ OD) in J. destruct (op o e); cbn in J; [reflexivity|lia|lia]. }
           destruct (next_pass (op o x) _ b (negb b) E1 E2) as [F1 F2]. split.
           ++ rewrite Ev. unfold left_value. cbn [combine fold_left fst snd]. fold i in F2. rewrite F2. f_equal. exact (left_ident o r2 (Some b)).
           ++ match type of Er with reads _ _ _ ?v => replace v with (Some (negb b)) in Er; [exact Er|] end. unfold steps at 1. cbn [combine fold_left fst snd]. symmetry. etransitivity; [exact (steps_ident o r2 _)|exact F1].
      * right. exists false. cbn [negb]. destruct (ops_split _ _ _ _ _ _ Q) as (r1 & d1 & d2 & r2 & Qr & <- & <-).
        set (ps := idents o r1 ++ (false, false) :: (flip (op o d2), flip (op o d2)) :: idents o r2).
        destruct (all_can (c :: d :: rest) ((true, true) :: ps)) as [g G]; [constructor; [exact (Cc true)|]|exact D'|].
        { rewrite Qr in *. unfold ps. apply Forall_app in Cr as [C1 C2]. inversion C2 as [|? ? C3 C4]; inversion C4; subst. apply Forall2_app; [now apply idents_can|]. constructor; [cbn; auto|]. constructor; [cbn; auto|now apply idents_can]. }
        inversion G as [|? ? ? ? G1 G2]; subst. destruct (comp_takes g k o c d rest m (true, true) _ G1 G2) as [Ev Er]. exists g. cbn [fst snd] in Ev, Er. rewrite Qr in Ev at 2. rewrite Qr in Er at 2. unfold ps in Ev, Er.
        rewrite left_app in Ev by apply idents_length. rewrite left_ident in Ev. rewrite steps_app in Er by apply idents_length.
        pose proof (steps_ident o r1 (None, None, Some true)) as E1. cbn [total whole inner] in E1. destruct (next_flip (op o d1) (op o d2) _ L E1) as [F1 F2].
        split.
        -- rewrite Ev. unfold left_value. cbn [combine fold_left fst snd]. rewrite F2. f_equal. exact (left_ident o r2 (Some false)).
        -- match type of Er with reads _ _ _ ?v => replace v with (Some true) in Er; [exact Er|] end. unfold steps at 1. cbn [combine fold_left fst snd]. symmetry. etransitivity; [exact (steps_ident o r2 _)|exact F1].
Qed.
End Exact.

(** ** The order of the operators, seen in the text *)

Lemma tokens_in_order : forall x, (forall rho, sound rho x) -> forall open ts,
  in_order open (tokens x ++ ts) <-> tight x /\ in_order open ts.
Proof.
  intros x. induction x as [|e|k kn c IH|e| |k o cs m IH|e cs IH] using cnd_ind'; intros S open ts; try (exfalso; specialize (S (fun _ => None)); now inversion S).
  - cbn. tauto.
  - cbn [tokens app in_order]. rewrite <- app_assoc, IH by (intros rho; specialize (S rho); now inversion S). cbn. tauto.
  - cbn. tauto.
  - pose proof (parts_whole k o cs m S) as P. rewrite tight_Comp.
    assert (IH' : Forall (fun c => forall open ts, in_order open (tokens c ++ ts) <-> tight c /\ in_order open ts) cs).
    { clear - IH P. induction P as [|c cs [P1 _] P IHP]; inversion IH; subst; constructor; auto. }
    clear IH P S. destruct cs as [|c [|d rest]].
    + cbn. intuition constructor.
    + inversion IH' as [|? ? I1 _]; subst. change (tokens (Comp k o [c] m)) with (tokens c). rewrite I1. cbn [tl map descending]. rewrite Forall_cons_iff. intuition constructor.
    + inversion IH' as [|? ? I1 I2]; subst. cbn [tokens tl]. rewrite <- app_comm_cons, <- !app_assoc. cbn [in_order]. rewrite I1.
      assert (R : forall l n, Forall (fun c => forall open ts, in_order open (tokens c ++ ts) <-> tight c /\ in_order open ts) l ->
        (in_order (n :: open) (flat_map (fun d => TOp (conn_of (joiner o d)) :: tokens d) l ++ TR :: ts)
         <-> Forall tight l /\ descending n (map (fun d => conn_of (joiner o d)) l) /\ in_order open ts)).
      { clear. induction l as [|d l IHl]; intros n H; [cbn; intuition constructor|]. inversion H as [|? ? H1 H2]; subst.
        cbn [flat_map map descending app in_order hd tl]. rewrite <- app_assoc, H1, IHl by assumption. rewrite Forall_cons_iff. tauto. }
      cbn [app]. rewrite (R _ _ I2). rewrite (Forall_cons_iff tight c). tauto.
Qed.
