(** Facts about the reader of SpecGrammar.v. *)

From Coq Require Import Ascii String List ZArith Bool Lia.
From Verif Require Import GoStr SpecTokens SpecOutline SpecGrammar SpecReading.
Import ListNotations.
Open Scope string_scope.
Open Scope list_scope.
Open Scope nat_scope.

(** ** Brackets *)

Fixpoint depth (ts : list token) (d : nat) : option nat :=
  match ts with
  | [] => Some d
  | t :: r => if opening t then depth r (S d)
              else if closing t then match d with O => None | S d' => depth r d' end
              else depth r d
  end.
Definition balanced (ts : list token) : Prop := forall d, depth ts d = Some d.

Lemma depth_app : forall x y d, depth (x ++ y) d = match depth x d with Some d' => depth y d' | None => None end.
Proof.
  induction x as [|t x IH]; intros y d; [reflexivity|]. cbn [app depth]. destruct (opening t); [apply IH|].
  destruct (closing t); [destruct d; [reflexivity|apply IH]|apply IH].
Qed.
Lemma balanced_nil : balanced [].
Proof. intros d. reflexivity. Qed.
Lemma balanced_app : forall x y, balanced x -> balanced y -> balanced (x ++ y).
Proof. intros x y X Y d. now rewrite depth_app, X, Y. Qed.
Lemma balanced_cons : forall t y, opening t = false -> closing t = false -> balanced y -> balanced (t :: y).
Proof. intros t y O C Y d. cbn [depth]. now rewrite O, C, Y. Qed.
Lemma balanced_one : forall t, opening t = false -> closing t = false -> balanced [t].
Proof. intros t O C. apply balanced_cons; auto using balanced_nil. Qed.
Lemma balanced_in : forall a b x, opens a = true -> opens b = false -> closes b = true -> balanced x -> balanced (Mark a :: x ++ [Mark b]).
Proof. intros a b x A B C X d. cbn [depth opening]. rewrite A, depth_app, X. cbn [depth opening closing]. now rewrite B, C. Qed.

Definition final (ts : list token) : Prop := called ":" (last ts (Mark ":")) = false.
Lemma last_app : forall (x y : list token) d, y <> [] -> last (x ++ y) d = last y d.
Proof.
  induction x as [|t x IH]; intros y d N; [reflexivity|]. cbn [app]. destruct y as [|u y]; [congruence|].
  rewrite <- (IH (u :: y) d N). destruct x; reflexivity.
Qed.
Lemma final_nonempty : forall x, final x -> x <> [].
Proof. intros x F ->. discriminate F. Qed.
Lemma final_app : forall x y, final y -> final (x ++ y).
Proof. intros x y F. unfold final. rewrite last_app; [exact F|now apply final_nonempty]. Qed.
Lemma final_cons : forall t y, final y -> final (t :: y).
Proof. intros t y F. exact (final_app [t] y F). Qed.
Lemma final_one : forall t, called ":" t = false -> final [t].
Proof. intros t H. exact H. Qed.

(** ** Looking for nodes *)

Lemma dead_ahead : forall ts, node_ahead Dead ts = None.
Proof. induction ts as [|t ts IH]; [reflexivity|]. cbn [node_ahead may_end andb step]. exact IH. Qed.

Definition at_depth (s : look) (d : nat) : Prop :=
  match s with Inside k => d = S k | Dead => True | _ => d = 0 end.

Lemma called_brackets : forall m t, called m t = true -> opening t = opens m /\ closing t = closes m /\ naming t = false.
Proof. intros m [| | | |v] H; try discriminate H. cbn [called] in H. apply String.eqb_eq in H. subst. repeat split; reflexivity. Qed.
Lemma naming_brackets : forall t, naming t = true -> opening t = false /\ closing t = false.
Proof. intros [| | | |] H; try discriminate H; split; reflexivity. Qed.

Lemma ahead_step : forall t r s d d', at_depth s d -> depth (t :: r) d = Some d' -> (may_end s && called ")" t)%bool = false ->
  exists d1, at_depth (step s t) d1 /\ depth r d1 = Some d'.
Proof.
  intros t r s d d' I D M. cbn [depth] in D.
  assert (G : forall s', at_depth s' d -> opening t = false -> closing t = false -> exists d1, at_depth s' d1 /\ depth r d1 = Some d').
  { intros s' I' O C. rewrite O, C in D. eauto. }
  assert (DD : exists d1, at_depth Dead d1 /\ depth r d1 = Some d').
  { destruct (opening t); [eexists; split; [exact Logic.I|exact D]|]. destruct (closing t); [|eexists; split; [exact Logic.I|exact D]].
    destruct d; [discriminate|]. eexists; split; [exact Logic.I|exact D]. }
  assert (B : called "{" t = true -> d = 0 -> exists d1, at_depth (Inside 0) d1 /\ depth r d1 = Some d').
  { intros C ->. destruct (called_brackets _ _ C) as (O & _). rewrite O in D. cbn in D. exists 1. split; [reflexivity|exact D]. }
  destruct s; cbn [step at_depth] in *; subst.
  - destruct (naming t) eqn:N; [apply G; [reflexivity| |]; now apply naming_brackets|].
    destruct (called ":" t) eqn:C; [destruct (called_brackets _ _ C) as (O1 & C1 & _); apply G; [reflexivity|exact O1|exact C1]|].
    destruct (called "{" t) eqn:C2; [now apply B|exact DD].
  - destruct (called ":" t) eqn:C; [destruct (called_brackets _ _ C) as (O1 & C1 & _); apply G; [reflexivity|exact O1|exact C1]|].
    destruct (called "{" t) eqn:C2; [now apply B|exact DD].
  - destruct (naming t) eqn:N; [apply G; [reflexivity| |]; now apply naming_brackets|exact DD].
  - destruct (opening t); [eexists; split; [reflexivity|exact D]|]. destruct (closing t); [|eexists; split; [reflexivity|exact D]].
    destruct d0; eexists; (split; [|exact D]); reflexivity.
  - exact DD.
  - exact DD.
Qed.
Lemma ahead_no_end : forall t r s d d', at_depth s d -> depth (t :: r) d = Some d' -> (may_end s && called ")" t)%bool = false \/ s = Dead.
Proof.
  intros t r s d d' I D. destruct (may_end s && called ")" t)%bool eqn:M; [|now left]. exfalso.
  apply andb_true_iff in M. destruct M as [M C]. destruct (called_brackets _ _ C) as (O & C1 & _). cbn [depth] in D. rewrite O, C1 in D. cbn in D.
  destruct s; try discriminate M; cbn [at_depth] in I; subst; discriminate D.
Qed.

Definition separate (t : token) : bool := negb (called ":" t || called "{" t || called ")" t)%bool.

Lemma no_node_from : forall x ts s d, at_depth s d -> depth ts d = Some 0 -> (ts = [] -> s <> Start /\ s <> Colon) ->
  (ts <> [] -> final ts) -> separate x = true -> forall r, node_ahead s (ts ++ x :: r) = None.
Proof.
  intros x ts. induction ts as [|t ts IH]; intros s d I D N F X r.
  - cbn [app node_ahead]. unfold separate in X. destruct (called ":" x) eqn:X1; [discriminate|]. destruct (called "{" x) eqn:X2; [discriminate|].
    destruct (called ")" x) eqn:X3; [discriminate|]. rewrite andb_false_r. destruct (N eq_refl) as [N1 N2].
    inversion D; subst d. destruct s; cbn [at_depth] in I; try congruence; try discriminate; cbn [step]; rewrite ?X1, ?X2; apply dead_ahead.
  - cbn [app node_ahead]. destruct (ahead_no_end t ts s d 0 I D) as [M| ->]; [|cbn [may_end andb step]; apply dead_ahead].
    rewrite M. destruct (ahead_step t ts s d 0 I D M) as (d1 & I1 & D1). apply (IH _ _ I1 D1); auto.
    + intros ->. specialize (F ltac:(discriminate)). unfold final in F. cbn [last] in F. split; destruct s as [| | |k| |]; cbn [step]; rewrite ?F;
        try destruct k; repeat match goal with |- context [if ?b then _ else _] => destruct b end; discriminate.
    + intros Nt. specialize (F ltac:(discriminate)). destruct ts as [|u ts]; [congruence|exact F].
Qed.
Lemma no_node : forall x ts, balanced ts -> final ts -> separate x = true -> forall r, node_ahead Start (ts ++ x :: r) = None.
Proof. intros x ts B F X. apply (no_node_from x ts Start 0); auto; [reflexivity|]. intros ->. discriminate F. Qed.

Lemma node_or_not_from : forall ts s d, at_depth s d -> depth ts d = Some 0 -> forall r,
  node_ahead s (ts ++ Mark ")" :: r) = None \/ node_ahead s (ts ++ Mark ")" :: r) = Some r.
Proof.
  intros ts. induction ts as [|t ts IH]; intros s d I D r.
  - cbn [app node_ahead]. inversion D; subst d. destruct s; cbn [at_depth] in I; try discriminate; cbn; auto using dead_ahead.
  - cbn [app node_ahead]. destruct (ahead_no_end t ts s d 0 I D) as [M| ->]; [|cbn [may_end andb step]; left; apply dead_ahead].
    rewrite M. destruct (ahead_step t ts s d 0 I D M) as (d1 & I1 & D1). now apply (IH _ _ I1 D1).
Qed.
Lemma node_or_not : forall ts, balanced ts -> forall r, arrow r = false -> pattern_ahead (ts ++ Mark ")" :: r) = false.
Proof.
  intros ts B r A. unfold pattern_ahead. destruct (node_or_not_from ts Start 0 eq_refl (B 0) r) as [-> | ->]; auto.
Qed.

Lemma inside_ahead : forall ts d d', depth ts d = Some d' -> forall r, node_ahead (Inside d) (ts ++ r) = node_ahead (Inside d') r.
Proof.
  induction ts as [|t ts IH]; intros d d' D r; cbn [depth] in D; [now inversion D|]. cbn [app node_ahead may_end andb step].
  destruct (opening t); [now apply IH|]. destruct (closing t); [|now apply IH]. destruct d; [discriminate|]. now apply IH.
Qed.

(** ** What may follow *)

Definition no_postfix (ts : list token) : Prop :=
  match ts with Mark m :: _ => existsb (String.eqb m) ["."; "["; "("; "{"; ":"] = false | _ => True end.
Definition follows (m : nat) (ts : list token) : Prop :=
  match infix_of ts with Some (l, _, _) => l < m | None => True end
  /\ (m <= 9 -> null_test ts = None) /\ (m <= 10 -> no_postfix ts) /\ is_mark "(" ts = None.
Lemma follows_mono : forall m m' ts, m <= m' -> follows m ts -> follows m' ts.
Proof.
  intros m m' ts L (I & N & P & O). split; [destruct (infix_of ts) as [[[l o] r]|]; [lia|exact Logic.I]|]. split; [intros H; apply N; lia|]. split; [intros H; apply P; lia|exact O].
Qed.
Lemma follows_nil : forall m, follows m [].
Proof. intros m. repeat split. Qed.

Definition after (n : nat) : list token -> Prop := follows (match n with 4 => 4 | _ => S n end).
Lemma follows_after : forall n ts, follows n ts -> after n ts.
Proof. intros n ts. unfold after. apply follows_mono. do 5 (destruct n as [|n]; [lia|]). lia. Qed.

(** Going on behind an operand of level [n]. *)
Definition cont (n f : nat) (t : cx) (ts : list token) : option (cx * list token) :=
  match n with
  | 3 | 4 | 8 => Some (t, ts)
  | 9 => tests f t ts
  | 10 => postfix f t ts
  | _ => operators f n t ts
  end.
Lemma operators_stop : forall f n t ts, 1 <= f -> follows n ts -> operators f n t ts = Some (t, ts).
Proof.
  intros [|f] n t ts L (I & _); [lia|]. cbn [operators]. destruct (infix_of ts) as [[[l o] r]|]; [|reflexivity].
  destruct (Nat.eqb_spec l n); [lia|reflexivity].
Qed.
Lemma tests_stop : forall f t ts, 1 <= f -> follows 9 ts -> tests f t ts = Some (t, ts).
Proof.
  intros [|f] t ts L (I & N & _); [lia|]. cbn [tests]. rewrite N by lia. destruct (infix_of ts) as [[[l o] r]|]; [|reflexivity].
  destruct (Nat.eqb_spec l 9); [lia|reflexivity].
Qed.
Lemma postfix_stop : forall f t ts, 1 <= f -> follows 10 ts -> postfix f t ts = Some (t, ts).
Proof.
  intros [|f] t ts L (_ & _ & P & _); [lia|]. cbn [postfix]. specialize (P (le_n _)). destruct ts as [|[| | | |m] r]; try reflexivity.
  cbn [no_postfix existsb] in P. repeat (apply orb_false_iff in P; destruct P as [?E P]). rewrite E, E0, E1, E2.
  cbn [labels_of]. destruct r as [|u r]; [reflexivity|]. now rewrite E3.
Qed.
Lemma cont_stop : forall n f t ts, n <= 10 -> 1 <= f -> follows n ts -> cont n f t ts = Some (t, ts).
Proof.
  intros n f t ts L F H. unfold cont.
  do 11 (destruct n as [|n]; [try reflexivity; first [now apply operators_stop|now apply tests_stop|now apply postfix_stop]|]). lia.
Qed.

(** ** How expressions are read *)

Definition begins (n : nat) (ts : list token) : Prop :=
  match ts with
  | [] => False
  | Word w :: _ => one_of ["DISTINCT"; "WHEN"] w = false /\ (3 < n -> one_of ["NOT"] w = false)
  | Mark m :: _ => existsb (String.eqb m) [")"; "]"; "}"; ","; ".."] = false /\ (8 < n -> String.eqb m "-" = false)
  | _ => True
  end.
Lemma begins_mono : forall n n' ts, n <= n' -> begins n' ts -> begins n ts.
Proof. intros n n' [|[] ts] L; cbn [begins]; auto; intros [H G]; split; auto; intros X; apply G; lia. Qed.
Lemma begins_app : forall n x y, begins n x -> begins n (x ++ y).
Proof. intros n [|t x] y H; [destruct H|]. exact H. Qed.

Definition reads_if (C : list token -> Prop) (n : nat) (P : cx -> Prop) (ts : list token) : Prop :=
  balanced ts /\ final ts /\ begins n ts
  /\ exists N t, P t /\ forall f rest, N <= f -> after n rest -> C rest ->
       exists f', f <= f' + N /\ expr_at f n (ts ++ rest) = cont n f' t rest.
Definition anything (ts : list token) : Prop := True.
Notation reads := (reads_if anything).

Lemma reads_weaken : forall C n (P Q : cx -> Prop) ts, (forall t, P t -> Q t) -> reads_if C n P ts -> reads_if C n Q ts.
Proof. intros C n P Q ts H (B & F & G & N & t & X & R). split; [exact B|]. split; [exact F|]. split; [exact G|]. exists N, t. auto. Qed.

Lemma not_keyword_NOT : forall n ts, 3 < n -> begins n ts -> forall r, is_word "NOT" (ts ++ r) = None.
Proof. intros n [|[w| | | |] ts] L H r; cbn in *; try reflexivity; [destruct H|]. destruct H as [_ H]. now rewrite H. Qed.
Lemma no_sign : forall n ts, 8 < n -> begins n ts -> forall r, is_mark "-" (ts ++ r) = None.
Proof. intros n [|[w| | | |] ts] L H r; cbn in *; try reflexivity; [destruct H|]. destruct H as [_ H]. now rewrite H. Qed.

Lemma climb_one : forall C n P ts, n < 10 -> reads_if C (S n) P ts -> reads_if C n P ts.
Proof.
  intros C n P ts L (B & F & G & N & t & X & R). split; [exact B|]. split; [exact F|]. split; [eapply begins_mono; [|exact G]; lia|].
  exists (S (S N)), t. split; [exact X|]. intros f rest Lf Af Cf. destruct f as [|f]; [lia|].
  assert (Af' : after (S n) rest).
  { revert Af. unfold after. apply follows_mono. do 10 (destruct n as [|n]; [lia|]). lia. }
  destruct (R f rest ltac:(lia) Af' Cf) as (f' & Lf' & Ef).
  assert (ST : forall m, m = S n -> follows (S n) rest -> expr_at f m (ts ++ rest) = Some (t, rest)).
  { intros m -> Fo. rewrite Ef. apply cont_stop; [lia|lia|exact Fo]. }
  do 10 (destruct n as [|n]; [cbn [expr_at cont];
    first
      [ rewrite (ST _ eq_refl Af); cbn [bind]; exists f; split; [lia|reflexivity]
      | rewrite (not_keyword_NOT 4 ts ltac:(lia) G); rewrite Ef; exists f; split; [lia|reflexivity]
      | rewrite (ST _ eq_refl ltac:(eapply follows_mono; [|exact Af]; lia)); cbn [bind];
        exists f; split; [lia|]; destruct Af as (I & _); destruct (infix_of rest) as [[[l o] r]|]; [|reflexivity];
        destruct (Nat.eqb_spec l 4); [lia|reflexivity]
      | rewrite (no_sign 9 ts ltac:(lia) G); rewrite (ST _ eq_refl Af); exists f; split; [lia|reflexivity] ]|]).
  lia.
Qed.
Lemma climb : forall C n m P ts, n <= m -> m <= 10 -> reads_if C m P ts -> reads_if C n P ts.
Proof.
  intros C n m P ts L L10 H. induction m as [|m IH]; [replace n with 0 by lia; exact H|].
  destruct (Nat.eq_dec n (S m)) as [->|N]; [exact H|]. apply IH; [lia|lia|]. apply climb_one; [lia|exact H].
Qed.
Lemma reads_always : forall (C : list token -> Prop) n P ts, (forall rest, after n rest -> C rest) -> reads_if C n P ts -> reads n P ts.
Proof.
  intros C n P ts H (B & F & G & N & t & X & R). split; [exact B|]. split; [exact F|]. split; [exact G|].
  exists N, t. split; [exact X|]. intros f rest Lf Af _. apply R; auto.
Qed.

(** Readers. *)
Definition parses {X} (R : nat -> reader X) (C : list token -> Prop) (Q : X -> Prop) (ts : list token) : Prop :=
  exists N v, Q v /\ forall f rest, N <= f -> C rest -> R f (ts ++ rest) = Some (v, rest).
Lemma parses_weaken : forall X (R : nat -> reader X) (C C' : list token -> Prop) (P Q : X -> Prop) ts,
  (forall v, P v -> Q v) -> (forall r, C' r -> C r) -> parses R C P ts -> parses R C' Q ts.
Proof. intros X R C C' P Q ts H G (N & v & V & F). exists N, v. auto. Qed.

Lemma reads_if_parses : forall C n P ts, n <= 10 -> reads_if C n P ts -> parses (fun f => expr_at f n) (fun r => follows n r /\ C r) P ts.
Proof.
  intros C n P ts L (_ & _ & _ & N & t & X & R). exists (S N), t. split; [exact X|]. intros f rest Lf [Fo Cr].
  destruct (R f rest ltac:(lia) (follows_after _ _ Fo) Cr) as (f' & Lf' & ->). apply cont_stop; [exact L|lia|exact Fo].
Qed.
Lemma reads_parses : forall n P ts, n <= 10 -> reads n P ts -> parses (fun f => expr_at f n) (follows n) P ts.
Proof.
  intros n P ts L H. eapply parses_weaken; [| |exact (reads_if_parses _ n P ts L H)]; [auto|]. intros r F. split; [exact F|exact Logic.I].
Qed.
