(** How the reader of SpecGrammar.v reads each of the constructs. *)

From Coq Require Import Ascii String List ZArith Bool Lia.
From Verif Require Import GoStr SpecTokens SpecOutline SpecGrammar SpecReading GrammarProofs.
Import ListNotations.
Open Scope string_scope.
Open Scope list_scope.
Open Scope nat_scope.

(** ** Where expressions end *)

Definition stops (t : token) : bool :=
  match t with
  | Mark m => existsb (String.eqb m) [")"; "]"; "}"; ","; "|"; ".."]
  | Word w => negb (one_of ["OR"; "XOR"; "AND"; "CONTAINS"; "IN"; "STARTS"; "ENDS"; "IS"] w)
  | _ => true
  end.
Definition halts (ts : list token) : Prop := match ts with [] => True | t :: _ => stops t = true end.

Lemma word_apart : forall l w v, one_of (v :: l) w = false -> one_of [v] w = false /\ one_of l w = false.
Proof. intros l w v H. unfold one_of in *. cbn [existsb] in *. apply orb_false_iff in H. destruct H as [H G]. rewrite H. auto. Qed.
Lemma mark_in : forall m l, existsb (String.eqb m) l = true -> In m l.
Proof. intros m l H. apply existsb_exists in H. destruct H as (x & I & e). apply String.eqb_eq in e. now subst. Qed.

Lemma halts_follows : forall n ts, halts ts -> follows n ts.
Proof.
  intros n [|[w|v|l|s|m] ts] H; [apply follows_nil| | | | |]; cbn [halts stops] in H; try (repeat split; fail).
  - apply negb_true_iff in H. do 7 (apply word_apart in H; let X := fresh "W" in destruct H as [X H]). unfold follows. cbn [infix_of null_test is_word no_postfix].
    rewrite W, W0, W1, W2, W3, W4, W5. cbn [null_test is_word]. unfold null_test. cbn [is_word]. rewrite H. repeat split; auto.
  - apply mark_in in H. cbn [In] in H. repeat (destruct H as [<-|H]; [repeat split|]). destruct H.
Qed.
Lemma halts_arrow : forall ts, halts ts -> arrow ts = false.
Proof.
  intros [|[w|v|l|s|m] ts] H; try reflexivity. apply mark_in in H. cbn [In] in H. repeat (destruct H as [<-|H]; [reflexivity|]). destruct H.
Qed.
Lemma follows_arrow : forall n ts, n <= 4 -> follows n ts -> arrow ts = false.
Proof.
  intros n [|[w|v|l|s|m] ts] L (I & _); try reflexivity. cbn [infix_of] in I. unfold arrow. cbn [is_mark].
  destruct (String.eqb_spec m "<") as [->|N]; [cbn in I; lia|]. destruct (String.eqb_spec m "-") as [->|N']; [cbn in I; lia|]. reflexivity.
Qed.
Lemma after_ten : forall ts, is_mark "(" ts = None -> after 10 ts.
Proof.
  intros ts O. unfold after, follows. split; [|split; [lia|split; [lia|exact O]]]. destruct ts as [|[w|v|l|s|m] ts]; cbn [infix_of]; try exact Logic.I.
  - repeat match goal with |- context [if ?b then _ else _] => destruct b end; try lia; try exact Logic.I; destruct (is_word "WITH" ts); try lia; exact Logic.I.
  - unfold mark_operator. repeat match goal with |- context [if ?b then _ else _] => destruct b end; try lia; exact Logic.I.
Qed.

(** ** Atoms *)

Lemma reads_atom : forall (C : list token -> Prop) (P : cx -> Prop) ts t N, balanced ts -> final ts -> begins 10 ts -> P t ->
  (forall f rest, N <= f -> is_mark "(" rest = None -> C rest -> atom f (ts ++ rest) = Some (t, rest)) -> reads_if C 10 P ts.
Proof.
  intros C P ts t N B F G H R. split; [exact B|]. split; [exact F|]. split; [exact G|]. exists (S N), t. split; [exact H|].
  intros f rest L (_ & _ & _ & O) Cr. destruct f as [|f]; [lia|]. exists f. split; [lia|]. cbn [expr_at]. rewrite R by (lia || assumption). reflexivity.
Qed.

(** One token that is a name. *)
Definition a_word (x : string) (ts : list token) : Prop := ts = [Word x] \/ ts = [Name x].
Lemma a_word_name : forall x ts r, a_word x ts -> a_name (ts ++ r) = Some (x, r).
Proof. intros x ts r [-> | ->]; reflexivity. Qed.
Lemma a_word_maybe : forall x ts r, a_word x ts -> maybe_name (ts ++ r) = (Some x, r).
Proof. intros x ts r [-> | ->]; reflexivity. Qed.
Lemma a_word_balanced : forall x ts, a_word x ts -> balanced ts.
Proof. intros x ts [-> | ->]; apply balanced_one; reflexivity. Qed.
Lemma a_word_final : forall x ts, a_word x ts -> final ts.
Proof. intros x ts [-> | ->]; reflexivity. Qed.

Lemma keyword_apart : forall x w, one_of keywords x = false -> In w keywords -> one_of [w] x = false.
Proof.
  intros x w H I. unfold one_of in *. cbn [existsb]. rewrite orb_false_r. destruct (String.eqb (capitals x) w) eqn:e; [|reflexivity].
  assert (X : existsb (String.eqb (capitals x)) keywords = true) by (apply existsb_exists; eauto). congruence.
Qed.
Ltac keyword := match goal with |- In _ _ => cbn; repeat first [left; reflexivity|right] end.

Lemma reads_var : forall x ts, variable x -> a_word x ts -> reads 10 (fun t => t = XVar x) ts.
Proof.
  intros x ts [B K] W. apply (reads_atom _ _ ts (XVar x) 1); [now apply (a_word_balanced x)|now apply (a_word_final x)| |reflexivity|].
  - destruct W as [-> | ->]; cbn [begins]; [|exact Logic.I]. split; [|intros _; now apply keyword_apart; [|keyword]].
    unfold one_of. cbn [existsb]. rewrite orb_false_r. apply orb_false_iff.
    split; [pose proof (keyword_apart x "DISTINCT" K ltac:(keyword)) as H|pose proof (keyword_apart x "WHEN" K ltac:(keyword)) as H];
      unfold one_of in H; cbn [existsb] in H; now rewrite orb_false_r in H.
  - intros [|f] rest L _ _; [lia|]. destruct W as [-> | ->]; [|reflexivity]. cbn [app atom].
    rewrite (keyword_apart x "CASE" K) by keyword. unfold word.
    rewrite (keyword_apart x "TRUE" K), (keyword_apart x "FALSE" K), (keyword_apart x "NULL" K), K by keyword.
    destruct rest as [|[| | | |m] r]; try reflexivity. destruct (String.eqb m "("); [reflexivity|].
    rewrite (keyword_apart x "EXISTS" K) by keyword. now rewrite andb_false_r.
Qed.
Lemma reads_param : forall x, reads 10 (fun t => t = XParam x) [Mark "$"; Word x].
Proof.
  intros x. apply (reads_atom _ _ _ (XParam x) 1); try reflexivity.
  - apply balanced_cons; try reflexivity. now apply balanced_one.
  - split; reflexivity.
  - intros [|f] rest L _ _; [lia|]. reflexivity.
Qed.
Lemma reads_star : reads 10 (fun t => t = XStar) [Mark "*"].
Proof.
  apply (reads_atom _ _ _ XStar 1); try reflexivity; [now apply balanced_one|split; reflexivity|].
  intros [|f] rest L _ _; [lia|]. reflexivity.
Qed.
Lemma reads_literal : forall s, reads 10 (fun t => t = XStr s) [Literal s].
Proof.
  intros s. apply (reads_atom _ _ _ (XStr s) 1); try reflexivity; [now apply balanced_one|].
  intros [|f] rest L _ _; [lia|]. reflexivity.
Qed.
Lemma reads_number : forall s, reads 10 (fun t => t = XNum s) [Number s].
Proof.
  intros s. apply (reads_atom _ _ _ (XNum s) 1); try reflexivity; [now apply balanced_one|].
  intros [|f] rest L _ _; [lia|]. reflexivity.
Qed.
(* a constant in front of a parenthesis would be the name of a function *)
Lemma reads_constant : forall w t, In (w, t) [("true", XBool true); ("false", XBool false); ("NULL", XNull)] ->
  reads 10 (fun x => x = t) [Word w].
Proof.
  intros w t H. apply (reads_atom _ _ _ t 1); try reflexivity.
  - now apply balanced_one.
  - cbn [In] in H. repeat (destruct H as [H|H]; [inversion H; split; [reflexivity|intros _; reflexivity]|]). destruct H.
  - intros [|f] rest L N _; [lia|]. cbn [In] in H. repeat (destruct H as [H|H]; [inversion H; subst|]); try destruct H;
      cbn [app atom]; (destruct rest as [|[| | | |m] r]; try reflexivity; cbn [is_mark] in N; destruct (String.eqb m "("); [discriminate|];
      match goal with |- context [one_of ["CASE"] ?w] => change (one_of ["CASE"] w) with false; change (one_of ["EXISTS"] w) with false end;
      rewrite andb_false_r; reflexivity).
Qed.

(** ** Operators *)

Definition op_tokens (b : binop) : list token :=
  match b with
  | OOr => [Word "OR"] | OXor => [Word "XOR"] | OAnd => [Word "AND"]
  | OEq => [Mark "="] | ONe => [Mark "<>"] | OLt => [Mark "<"] | OGt => [Mark ">"] | OLe => [Mark "<="] | OGe => [Mark ">="]
  | OAdd => [Mark "+"] | OSub => [Mark "-"] | OMul => [Mark "*"] | ODiv => [Mark "/"] | OMod => [Mark "%"] | OPow => [Mark "^"]
  | OStarts => [Word "STARTS"; Word "WITH"] | OEnds => [Word "ENDS"; Word "WITH"] | OContains => [Word "CONTAINS"]
  | OLike => [Mark "=~"] | OIn => [Word "IN"]
  end.
Lemma op_infix : forall b r, infix_of (op_tokens b ++ r) = Some (level_of b, b, r).
Proof. intros [] r; reflexivity. Qed.
Lemma op_follows : forall b m r, level_of b < m -> follows m (op_tokens b ++ r).
Proof. intros b m r L. split; [now rewrite op_infix|]. repeat split; try intros _; destruct b; reflexivity. Qed.
Lemma op_no_null : forall b r, null_test (op_tokens b ++ r) = None.
Proof. intros [] r; reflexivity. Qed.
Lemma op_balanced : forall b, balanced (op_tokens b).
Proof. intros [] d; reflexivity. Qed.
Lemma op_separate : forall b, exists x l, op_tokens b = x :: l /\ separate x = true.
Proof. intros []; do 2 eexists; split; reflexivity. Qed.

Lemma reads_binary_if : forall C b (P Q : cx -> Prop) x y, reads (left_of b) P x -> reads_if C (right_of b) Q y ->
  reads_if C (level_of b) (fun t => exists a c, t = XBin b a c /\ P a /\ Q c) (x ++ op_tokens b ++ y).
Proof.
  intros C b P Q x y X Y.
  pose proof (reads_if_parses C (right_of b) Q y ltac:(unfold right_of; destruct b; cbn; lia) Y) as Y'. destruct Y' as (Ny & c & Qc & Ry).
  destruct X as (Bx & Fx & Gx & Nx & a & Pa & Rx). destruct Y as (By & Fy & _ & _).
  split; [repeat apply balanced_app; auto using op_balanced|]. split; [now apply final_app, final_app|].
  split; [apply begins_app; eapply begins_mono; [|exact Gx]; unfold left_of; destruct b; cbn; lia|].
  exists (Nx + Ny + 3), (XBin b a c). split; [eauto|]. intros f rest L Af Cr. rewrite <- !app_assoc.
  assert (OPS : forall n, level_of b = n -> n <> 4 -> n <> 9 -> n < 8 -> left_of b = n -> cont n = (fun f t ts => operators f n t ts) ->
     exists f', f <= f' + (Nx + Ny + 3) /\ expr_at f n (x ++ op_tokens b ++ y ++ rest) = cont n f' (XBin b a c) rest).
  { intros n Ln N4 N9 L8 Lt Cn.
    assert (Af' : follows (S n) rest). { revert Af. unfold after. rewrite Ln. do 8 (destruct n as [|n]; [auto; congruence|]). lia. }
    destruct (Rx f (op_tokens b ++ y ++ rest) ltac:(lia)) as (f1 & L1 & E1); [|exact Logic.I|].
    { rewrite Lt. unfold after. apply op_follows. rewrite Ln. clear -N4; do 5 (destruct n as [|n]; [cbn; lia|]); cbn; lia. }
    rewrite Lt in E1. rewrite E1, Cn. destruct f1 as [|f1]; [lia|]. cbn [operators]. rewrite op_infix, Ln, Nat.eqb_refl.
    unfold right_of in Ry. rewrite Ln in Ry. rewrite (Ry f1 rest ltac:(lia) (conj Af' Cr)). cbn [bind]. exists f1. split; [lia|reflexivity]. }
  destruct (Nat.eq_dec (level_of b) 4) as [E4|N4]; [|destruct (Nat.eq_dec (level_of b) 9) as [E9|N9]].
  - clear OPS. destruct f as [|f]; [lia|]. assert (Lt : left_of b = 5) by (unfold left_of; now rewrite E4). assert (Rt : right_of b = 5) by (unfold right_of; now rewrite E4).
    rewrite Lt in *. rewrite Rt in *. rewrite E4 in *. destruct (Rx f (op_tokens b ++ y ++ rest) ltac:(lia)) as (f1 & L1 & E1); [apply op_follows; lia|exact Logic.I|].
    exists f. split; [lia|]. cbn [expr_at cont]. rewrite E1. rewrite cont_stop; [|lia|lia|apply op_follows; lia]. cbn [bind]. rewrite op_infix, E4. cbn [Nat.eqb].
    rewrite (Ry f rest ltac:(lia)) by (split; [eapply follows_mono; [|exact Af]; lia|exact Cr]). reflexivity.
  - clear OPS. assert (Lt : left_of b = 9) by (unfold left_of; now rewrite E9). assert (Rt : right_of b = 10) by (unfold right_of; now rewrite E9).
    rewrite Lt in *. rewrite Rt in *. rewrite E9 in *. destruct (Rx f (op_tokens b ++ y ++ rest) ltac:(lia)) as (f1 & L1 & E1); [apply op_follows; lia|exact Logic.I|].
    rewrite E1. cbn [cont]. destruct f1 as [|f1]; [lia|]. cbn [tests]. rewrite op_no_null, op_infix, E9. cbn [Nat.eqb]. rewrite (Ry f1 rest ltac:(lia) (conj Af Cr)). cbn [bind].
    exists f1. split; [lia|reflexivity].
  - apply OPS; auto; destruct b; cbn in *; try lia; try reflexivity.
Qed.

Lemma reads_binary : forall b (P Q : cx -> Prop) x y, reads (left_of b) P x -> reads (right_of b) Q y ->
  reads (level_of b) (fun t => exists a c, t = XBin b a c /\ P a /\ Q c) (x ++ op_tokens b ++ y).
Proof. intros b. apply reads_binary_if. Qed.
Lemma reads_not : forall (P : cx -> Prop) x, reads 3 P x -> reads 3 (fun t => exists a, t = XNot a /\ P a) (Word "NOT" :: x).
Proof.
  intros P x (B & F & G & N & a & Pa & R). split; [now apply balanced_cons|]. split; [now apply final_cons|]. split; [split; [reflexivity|lia]|].
  exists (S N), (XNot a). split; [eauto|]. intros f rest L Af _. destruct f as [|f]; [lia|]. exists f. split; [lia|].
  destruct (R f rest ltac:(lia) Af Logic.I) as (f' & _ & e). cbn [app expr_at is_word]. change (one_of ["NOT"] "NOT") with true. cbv iota. rewrite e. reflexivity.
Qed.
Lemma reads_null_test : forall (P : cx -> Prop) x (yes : bool) l, l = (if yes then [Word "IS"; Word "NULL"] else [Word "IS"; Word "NOT"; Word "NULL"]) ->
  reads 9 P x -> reads 9 (fun t => exists a, t = XIsNull yes a /\ P a) (x ++ l).
Proof.
  intros P x yes l El (B & F & G & N & a & Pa & R). split; [apply balanced_app; [exact B|]; subst l; destruct yes; intros d; reflexivity|].
  split; [apply final_app; subst l; destruct yes; reflexivity|]. split; [now apply begins_app|]. exists (S N), (XIsNull yes a). split; [eauto|].
  intros f rest L Af _. rewrite <- app_assoc. destruct (R f (l ++ rest) ltac:(lia)) as (f' & L' & e); [|exact Logic.I|].
  - subst l. unfold after. destruct yes; (split; [exact Logic.I|]; split; [lia|split; [intros _; exact Logic.I|reflexivity]]).
  - rewrite e. destruct f' as [|f']; [lia|]. exists f'. split; [lia|]. subst l. destruct yes; reflexivity.
Qed.
Lemma reads_negative : forall s, reads 8 (fun t => t = XNeg (XNum s)) [Mark "-"; Number s].
Proof.
  intros s. split; [intros d; reflexivity|]. split; [reflexivity|]. split; [split; [reflexivity|lia]|].
  exists 6, (XNeg (XNum s)). split; [reflexivity|]. intros f rest L Af _. exists f. split; [lia|].
  destruct (climb anything 8 10 _ _ ltac:(lia) ltac:(lia) (reads_number s)) as (_ & _ & _ & _).
  do 5 (destruct f as [|f]; [lia|]). cbn [app expr_at cont is_mark]. change (String.eqb "-" "-") with true. cbv iota.
  cbn [atom bind is_mark]. rewrite (postfix_stop (S f)) by (lia || (eapply follows_mono; [|exact Af]; lia)). cbn [bind].
  rewrite (tests_stop (S (S f))) by (lia || exact Af). reflexivity.
Qed.

(** ** Parentheses *)

Lemma reads_in_parens : forall (C : list token -> Prop) (P : cx -> Prop) x, reads 0 P x -> (forall r, C r -> pattern_ahead (x ++ Mark ")" :: r) = false) ->
  reads_if C 10 P (Mark "(" :: x ++ [Mark ")"]).
Proof.
  intros C P x X H. destruct (reads_parses 0 P x ltac:(lia) X) as (N & t & Pt & R). destruct X as (B & F & G & _).
  apply (reads_atom _ _ _ t (S N)); [now apply balanced_in|apply final_cons, final_app; reflexivity|split; reflexivity|exact Pt|].
  intros [|f] rest L _ Cr; [lia|]. cbn [app atom]. change (String.eqb "(" "$") with false. change (String.eqb "(" "*") with false.
  change (String.eqb "(" "[") with false. change (String.eqb "(" "{") with false. change (String.eqb "(" "(") with true. cbv iota.
  rewrite <- app_assoc. cbn [app]. rewrite H by exact Cr. rewrite (R f (Mark ")" :: rest)) by (lia || apply halts_follows; reflexivity).
  reflexivity.
Qed.
Lemma reads_operation : forall b (P Q : cx -> Prop) x y, reads (left_of b) P x -> reads (right_of b) Q y ->
  reads 10 (fun t => exists a c, t = XBin b a c /\ P a /\ Q c) (Mark "(" :: x ++ op_tokens b ++ y ++ [Mark ")"]).
Proof.
  intros b P Q x y X Y. replace (x ++ op_tokens b ++ y ++ [Mark ")"]) with ((x ++ op_tokens b ++ y) ++ [Mark ")"]) by now rewrite <- !app_assoc.
  apply reads_in_parens; [eapply climb; [| |now apply reads_binary]; destruct b; cbn; lia|]. intros r _. unfold pattern_ahead.
  rewrite <- !app_assoc. destruct (op_separate b) as (o & l & -> & S). destruct X as (B & F & _). cbn [app]. now rewrite no_node.
Qed.
Lemma reads_nested : forall (P : cx -> Prop) x, reads 0 P x -> reads 4 P (Mark "(" :: x ++ [Mark ")"]).
Proof.
  intros P x X. apply (reads_always (fun r => arrow r = false)); [intros rest A; now apply (follows_arrow 4)|].
  apply (climb _ 4 10); [lia|lia|]. apply reads_in_parens; [exact X|]. intros r A. apply node_or_not; [apply X|exact A].
Qed.
Lemma reads_compound : forall b (P : cx -> Prop) x ys (Qs : list (cx -> Prop)), level_of b < 4 -> reads (left_of b) P x ->
  Forall2 (fun Q y => reads (right_of b) Q y) Qs ys -> ys <> [] ->
  reads 10 (fun t => exists a cs, t = fold_left (XBin b) cs a /\ P a /\ Forall2 (fun (Q : cx -> Prop) c => Q c) Qs cs)
    (Mark "(" :: x ++ flat_map (fun y => op_tokens b ++ y) ys ++ [Mark ")"]).
Proof.
  intros b P x ys Qs L X Y NE.
  assert (BF : balanced x /\ final x) by (split; apply X).
  assert (G : reads (level_of b) (fun t => exists a cs, t = fold_left (XBin b) cs a /\ P a /\ Forall2 (fun (Q : cx -> Prop) c => Q c) Qs cs)
                (x ++ flat_map (fun y => op_tokens b ++ y) ys)).
  { assert (Lt : left_of b = level_of b) by (destruct b; cbn in *; lia). rewrite Lt in X. clear NE BF. revert P x X.
    induction Y as [|Q y Qs ys Hy Hl IH]; intros P x X; cbn [flat_map].
    - rewrite app_nil_r. eapply reads_weaken; [|exact X]. intros t Pt. exists t, []. auto.
    - rewrite <- Lt in X. pose proof (reads_binary b P Q x y X Hy) as X1. specialize (IH _ _ X1). rewrite <- !app_assoc in *.
      eapply reads_weaken; [|exact IH]. intros t (a & cs & -> & (a0 & c & -> & Pa & Qc) & F). exists a0, (c :: cs). split; [reflexivity|]. split; [exact Pa|].
      now constructor. }
  rewrite app_assoc. apply reads_in_parens; [eapply climb; [| |exact G]; lia|]. intros r _. unfold pattern_ahead.
  destruct ys as [|y ys]; [congruence|]. cbn [flat_map]. rewrite <- !app_assoc. destruct (op_separate b) as (o & l & -> & S). destruct BF as [B F].
  cbn [app]. now rewrite no_node.
Qed.
