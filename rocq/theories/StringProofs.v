(** Statements that differ in the values of string literals only are written
    with the same pieces, but for those literals. *)

From Coq Require Import Ascii String List ZArith Bool Lia.
From Verif Require Import GoStr Escape Num VTree Ast SpecDoc SpecPrint SpecTokens SpecShape SpecGrammar SpecStrings GoStrProofs EscapeProofs EscapeProofs TokenProofs TokenTexts
  PrintProofs ParserErase.
Import ListNotations.
Open Scope string_scope.
Open Scope list_scope.

(** ** Pieces and documents *)

Definition piece_like (s s' : string) : Prop := s = s' \/ exists x x', s = string_literal x /\ s' = string_literal x'.
Definition alike (d d' : doc) : Prop :=
  (forall m, introduce_all d m = introduce_all d' m)
  /\ forall m, Forall2 piece_like (fst (pieces d m)) (fst (pieces d' m)) /\ snd (pieces d m) = snd (pieces d' m).

Lemma pieces_like_refl : forall l, Forall2 piece_like l l.
Proof. induction l; constructor; auto. now left. Qed.
Lemma alike_refl : forall d, alike d d.
Proof. intros d. split; [reflexivity|]. intros m. split; [apply pieces_like_refl|reflexivity]. Qed.
Lemma alike_string : forall x x', alike (Txt (string_literal x)) (Txt (string_literal x')).
Proof. intros x x'. split; [reflexivity|]. intros m. split; [|reflexivity]. constructor; [right; eauto|constructor]. Qed.

Lemma alike_Cat : forall l l', Forall2 alike l l' -> alike (Cat l) (Cat l').
Proof.
  intros l l' H. split.
  - cbn [introduce_all]. induction H as [|d d' l l' [D _] _ IH]; intros m; [reflexivity|]. rewrite D. apply IH.
  - cbn [pieces]. induction H as [|d d' l l' [_ D] _ IH]; intros m; [split; [constructor|reflexivity]|].
    destruct (D m) as [A B]. destruct (pieces d m) as [x m1], (pieces d' m) as [x' m1']. cbn [fst snd] in A, B. subst m1'.
    specialize (IH m1). revert IH.
    match goal with |- context [fst (?f l m1)] => generalize f; intros F end.
    destruct (F l m1) as [y m2], (F l' m1) as [y' m2']. cbn [fst snd]. intros [C ->]. split; [now apply Forall2_app|reflexivity].
Qed.
Lemma alike_Commas : forall l l', Forall2 alike l l' -> alike (Commas l) (Commas l').
Proof.
  intros l l' H. split.
  - cbn [introduce_all]. induction H as [|d d' l l' [D _] _ IH]; intros m; [reflexivity|]. rewrite D. apply IH.
  - intros m. destruct H as [|d d' l l' [_ D] H]; cbn [pieces]; [split; [constructor|reflexivity]|].
    destruct (D m) as [A B]. destruct (pieces d m) as [x m1], (pieces d' m) as [x' m1']. cbn [fst snd] in A, B. subst m1'. clear D.
    match goal with |- context [let (_, _) := ?f l m1 in _] => assert (G : Forall2 piece_like (fst (f l m1)) (fst (f l' m1)) /\ snd (f l m1) = snd (f l' m1)) end.
    { clear A. revert m1. induction H as [|e e' l l' [_ D] _ IH]; intros m1; [split; [constructor|reflexivity]|].
      destruct (D m1) as [A B]. destruct (pieces e m1) as [z m2], (pieces e' m1) as [z' m2']. cbn [fst snd] in A, B. subst m2'.
      specialize (IH m2). revert IH. match goal with |- context [fst (?f l m2)] => generalize f; intros F end.
      destruct (F l m2) as [y m3], (F l' m2) as [y' m3']. cbn [fst snd]. intros [C ->]. split; [|reflexivity]. constructor; [now left|now apply Forall2_app]. }
    revert G. match goal with |- context [fst (?f l m1)] => generalize f; intros F end.
    destruct (F l m1) as [y m2], (F l' m1) as [y' m2']. cbn [fst snd]. intros [C ->]. split; [now apply Forall2_app|reflexivity].
Qed.
Lemma alike_Shared : forall k d d', alike d d' -> alike (Shared k d) (Shared k d').
Proof.
  intros k d d' [I P]. split; [exact I|]. intros m. cbn [pieces]. destruct (alias_of k (introduced m)); [|apply P].
  cbn [fst snd]. split; [apply pieces_like_refl|apply I].
Qed.
Lemma alike_Once : forall k n d d', alike d d' -> alike (Once k n d) (Once k n d').
Proof.
  intros k n d d' [I P]. split; [exact I|]. intros m. cbn [pieces]. destruct (existsb (String.eqb k) (written m)).
  - cbn [fst snd]. split; [apply pieces_like_refl|apply I].
  - specialize (P (mark k m)). destruct (pieces d (mark k m)), (pieces d' (mark k m)). cbn [fst snd] in *. destruct P as [P ->]. split; [|reflexivity].
    constructor; [now left|]. apply Forall2_app; [exact P|apply pieces_like_refl].
Qed.
Lemma alike_Aliased : forall k a d d', alike d d' -> alike (Aliased k a d) (Aliased k a d').
Proof.
  intros k a d d' [I P]. split; [intros m; cbn [introduce_all]; now rewrite I|]. intros m. cbn [pieces]. destruct (alias_of k (introduced m)).
  - cbn [fst snd]. split; [apply pieces_like_refl|now rewrite I].
  - specialize (P m). destruct (pieces d m), (pieces d' m). cbn [fst snd] in *. destruct P as [P ->]. split; [|reflexivity].
    apply Forall2_app; [exact P|apply pieces_like_refl].
Qed.

(** ** Expressions *)

Lemma silent_hollowed : forall e, silent (hollowed e) = silent e.
Proof. fix IH 1. intros []; try reflexivity; cbn [hollowed silent map]; [|apply IH]. destruct cs as [|c [|]]; cbn [map]; [reflexivity|apply IH|reflexivity]. Qed.

Section Printed.
Context (E : env).

Definition ok (e : expr) : Prop := alike (print E e) (print E (hollowed e)).

Lemma ok_maybe : forall o, Forall ok (opt_list o) -> Forall2 alike (maybe (option_map (print E) o)) (maybe (option_map (print E) (option_map hollowed o))).
Proof. intros [e|] H; cbn [option_map maybe]; constructor; [now inversion H|constructor]. Qed.
Lemma ok_map : forall l, Forall ok l -> Forall2 alike (map (print E) l) (map (print E) (map hollowed l)).
Proof. intros l H. induction H; cbn [map]; constructor; auto. Qed.
Lemma ok_listing : forall l, Forall ok l -> alike (listing (print E) l) (listing (print E) (map hollowed l)).
Proof.
  intros l H. unfold listing. apply alike_Commas. induction H as [|e l H _ IH]; cbn [map flat_map]; [constructor|]. rewrite silent_hollowed.
  apply Forall2_app; [|exact IH]. destruct (silent e); [constructor|]. constructor; [exact H|constructor].
Qed.
Lemma refl_all : forall l, Forall2 alike l l.
Proof. induction l; constructor; auto using alike_refl. Qed.
Lemma ok_literals : forall l l', Forall2 alike l l' -> alike (literals l) (literals l').
Proof.
  intros l l' H. destruct H as [|d d' l l' D H]; cbn [literals]; [apply alike_refl|]. apply alike_Cat. constructor; [exact D|].
  induction H as [|x x' l l' X _ IH]; cbn [flat_map]; [constructor|]. cbn [app]. constructor; [apply alike_refl|]. constructor; [exact X|exact IH].
Qed.
Lemma ok_cons : forall e l l', ok e -> Forall2 alike l l' -> Forall2 alike (print E e :: l) (print E (hollowed e) :: l').
Proof. intros. constructor; assumption. Qed.

Ltac pc := repeat match goal with
  | H : Forall ok (_ :: _) |- _ => inversion H; clear H; subst
  | H : Forall ok [] |- _ => clear H
  | H : Forall ok (_ ++ _) |- _ => apply Forall_app in H; destruct H
  end.
Ltac dc := repeat first
  [ apply alike_refl | apply refl_all | assumption
  | match goal with
    | |- alike (Shared _ _) (Shared _ _) => apply alike_Shared
    | |- alike (Cat _) (Cat _) => apply alike_Cat
    | |- alike (Once _ _ _) _ => apply alike_Once
    | |- alike (Aliased _ _ _) _ => apply alike_Aliased
    | |- alike (listing _ _) _ => apply ok_listing
    | |- alike (print E _) _ => assumption
    | |- Forall2 alike (maybe _) _ => apply ok_maybe
    | |- Forall2 alike (map (print E) _) _ => apply ok_map
    | |- Forall2 alike (_ :: _) (_ :: _) => constructor
    | |- Forall2 alike [] [] => constructor
    | |- Forall2 alike (_ ++ _) (_ ++ _) => apply Forall2_app
    | |- alike (Txt (string_literal _)) _ => apply alike_string
    end ].

Theorem print_alike : forall e, ok e.
Proof.
  apply expr_ind'. intros e H. destruct e; cbn [children opt_list] in H; pc; unfold ok; cbn [print hollowed]; try solve [dc].
  - (* list literal *) dc. apply ok_literals. dc.
  - (* operation *) destruct (in_parens o); dc.
  - (* compound *) destruct cs as [|c [|c' cs]]; cbn [map]; pc; [dc|assumption|]. dc. cbn [flat_map].
    assert (D : forall x, alike (print_op E match x with ECompound _ o' _ => o' | _ => o end) (print_op E match hollowed x with ECompound _ o' _ => o' | _ => o end))
      by (intros []; apply alike_refl).
    dc; [apply D|]. clear -H4 D. induction H4; cbn [map flat_map]; [constructor|]. cbn [app]. constructor; [apply D|]. constructor; assumption.
  - (* list comprehension *) dc. destruct def; cbn [option_map opt_list] in *; pc; dc.
  - (* node *) destruct name as [[kn x]|]; dc.
  - (* details *) dc. set (A := maybe _ ++ _). set (B := maybe (option_map (print E) (option_map hollowed name)) ++ _).
    assert (L : Forall2 alike A B) by (unfold A, B; dc). clearbody A B. 
    assert (M : alike (match A with [] => Txt "" | _ => Cat [Txt "["; Cat A; Txt "]"] end) (match B with [] => Txt "" | _ => Cat [Txt "["; Cat B; Txt "]"] end)).
    { inversion L; subst; dc. }
    destruct d; dc.
  - (* chain *) dc. induction rels as [|[a b] l IH]; cbn [flat_map map fst snd app] in *; pc; [constructor|]. repeat (constructor; [assumption|]). auto.
  - (* case *) dc.
    + induction branches as [|[[k0 a] b] l IH]; cbn [flat_map map fst snd app] in *; pc; [constructor|]. constructor; [dc|]. constructor; [assumption|]. auto.
    + destruct default as [[k0 a]|]; cbn [option_map fst snd] in *; pc; dc.
Qed.

(** ** Statements *)

Lemma print_like : forall e, alike (print E e) (print E (hollowed e)).
Proof. exact print_alike. Qed.
Lemma all_ok : forall l, Forall ok l.
Proof. induction l; constructor; auto using print_alike. Qed.
Lemma body_alike : forall d b, alike (print_body E d b) (print_body E d (hollowed_body b)).
Proof. intros d b. unfold print_body, hollowed_body. cbn [b_items b_order b_skip b_limit]. destruct d; dc; auto using all_ok, print_like. Qed.

Theorem query_alike : forall q, alike (print_query E q) (print_query E (hollowed_query q)).
Proof.
  apply query_ind'; intros; cbn [print_query hollowed_query]; try solve [dc; auto using all_ok, print_like, body_alike].
  - dc; [apply print_alike| |destruct evs; apply refl_all].
    clear -H. induction H; cbn [map]; constructor; auto.
  - apply alike_Cat. apply Forall2_app; [|destruct r as [r|]; cbn [option_map maybe]; [|constructor]; constructor; [now apply H0|constructor]].
    induction H; cbn [map]; constructor; auto.
  - apply alike_Cat. apply Forall2_app; [|constructor; [exact H0|constructor]]. clear H0. induction H as [|[[k cs] w] ps [A B] _ IH]; cbn [map fst snd] in *; constructor; [|exact IH].
    apply alike_Shared, alike_Cat, Forall2_app; [|constructor; [exact B|constructor]]. clear -A. induction A; cbn [map]; constructor; auto.
  - apply alike_Shared, alike_Cat. constructor; [assumption|]. clear H. induction H0 as [|[[k0 a] x] qs A _ IH]; cbn [map fst snd] in *; constructor; [|exact IH].
    dc.
Qed.

(** ** Tokens *)

Lemma literal_token : forall s, tokens E (string_literal s) = Some [Literal s].
Proof.
  intros s. rewrite <- (sapp_nil_r (string_literal s)). apply Lexes_tokens. apply (literal_hard E s "" []). now apply tokens_Lexes.
Qed.
Lemma tokens_each_like : forall l l', Forall2 piece_like l l' -> option_map er (tokens_each E l) = option_map er (tokens_each E l').
Proof.
  intros l l' H. induction H as [|s s' l l' A _ IH]; [reflexivity|]. cbn [tokens_each].
  assert (T : option_map er (tokens E s) = option_map er (tokens E s')) by (destruct A as [->|(x & x' & -> & ->)]; [reflexivity|now rewrite !literal_token]).
  destruct (tokens E s), (tokens E s'); cbn [option_map] in T; try discriminate; [|reflexivity].
  destruct (tokens_each E l), (tokens_each E l'); cbn [option_map] in IH; try discriminate; [|reflexivity].
  cbn [option_map]. rewrite !map_app. congruence.
Qed.

Theorem query_tokens_like : forall q q', hollowed_query q = hollowed_query q' ->
  option_map er (tokens_each E (fst (pieces (print_query E q) nothing_written)))
  = option_map er (tokens_each E (fst (pieces (print_query E q') nothing_written))).
Proof.
  intros q q' B. rewrite (tokens_each_like _ _ (proj1 (proj2 (query_alike q) nothing_written))), (tokens_each_like _ _ (proj1 (proj2 (query_alike q') nothing_written))).
  now rewrite B.
Qed.

(** ** Shapes *)

Context (K : key -> Prop).

Lemma attached_hollowed : forall e, attached K (hollowed e) <-> attached K e.
Proof. intros []; reflexivity. Qed.
Lemma all_attached_hollowed : forall o, all_attached K (option_map hollowed o) <-> all_attached K o.
Proof.
  intros [e|]; [|reflexivity]. unfold all_attached. cbn [option_map opt_list]. rewrite !Forall_cons_iff, attached_hollowed. reflexivity.
Qed.
Lemma children_hollowed : forall e, children (hollowed e) = map hollowed (children e).
Proof.
  assert (O : forall o, opt_list (option_map hollowed o) = map hollowed (opt_list o)) by (intros []; reflexivity).
  intros e. destruct e; try reflexivity; cbn [hollowed children map]; rewrite ?map_app, ?O; try reflexivity.
  - f_equal. induction rels as [|y l IH]; cbn [map flat_map app fst snd]; [reflexivity|now rewrite IH].
  - f_equal. f_equal; [|destruct default; reflexivity]. induction branches as [|y l IH]; cbn [map flat_map app fst snd]; [reflexivity|now rewrite IH].
Qed.

Lemma Forall_map_each : forall A (P : A -> Prop) f l, Forall (fun x => P (f x) <-> P x) l -> (Forall P (map f l) <-> Forall P l).
Proof.
  intros A P f l H. induction H as [|x l X _ IH]; cbn [map]; [split; constructor|]. rewrite !Forall_cons_iff, X, IH. reflexivity.
Qed.
Lemma Forall_map_iff : forall A (P : A -> Prop) f l, (forall x, P (f x) <-> P x) -> Forall P (map f l) <-> Forall P l.
Proof. intros A P f l H. apply Forall_map_each. apply Forall_forall. intros x _. apply H. Qed.
Lemma own_hollowed : forall e, own_shape E K (hollowed e) <-> own_shape E K e.
Proof.
  assert (N : forall A (f : A -> A) o, option_map f o = None <-> o = None) by (intros A f []; split; intros; try discriminate; reflexivity).
  intros []; try reflexivity; cbn [hollowed own_shape]; rewrite ?attached_hollowed, ?all_attached_hollowed, ?N; try reflexivity.
  - rewrite Forall_map_iff; [reflexivity|]. intros [a b]. cbn [fst snd]. rewrite !attached_hollowed. reflexivity.
  - rewrite Forall_map_iff; [|intros [[a b] c]; reflexivity].
    split; intros (A & B & C); (split; [exact A|split; [exact B|]]).
    + intros k0 x ->. exact (C _ _ eq_refl).
    + intros k0 x Q. destruct default as [[k1 y]|]; [|discriminate Q]. cbn [option_map fst snd] in Q. inversion Q; subst. exact (C _ _ eq_refl).
Qed.
Lemma shaped_hollowed : forall e, shaped E K (hollowed e) <-> shaped E K e.
Proof.
  apply expr_ind'. intros e IH. split; intros H; inversion H as [e' O C]; subst e'; constructor.
  - now apply own_hollowed.
  - rewrite children_hollowed in C. now apply (Forall_map_each _ _ hollowed).
  - now apply own_hollowed.
  - rewrite children_hollowed. now apply Forall_map_each.
Qed.
Lemma behind_hollowed : forall o, shaped_behind E K (option_map hollowed o) <-> shaped_behind E K o.
Proof.
  intros [e|]; [|reflexivity]. unfold shaped_behind. cbn [option_map opt_list]. rewrite !Forall_cons_iff, attached_hollowed, shaped_hollowed. reflexivity.
Qed.
Lemma body_hollowed : forall b, shaped_body E K (hollowed_body b) <-> shaped_body E K b.
Proof.
  intros b. unfold shaped_body, hollowed_body. cbn [b_items b_order b_skip b_limit]. rewrite !Forall_app, shaped_hollowed.
  pose proof (behind_hollowed (b_order b)). pose proof (behind_hollowed (b_skip b)). pose proof (behind_hollowed (b_limit b)). unfold shaped_behind in *. tauto.
Qed.
Lemma clause_hollowed : forall q, clause K (hollowed_query q) <-> clause K q.
Proof. fix IH 1. intros []; try reflexivity. cbn [hollowed_query clause]. now rewrite IH. Qed.
Theorem query_hollowed : forall q, shaped_q E K (hollowed_query q) <-> shaped_q E K q.
Proof.
  assert (CL : forall l, Forall (clause K) (map hollowed_query l) <-> Forall (clause K) l) by (intros l; apply Forall_map_iff, clause_hollowed).
  assert (SH : forall l, Forall (fun q => shaped_q E K (hollowed_query q) <-> shaped_q E K q) l ->
    (Forall (shaped_q E K) (map hollowed_query l) <-> Forall (shaped_q E K) l)).
  { intros l. apply Forall_map_each. }
  apply query_ind'; intros; cbn [hollowed_query].
  Ltac inv := intros Q; inversion Q; subst; clear Q.
  Ltac re := rewrite ?shaped_hollowed, ?behind_hollowed, ?body_hollowed in *.
  1,2: solve [split; inv; constructor; now re].
  2: reflexivity.
  2-9: solve [split; inv; constructor; re; tauto].
  - split; intros Q; inversion Q as [ | |k' p' S Q0|k' p' kb ev S NB FC FS Q0| | | | | | | | | | | | | ]; subst.
    + destruct evs; [|discriminate]. constructor. now re.
    + destruct evs as [|[] evs]; try discriminate. cbn [map hollowed_query] in *.
      match goal with Q : _ :: _ = _ :: _ |- _ => inversion Q; clear Q; subst | _ => idtac end. inversion H; subst. constructor; [now re|assumption|now apply CL|now apply SH].
    + constructor. now re.
    + inversion H; subst. cbn [map hollowed_query]. constructor; [now re|assumption|now apply CL|now apply SH].
  - split; inv; constructor; tauto.
  - pose proof (SH _ H) as SC. split; inv; constructor; try tauto; try (now apply CL).
    + destruct r as [r|]; [|constructor]. cbn [option_map opt_list] in *. constructor; [|constructor]. apply (H0 r eq_refl).
      match goal with F : Forall (shaped_q E K) [_] |- _ => now inversion F end.
    + destruct r as [r|]; [|constructor]. cbn [option_map opt_list] in *. constructor; [|constructor]. apply (H0 r eq_refl).
      match goal with F : Forall (shaped_q E K) [_] |- _ => now inversion F end.
  - rewrite Forall_forall in H. split; inv; constructor; try tauto;
      match goal with X : forall k cs w, In _ _ -> ~ K _ /\ _ |- _ => rename X into H2 end.
    + intros k cs w L. destruct (H _ L) as [A B]. cbn [fst snd] in A, B.
      destruct (H2 k (map hollowed_query cs) (hollowed_query w)) as (U1 & U2 & U3 & U4 & U5).
      { apply in_map_iff. exists (k, cs, w). auto. }
      repeat split; [assumption|now apply CL|now apply SH|now apply clause_hollowed|now apply B].
    + intros k cs w L. apply in_map_iff in L. destruct L as ([[k0 cs0] w0] & Q & L). cbn [fst snd] in Q. inversion Q; subst. destruct (H _ L) as [A B]. cbn [fst snd] in A, B.
      destruct (H2 _ _ _ L) as (U1 & U2 & U3 & U4 & U5).
      repeat split; [assumption|now apply CL|now apply SH|now apply clause_hollowed|now apply B].
  - rewrite Forall_forall in H0. split; inv; constructor; try tauto;
      match goal with X : forall k cs w, In _ _ -> ~ K _ /\ _ |- _ => rename X into H5 end.
    + intros ku a x L. pose proof (H0 _ L) as B. cbn [fst snd] in B. destruct (H5 ku a (hollowed_query x)) as [U1 U2]; [apply in_map_iff; exists (ku, a, x); auto|]. tauto.
    + intros ku a x L. apply in_map_iff in L. destruct L as ([[k0 a0] x0] & Q & L). cbn [fst snd] in Q. inversion Q; subst. pose proof (H0 _ L) as B. cbn [fst snd] in B.
      destruct (H5 _ _ _ L) as [U1 U2]. tauto.
Qed.
End Printed.
