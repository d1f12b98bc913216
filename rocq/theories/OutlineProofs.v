(** The outline of printed statements. *)

From Coq Require Import Ascii String List ZArith Bool Lia.
From Verif Require Import GoStr Escape Num VTree SpecLex SpecNum SpecSpace SpecTokens EscapeProofs GoStrProofs TokenProofs TokenTexts
  Ast SpecDoc SpecPrint SpecShape PrintProofs TokenDocs SpecOutline SpecClauses.
Import ListNotations.
Open Scope string_scope.

(** ** Token lists *)

(** From [a] to [b] open brackets, at any depth, without a word or a comma
    outside of brackets. *)
Definition shift (a b : nat) (ts : list token) : Prop := forall d r, outline (a + d) (ts ++ r) = outline (b + d) r.

Lemma shift_nil : forall a, shift a a [].
Proof. intros a d r. reflexivity. Qed.
Lemma shift_app : forall a b c x y, shift a b x -> shift b c y -> shift a c (x ++ y).
Proof. intros a b c x y X Y d r. now rewrite <- app_assoc, X, Y. Qed.
Lemma shift_cons : forall a b c t y, shift a b [t] -> shift b c y -> shift a c (t :: y).
Proof. intros a b c t y. exact (shift_app a b c [t] y). Qed.
Lemma shift_up : forall a b x, shift a b x -> shift (Datatypes.S a) (Datatypes.S b) x.
Proof. intros a b x X d r. specialize (X (Datatypes.S d) r). now rewrite <- !plus_n_Sm in X. Qed.
Lemma shift_more : forall n a x, shift a a x -> shift (n + a)%nat (n + a)%nat x.
Proof. induction n as [|n IH]; intros a x X; [exact X|]. cbn [Nat.add]. now apply shift_up, IH. Qed.
Lemma shift_adds : forall x, adds_nothing x -> forall a, shift a a x.
Proof. intros x X a d r. apply X. Qed.
Lemma shift_calm : forall x, shift 0 0 x -> adds_nothing x.
Proof. intros x H d r. exact (H d r). Qed.
Lemma inside_shift : forall x, adds_nothing_inside x -> shift 1 1 x.
Proof. intros x H d r. exact (H d r). Qed.
Lemma shift_inside : forall x, shift 1 1 x -> adds_nothing_inside x.
Proof. intros x H d r. exact (H d r). Qed.

Lemma shift_name : forall a n, shift a a [Name n].
Proof. intros a n d r. destruct (a + d)%nat; reflexivity. Qed.
Lemma shift_literal : forall a n, shift a a [Literal n].
Proof. intros a n d r. destruct (a + d)%nat; reflexivity. Qed.
Lemma shift_number : forall a n, shift a a [Number n].
Proof. intros a n d r. destruct (a + d)%nat; reflexivity. Qed.

Lemma shift_word_inside : forall a w, shift (Datatypes.S a) (Datatypes.S a) [Word w].
Proof. intros a w d r. reflexivity. Qed.

Lemma reserved_parts : forall w, reserved w = false ->
  one_of clause_words w = false /\ one_of ["STARTS"; "ENDS"] w = false /\ one_of ["UNION"] w = false.
Proof.
  intros w H. unfold reserved, one_of, clause_words in *. cbn [existsb] in *. 
  repeat (apply orb_false_iff in H; destruct H as [?E H]). rewrite ?E, ?E0, ?E1, ?E2, ?E3, ?E4, ?E5, ?E6, ?E7, ?E8, ?E9, ?E10, ?E11, ?E12, ?E13, ?E14, ?E15, ?E16, ?E17, ?E18, ?E19, ?E20.
  repeat split; reflexivity.
Qed.
Lemma shift_word : forall a w, reserved w = false -> shift a a [Word w].
Proof.
  intros a w H d r. destruct (reserved_parts w H) as (C & SE & U).
  destruct (a + d)%nat; [|reflexivity]. cbn [app outline]. rewrite C. destruct r as [|[v|?|?|?|?] r]; try reflexivity.
  rewrite SE, U. reflexivity.
Qed.

Definition plain_mark (m : string) : bool := negb (opens m || closes m || String.eqb m "," || String.eqb m ".").
Lemma shift_mark_inside : forall a m, opens m = false -> closes m = false -> shift (Datatypes.S a) (Datatypes.S a) [Mark m].
Proof. intros a m O C d r. cbn [app outline Nat.add]. now rewrite O, C. Qed.
Lemma shift_mark : forall a m, plain_mark m = true -> shift a a [Mark m].
Proof.
  intros a m H d r. unfold plain_mark in H. destruct (opens m) eqn:O; [discriminate|]. destruct (closes m) eqn:C; [discriminate|].
  destruct (String.eqb m ",") eqn:N; [discriminate|]. destruct (String.eqb m ".") eqn:D; [discriminate|].
  destruct (a + d)%nat; cbn [app outline]; [|now rewrite O, C]. rewrite O, N. destruct r as [|[] r]; try rewrite D; reflexivity.
Qed.
Lemma shift_open : forall a m, opens m = true -> shift a (Datatypes.S a) [Mark m].
Proof. intros a m H d r. cbn [Nat.add]. destruct (a + d)%nat; cbn [app outline]; now rewrite H. Qed.
Lemma shift_close : forall a m, opens m = false -> closes m = true -> shift (Datatypes.S a) a [Mark m].
Proof. intros a m O C d r. cbn [Nat.add app outline]. now rewrite O, C. Qed.

Lemma shift_property : forall a t, (exists w, t = Word w \/ t = Name w) -> shift a a [Mark "."; t].
Proof. intros a t [w [-> | ->]] d r; destruct (a + d)%nat; reflexivity. Qed.
Lemma shift_property_star : forall a, shift a a [Mark "."; Mark "*"].
Proof. intros a d r. destruct (a + d)%nat; [|reflexivity]. cbn. now destruct r as [|[] r]. Qed.
Lemma shift_dot_inside : forall a, shift (Datatypes.S a) (Datatypes.S a) [Mark "."].
Proof. intros a. now apply shift_mark_inside. Qed.
Lemma shift_ends_with : forall a w, one_of ["STARTS"; "ENDS"] w = true -> shift a a [Word w; Word "WITH"].
Proof. intros a w H d r. destruct (a + d)%nat; [|reflexivity]. cbn [app outline]. now rewrite H. Qed.

(** What a text adds to an outline. *)
Definition emits (l : list string) (ts : list token) : Prop :=
  (forall r, outline 0 (ts ++ r) = (l ++ outline 0 r)%list) /\ shift 1 1 ts.

Lemma emits_nil : emits [] [].
Proof. split; [reflexivity|apply shift_nil]. Qed.
Lemma emits_app : forall l1 l2 x y, emits l1 x -> emits l2 y -> emits (l1 ++ l2) (x ++ y).
Proof.
  intros l1 l2 x y [X SX] [Y SY]. split; [|now apply (shift_app 1 1 1)]. intros r. now rewrite <- app_assoc, X, Y, app_assoc.
Qed.
Lemma shift_emits : forall x, shift 0 0 x -> emits [] x.
Proof. intros x X. split; [intros r; exact (X 0%nat r)|now apply shift_up]. Qed.
Lemma emits_comma : emits [","] [Mark ","].
Proof. split; [reflexivity|now apply shift_mark_inside]. Qed.
Lemma emits_word : forall w, one_of clause_words w = true -> one_of ["STARTS"; "ENDS"] w = false -> one_of ["UNION"] w = false ->
  emits [capitals w] [Word w].
Proof.
  intros w C SE U. split; [|apply shift_word_inside]. intros r. cbn [app outline]. rewrite C, SE, U. now destruct r as [|[] r].
Qed.

(** Statements: no text begins with ALL, which would follow a UNION. *)
Definition no_all (r : list token) : Prop := match r with Word v :: _ => one_of ["ALL"] v = false | _ => True end.
Definition begun (ts : list token) : Prop := forall r, no_all r -> no_all (ts ++ r).
Definition tells (l : list string) (ts : list token) : Prop :=
  begun ts /\ (forall r, no_all r -> outline 0 (ts ++ r) = (l ++ outline 0 r)%list) /\ shift 1 1 ts.

Lemma tells_nil : tells [] [].
Proof. split; [intros r H; exact H|]. split; [reflexivity|apply shift_nil]. Qed.
Lemma tells_app : forall l1 l2 x y, tells l1 x -> tells l2 y -> tells (l1 ++ l2) (x ++ y).
Proof.
  intros l1 l2 x y (BX & X & SX) (BY & Y & SY). split; [intros r N; rewrite <- app_assoc; auto|].
  split; [|now apply (shift_app 1 1 1)]. intros r N. rewrite <- app_assoc, X, Y, app_assoc by auto. reflexivity.
Qed.
Lemma emits_tells : forall l1 l2 x y, begun x -> x <> [] -> emits l1 x -> emits l2 y -> tells (l1 ++ l2) (x ++ y).
Proof.
  intros l1 l2 x y B N X Y. destruct (emits_app _ _ _ _ X Y) as [O S]. split; [|split; [auto|exact S]].
  intros r _. destruct x as [|t x]; [contradiction|]. specialize (B [] Logic.I). exact B.
Qed.
Lemma tells_union : tells ["UNION"] [Word "UNION"].
Proof.
  split; [intros r _; reflexivity|]. split; [|apply shift_word_inside]. intros r N. destruct r as [|[v|?|?|?|?] r]; try reflexivity.
  cbn [no_all] in N. cbn [app outline]. rewrite N, andb_false_r. reflexivity.
Qed.
Lemma tells_union_all : tells ["UNION ALL"] [Word "UNION"; Word "ALL"].
Proof. split; [intros r _; reflexivity|]. split; [|repeat (eapply shift_cons; [apply shift_word_inside|]); apply shift_nil]. reflexivity. Qed.

(** ** Documents *)

Section Docs.
Context (E : env) (NS : no_space_in_names E) (K : key -> Prop).

Definition good (m : memory) : Prop := Forall (fun p => K (fst p) /\ calm_text E (snd p)) (introduced m).

Definition yields (P : list token -> Prop) (f : memory -> list string * memory) (g : memory -> memory) : Prop :=
  (forall m, good m -> good (g m))
  /\ forall m, good m -> good (snd (f m)) /\ exists ts, tokens_each E (fst (f m)) = Some ts /\ P ts.
Definition says (P : list token -> Prop) (d : doc) : Prop := yields P (pieces d) (introduce_all d).

Lemma yields_then : forall (P Q R : list token -> Prop) f1 g1 f2 g2, (forall x y, P x -> Q y -> R (x ++ y)%list) ->
  yields P f1 g1 -> yields Q f2 g2 ->
  yields R (fun m => let (x, m1) := f1 m in let (y, m2) := f2 m1 in ((x ++ y)%list, m2)) (fun m => g2 (g1 m)).
Proof.
  intros P Q R f1 g1 f2 g2 J [G1 R1] [G2 R2]. split; [intros m H; apply G2, G1, H|].
  intros m H. destruct (R1 m H) as (O1 & t1 & T1 & P1). destruct (f1 m) as [x m1]. cbn [fst snd] in *.
  destruct (R2 m1 O1) as (O2 & t2 & T2 & P2). destruct (f2 m1) as [y m2]. cbn [fst snd] in *.
  split; [exact O2|]. exists (t1 ++ t2)%list. split; [now apply tokens_each_app|auto].
Qed.
Lemma yields_ext : forall P f g f' g', (forall m, f m = f' m) -> (forall m, g m = g' m) -> yields P f g -> yields P f' g'.
Proof. intros P f g f' g' Ef Eg [G R]. split; intros m H; [rewrite <- Eg; auto|]. rewrite <- Ef. auto. Qed.
Lemma says_weaken : forall (P Q : list token -> Prop) d, (forall x, P x -> Q x) -> says P d -> says Q d.
Proof. intros P Q d J [G R]. split; [exact G|]. intros m H. destruct (R m H) as (O & t & T & X). eauto. Qed.

Lemma says_txt : forall (P : list token -> Prop) s ts, tokens E s = Some ts -> P ts -> says P (Txt s).
Proof.
  intros P s ts T H. split; [intros m G; exact G|]. intros m G. split; [exact G|]. exists ts. cbn [pieces fst tokens_each].
  rewrite T, app_nil_r. auto.
Qed.
Lemma says_nil : forall P : list token -> Prop, P [] -> says P (Cat []).
Proof. intros P H. split; [intros m G; exact G|]. intros m G. split; [exact G|]. now exists []. Qed.
Lemma says_cons : forall (P Q R : list token -> Prop) d l, says P d -> says Q (Cat l) -> (forall x y, P x -> Q y -> R (x ++ y)%list) ->
  says R (Cat (d :: l)).
Proof.
  intros P Q R d l Hd Hl J. eapply yields_ext; [| |exact (yields_then P Q R _ _ _ _ J Hd Hl)]; intros m; reflexivity.
Qed.
Lemma says_app : forall (P Q R : list token -> Prop) a b, says P (Cat a) -> says Q (Cat b) -> (forall x y, P x -> Q y -> R (x ++ y)%list) ->
  says R (Cat (a ++ b)).
Proof.
  intros P Q R a b Ha Hb J. eapply yields_ext; [| |exact (yields_then P Q R _ _ _ _ J Ha Hb)]; intros m; cbv beta; clear Ha.
  - revert m. induction a as [|d a IH]; intros m.
    + cbn [app]. change (pieces (Cat []) m) with (@nil string, m). cbv iota. destruct (pieces (Cat b) m). reflexivity.
    + cbn [app].
      change (pieces (Cat (d :: a)) m) with (let (x, m1) := pieces d m in let (y, m2) := pieces (Cat a) m1 in ((x ++ y)%list, m2)).
      change (pieces (Cat (d :: (a ++ b)%list)) m) with (let (x, m1) := pieces d m in let (y, m2) := pieces (Cat (a ++ b)) m1 in ((x ++ y)%list, m2)).
      destruct (pieces d m) as [x m1]. specialize (IH m1). destruct (pieces (Cat a) m1) as [y m2].
      destruct (pieces (Cat b) m2) as [z m3]. rewrite <- IH. now rewrite app_assoc.
  - revert m. induction a as [|d a IH]; intros m; [reflexivity|]. cbn [app].
    change (introduce_all (Cat (d :: (a ++ b)%list)) m) with (introduce_all (Cat (a ++ b)) (introduce_all d m)).
    now rewrite <- IH.
Qed.
Lemma good_alias : forall m k a, good m -> alias_of k (introduced m) = Some a -> K k /\ calm_text E a.
Proof. intros m k a O H. apply alias_in in H. unfold good in O. rewrite Forall_forall in O. exact (O _ H). Qed.

Lemma says_shared : forall a k d, says (shift a a) d -> says (shift a a) (Shared k d).
Proof.
  intros a k d [G R]. split; [exact G|]. intros m H. cbn [pieces].
  destruct (alias_of k (introduced m)) as [x|] eqn:A; [|now apply R].
  destruct (good_alias m k x H A) as [_ (ts & T & Q)]. cbn [fst snd]. split; [now apply G|]. exists ts. cbn [tokens_each].
  rewrite T, app_nil_r. split; [reflexivity|now apply shift_adds].
Qed.
Lemma says_shared_not : forall P k d, ~ K k -> says P d -> says P (Shared k d).
Proof.
  intros P k d N [G R]. split; [exact G|]. intros m H. cbn [pieces].
  destruct (alias_of k (introduced m)) as [x|] eqn:A; [|now apply R]. destruct (good_alias m k x H A). contradiction.
Qed.

Lemma tokens_of : forall s ts, soft E s ts -> tokens E s = Some ts.
Proof. exact (soft_tokens E). Qed.

Lemma says_once : forall a k n d, calm_inside E n -> says (shift (Datatypes.S a) (Datatypes.S a)) d -> says (shift a a) (Once k n d).
Proof.
  intros a k n d (tn & Tn & Qn) [G R]. split; [exact G|]. intros m H. cbn [pieces].
  assert (To : tokens E "(" = Some [Mark "("]) by reflexivity. assert (Tc : tokens E ")" = Some [Mark ")"]) by reflexivity.
  assert (J : forall ts, shift (Datatypes.S a) (Datatypes.S a) ts -> shift a a ([Mark "("] ++ ts ++ [Mark ")"])).
  { intros ts Q. eapply shift_app; [now apply shift_open|]. eapply shift_app; [exact Q|now apply shift_close]. }
  destruct (existsb (String.eqb k) (written m)).
  - cbn [fst snd]. split; [now apply G|]. exists ([Mark "("] ++ tn ++ [Mark ")"])%list. cbn [tokens_each]. rewrite To, Tn, Tc.
    split; [reflexivity|]. apply J. apply inside_shift in Qn. clear - Qn. induction a; [exact Qn|now apply shift_up].
  - destruct (R (mark k m) H) as (O & t & T & Q). destruct (pieces d (mark k m)) as [x m1]. cbn [fst snd] in *.
    split; [exact O|]. exists ([Mark "("] ++ t ++ [Mark ")"])%list. split; [|now apply J].
    cbn [tokens_each]. rewrite To. assert (C : tokens_each E [")"] = Some [Mark ")"]) by (cbn [tokens_each]; rewrite Tc; reflexivity).
    rewrite (tokens_each_app E x [")"] t [Mark ")"] T C). reflexivity.
Qed.

Lemma calm_shift : forall s, calm_text E s -> exists ts, tokens E s = Some ts /\ forall a, shift a a ts.
Proof. intros s (ts & T & Q). exists ts. split; [exact T|]. now apply shift_adds. Qed.

Lemma says_aliased : forall a k x d, K k -> calm_text E x -> says (shift a a) d -> says (shift a a) (Aliased k x d).
Proof.
  intros a k x d Kk Cx [G R].
  assert (IO : forall m, good m -> good (introduce k x m)) by (intros m O; constructor; [split; assumption|exact O]).
  destruct (calm_shift x Cx) as (tx & Tx & Qx).
  split; [intros m H; apply IO, G, H|]. intros m H. cbn [pieces]. destruct (alias_of k (introduced m)).
  - cbn [fst snd]. split; [apply IO, G, H|]. exists tx. cbn [tokens_each]. rewrite Tx, app_nil_r. auto.
  - destruct (R m H) as (O & t & T & Q). destruct (pieces d m) as [y m1]. cbn [fst snd] in *. split; [now apply IO|].
    exists (t ++ [Word "AS"] ++ tx)%list. split.
    + apply tokens_each_app; [exact T|]. cbn [tokens_each]. assert (A : tokens E " AS " = Some [Word "AS"]) by (vm_compute; reflexivity).
      rewrite A, Tx. now rewrite app_nil_r.
    + eapply shift_app; [exact Q|]. eapply shift_app; [now apply shift_word|apply Qx].
Qed.

(** Lists: one rule for the first item and one for each of the others. *)
Lemma says_commas : forall (P : list token -> Prop) (R : nat -> list token -> Prop) l,
  R 0%nat [] -> (forall n x y, P x -> R n y -> R (Datatypes.S n) (Mark "," :: x ++ y)%list) ->
  Forall (says P) l ->
  match l with
  | [] => says (R 0%nat) (Commas l)
  | _ :: l' => forall Q : list token -> Prop, (forall x y, P x -> R (length l') y -> Q (x ++ y)%list) -> says Q (Commas l)
  end.
Proof.
  intros P R l R0 RS H. destruct l as [|d l].
  - split; [intros m O; exact O|]. intros m O. split; [exact O|]. now exists [].
  - intros Q J. inversion H as [|? ? Hd Hl]; subst. clear H.
    set (go := fix go (l : list doc) (m : memory) {struct l} := match l with [] => ([], m) | d :: l' => let (x, m1) := pieces d m in let (y, m2) := go l' m1 in (", " :: x ++ y, m2)%list end).
    set (gi := fix gi (l : list doc) (m : memory) {struct l} := match l with [] => m | d :: l' => gi l' (introduce_all d m) end).
    assert (T : yields (R (length l)) (go l) (gi l)).
    { clear J. induction Hl as [|e l [G Re] Hl IH].
      - split; [intros m O; exact O|]. intros m O. split; [exact O|]. exists []. split; [reflexivity|exact R0].
      - destruct IH as [G2 R2]. split; [intros m O; apply G2, G, O|]. intros m O.
        destruct (Re m O) as (O1 & t & T & X). cbn [go]. fold go. destruct (pieces e m) as [x m1]. cbn [fst snd] in *.
        destruct (R2 m1 O1) as (O2 & t2 & T2 & X2). destruct (go l m1) as [y m2]. cbn [fst snd] in *.
        split; [exact O2|]. exists ([Mark ","] ++ t ++ t2)%list. split; [|cbn [length app]; now apply RS].
        change (", " :: (x ++ y)%list) with ([", "] ++ (x ++ y))%list. apply tokens_each_app; [|now apply tokens_each_app].
        cbn [tokens_each]. assert (A : tokens E ", " = Some [Mark ","]) by (vm_compute; reflexivity). now rewrite A. }
    eapply yields_ext; [| |exact (yields_then P (R (length l)) Q _ _ _ _ J Hd T)]; intros m; reflexivity.
Qed.

Lemma says_commas_inside : forall a l, Forall (says (shift (Datatypes.S a) (Datatypes.S a))) l ->
  says (shift (Datatypes.S a) (Datatypes.S a)) (Commas l).
Proof.
  intros a l H. pose proof (says_commas (shift (Datatypes.S a) (Datatypes.S a)) (fun _ => shift (Datatypes.S a) (Datatypes.S a)) l) as C.
  destruct l as [|d l]; [apply C; auto using shift_nil|]; [|apply C; auto using shift_nil].
  - intros n x y X Y. eapply shift_cons; [now apply shift_mark_inside|]. eapply shift_app; eauto.
  - intros n x y X Y. eapply shift_cons; [now apply shift_mark_inside|]. eapply shift_app; eauto.
  - intros x y X Y. eapply shift_app; eauto.
Qed.

Lemma says_commas_top : forall l, Forall (says (shift 0 0)) l -> says (emits (repeat "," (length l - 1)%nat)) (Commas l).
Proof.
  intros l H. pose proof (says_commas (shift 0 0) (fun n => emits (repeat "," n)) l) as C.
  assert (S0 : emits (repeat "," 0%nat) []) by apply emits_nil.
  assert (SS : forall n x y, shift 0 0 x -> emits (repeat "," n) y -> emits (repeat "," (Datatypes.S n)) (Mark "," :: x ++ y)).
  { intros n x y X Y. apply (emits_app [","] (repeat "," n) [Mark ","] (x ++ y) emits_comma).
    apply (emits_app [] (repeat "," n) x y (shift_emits x X) Y). }
  specialize (C S0 SS H). destruct l as [|d l]; [exact C|]. apply C. intros x y X Y. replace (length (d :: l) - 1)%nat with (length l) by (cbn [length]; lia).
  exact (emits_app [] (repeat "," (length l)) x y (shift_emits x X) Y).
Qed.

End Docs.
