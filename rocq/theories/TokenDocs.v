(** Lexing documents: the tokens of a document are those of its pieces. *)

From Coq Require Import Ascii String List ZArith Bool Lia.
From Verif Require Import GoStr Escape Num VTree SpecLex SpecNum SpecSpace SpecTokens EscapeProofs GoStrProofs TokenProofs TokenTexts
  Ast SpecDoc SpecPrint SpecShape.
Import ListNotations.
Open Scope string_scope.

Lemma glue_app : forall a b, glue (a ++ b)%list = glue a ++ glue b.
Proof. induction a as [|x a IH]; intros b; cbn [app glue]; [reflexivity|]. now rewrite IH, sapp_assoc. Qed.

(** The pieces are those of the text. *)
Lemma pieces_write : forall d m, glue (fst (pieces d m)) = fst (write d m) /\ snd (pieces d m) = snd (write d m).
Proof.
  fix IH 1. intros d m. destruct d as [s|l|l|k d|k n d|k a d]; cbn [pieces write].
  - cbn. now rewrite sapp_nil_r.
  - revert m. induction l as [|d l IHl]; intros m; [split; reflexivity|].
    destruct (IH d m) as [I1 I2]. destruct (pieces d m) as [x m1]. destruct (write d m) as [y m1']. cbn [fst snd] in I1, I2. subst y m1'.
    specialize (IHl m1).
    destruct ((fix go (l : list doc) (m : memory) {struct l} := match l with [] => ([], m) | d :: l' => let (x, m1) := pieces d m in let (y, m2) := go l' m1 in ((x ++ y)%list, m2) end) l m1) as [u m2].
    destruct ((fix go (l : list doc) (m : memory) {struct l} := match l with [] => ("", m) | d :: l' => let (x, m1) := write d m in let (y, m2) := go l' m1 in (x ++ y, m2) end) l m1) as [v m2'].
    cbn [fst snd] in *. destruct IHl as [<- ->]. split; [apply glue_app|reflexivity]. 
  - destruct l as [|d l]; [split; reflexivity|].
    destruct (IH d m) as [I1 I2]. destruct (pieces d m) as [x m1]. destruct (write d m) as [y m1']. cbn [fst snd] in I1, I2. subst y m1'.
    assert (G : forall m, glue (fst ((fix go (l : list doc) (m : memory) {struct l} := match l with [] => ([], m) | d :: l' => let (x, m1) := pieces d m in let (y, m2) := go l' m1 in (", " :: x ++ y, m2)%list end) l m))
      = fst ((fix go (l : list doc) (m : memory) {struct l} := match l with [] => ("", m) | d :: l' => let (x, m1) := write d m in let (y, m2) := go l' m1 in (", " ++ x ++ y, m2) end) l m)
      /\ snd ((fix go (l : list doc) (m : memory) {struct l} := match l with [] => ([], m) | d :: l' => let (x, m1) := pieces d m in let (y, m2) := go l' m1 in (", " :: x ++ y, m2)%list end) l m)
      = snd ((fix go (l : list doc) (m : memory) {struct l} := match l with [] => ("", m) | d :: l' => let (x, m1) := write d m in let (y, m2) := go l' m1 in (", " ++ x ++ y, m2) end) l m)).
    { induction l as [|e l IHl]; intros m'; [split; reflexivity|].
      destruct (IH e m') as [J1 J2]. destruct (pieces e m') as [x' m1']. destruct (write e m') as [y' m1'']. cbn [fst snd] in J1, J2. subst y' m1''.
      specialize (IHl m1').
      destruct ((fix go (l : list doc) (m : memory) {struct l} := match l with [] => ([], m) | d :: l' => let (x, m1) := pieces d m in let (y, m2) := go l' m1 in (", " :: x ++ y, m2)%list end) l m1') as [u m2].
      destruct ((fix go (l : list doc) (m : memory) {struct l} := match l with [] => ("", m) | d :: l' => let (x, m1) := write d m in let (y, m2) := go l' m1 in (", " ++ x ++ y, m2) end) l m1') as [v m2'].
      cbn [fst snd] in *. destruct IHl as [<- ->]. split; [|reflexivity]. cbn [glue]. now rewrite glue_app. }
    specialize (G m1).
    destruct ((fix go (l : list doc) (m : memory) {struct l} := match l with [] => ([], m) | d :: l' => let (x, m1) := pieces d m in let (y, m2) := go l' m1 in (", " :: x ++ y, m2)%list end) l m1) as [u m2].
    destruct ((fix go (l : list doc) (m : memory) {struct l} := match l with [] => ("", m) | d :: l' => let (x, m1) := write d m in let (y, m2) := go l' m1 in (", " ++ x ++ y, m2) end) l m1) as [v m2'].
    cbn [fst snd] in *. destruct G as [<- ->]. split; [apply glue_app|reflexivity].
  - destruct (alias_of k (introduced m)); [cbn; now rewrite sapp_nil_r|apply IH].
  - destruct (existsb (String.eqb k) (written m)); [split; reflexivity|].
    destruct (IH d (mark k m)) as [I1 I2]. destruct (pieces d (mark k m)) as [x m1]. destruct (write d (mark k m)) as [y m1']. cbn [fst snd] in *. subst.
    split; [|reflexivity]. cbn [glue]. rewrite glue_app. reflexivity.
  - destruct (alias_of k (introduced m)); [cbn; now rewrite sapp_nil_r|].
    destruct (IH d m) as [I1 I2]. destruct (pieces d m) as [x m1]. destruct (write d m) as [y m1']. cbn [fst snd] in *. subst.
    split; [|reflexivity]. rewrite glue_app. cbn [glue]. now rewrite sapp_nil_r.
Qed.

Lemma tokens_each_app : forall E a b ta tb, tokens_each E a = Some ta -> tokens_each E b = Some tb -> tokens_each E (a ++ b)%list = Some (ta ++ tb)%list.
Proof.
  intros E. induction a as [|s a IH]; intros b ta tb Ha Hb; cbn [app tokens_each] in *.
  - inversion Ha; subst. exact Hb.
  - destruct (tokens E s) as [t|]; [|discriminate]. destruct (tokens_each E a) as [u|]; [|discriminate]. inversion Ha; subst.
    rewrite (IH b u tb eq_refl Hb). now rewrite app_assoc.
Qed.

Section Docs.
Context (E : env) (NS : no_space_in_names E) (K : key -> Prop).

(** How a text may begin, for what stands before it. *)
Inductive start := Any | Led | Strong.
Definition begins (st : start) (x : string) : Prop :=
  match st with Any => True | Led => led x | Strong => strong x end.
Definition lexed (h : bool) (x : string) (ts : list token) : Prop := if h then hard E x ts else soft E x ts.

Definition okm (m : memory) : Prop := Forall (fun p => K (fst p) /\ exists ts, soft E (snd p) ts) (introduced m).

Definition runs (h : bool) (st : start) (f : memory -> list string * memory) (g : memory -> memory) : Prop :=
  (forall m, okm m -> okm (g m))
  /\ forall m, okm m -> exists ts, tokens_each E (fst (f m)) = Some ts /\ lexed h (glue (fst (f m))) ts
                                   /\ begins st (glue (fst (f m))) /\ okm (snd (f m)).

Definition fits (h : bool) (st : start) (d : doc) : Prop := runs h st (pieces d) (introduce_all d).

Definition lead (a b : start) : start :=
  match a, b with Strong, _ => Strong | Led, Strong => Strong | Led, Led => Led | _, _ => Any end.
Definition meet (h1 : bool) (s1 : start) (h2 : bool) (s2 : start) : option (bool * start) :=
  if h1 then Some (h2, lead s1 s2)
  else match s2 with Strong => Some (h2, lead s1 s2) | Led => Some (false, lead s1 s2) | Any => None end.

Lemma lead_begins : forall s1 s2 x y, begins s1 x -> begins s2 y -> begins (lead s1 s2) (x ++ y).
Proof.
  intros [] [] x y H1 H2; cbn [lead begins] in *; try exact I; try (now apply strong_app); [now apply led_app|].
  destruct H1 as [->|H1]; [exact H2|now apply strong_app].
Qed.
Lemma meet_lexed : forall h1 s1 h2 s2 h st x y tx ty, meet h1 s1 h2 s2 = Some (h, st) ->
  lexed h1 x tx -> lexed h2 y ty -> begins s2 y -> lexed h (x ++ y) (tx ++ ty).
Proof.
  intros h1 s1 h2 s2 h st x y tx ty M Hx Hy B. unfold meet in M. destruct h1; cbn [lexed] in Hx.
  - inversion M; subst. destruct h; cbn [lexed] in *; [now apply hard_app|now apply hard_soft_app].
  - destruct s2; [discriminate| |]; inversion M; subst; cbn [begins] in B.
    + cbn [lexed]. apply soft_led_soft; auto. destruct h2; [now apply hard_soft|exact Hy].
    + destruct h; cbn [lexed] in *; [now apply soft_strong_hard|]. apply soft_led_soft; auto. now right.
Qed.
Lemma meet_start : forall h1 s1 h2 s2 h st, meet h1 s1 h2 s2 = Some (h, st) -> st = lead s1 s2.
Proof. intros [] [] [] [] h st H; cbn in H; now inversion H. Qed.

Lemma runs_then : forall h1 s1 h2 s2 h st f1 g1 f2 g2, meet h1 s1 h2 s2 = Some (h, st) ->
  runs h1 s1 f1 g1 -> runs h2 s2 f2 g2 ->
  runs h st (fun m => let (x, m1) := f1 m in let (y, m2) := f2 m1 in ((x ++ y)%list, m2)) (fun m => g2 (g1 m)).
Proof.
  intros h1 s1 h2 s2 h st f1 g1 f2 g2 M [G1 R1] [G2 R2]. split; [intros m H; apply G2, G1, H|].
  intros m H. destruct (R1 m H) as (t1 & T1 & L1 & B1 & O1). destruct (f1 m) as [x m1]. cbn [fst snd] in *.
  destruct (R2 m1 O1) as (t2 & T2 & L2 & B2 & O2). destruct (f2 m1) as [y m2]. cbn [fst snd] in *.
  exists (t1 ++ t2)%list. rewrite glue_app. split; [now apply tokens_each_app|]. split; [eapply meet_lexed; eauto|].
  split; [|exact O2]. rewrite (meet_start _ _ _ _ _ _ M). now apply lead_begins.
Qed.

Lemma runs_ext : forall h st f g f' g', (forall m, f m = f' m) -> (forall m, g m = g' m) -> runs h st f g -> runs h st f' g'.
Proof.
  intros h st f g f' g' Ef Eg [G R]. split; intros m H; [rewrite <- Eg; auto|]. rewrite <- Ef. auto.
Qed.

Lemma runs_weaken : forall h st f g, runs h st f g -> runs false Any f g.
Proof.
  intros h st f g [G R]. split; [exact G|]. intros m H. destruct (R m H) as (t & T & L & B & O). exists t. repeat split; auto.
  destruct h; [now apply hard_soft|exact L].
Qed.
Lemma fits_any : forall h st d, fits h st d -> fits false Any d.
Proof. intros h st d. apply runs_weaken. Qed.
Lemma fits_led : forall h d, fits h Strong d -> fits false Led d.
Proof.
  intros h d [G R]. split; [exact G|]. intros m H. destruct (R m H) as (t & T & L & B & O). exists t. repeat split; auto.
  - destruct h; [now apply hard_soft|exact L].
  - now right.
Qed.
Lemma fits_led' : forall h d, fits h Strong d -> fits h Led d.
Proof.
  intros h d [G R]. split; [exact G|]. intros m H. destruct (R m H) as (t & T & L & B & O). exists t. repeat split; auto.
  now right.
Qed.
Lemma fits_cat_any : forall h st d, fits h st d -> fits h Any d.
Proof.
  intros h st d [G R]. split; [exact G|]. intros m H. destruct (R m H) as (t & T & L & B & O). exists t. repeat split; auto.
Qed.
Lemma fits_soft : forall h st d, fits h st d -> fits false st d.
Proof.
  intros h st d [G R]. split; [exact G|]. intros m H. destruct (R m H) as (t & T & L & B & O). exists t. repeat split; auto.
  destruct h; [now apply hard_soft|exact L].
Qed.

(** ** One lemma per document *)

Lemma fits_txt : forall h st s ts, lexed h s ts -> begins st s -> fits h st (Txt s).
Proof.
  intros h st s ts L B. split; [intros m H; exact H|]. intros m H. exists ts. cbn [pieces fst snd glue tokens_each].
  rewrite sapp_nil_r. assert (Sf : soft E s ts) by (destruct h; [now apply hard_soft|exact L]).
  rewrite (soft_tokens E s ts Sf). rewrite app_nil_r. auto.
Qed.

Lemma fits_cat_nil : fits true Led (Cat []).
Proof.
  split; [intros m H; exact H|]. intros m H. exists []. cbn. repeat split; auto; [apply hard_nil|now left].
Qed.
Lemma fits_cat_cons : forall h1 s1 h2 s2 h st d l, fits h1 s1 d -> fits h2 s2 (Cat l) -> meet h1 s1 h2 s2 = Some (h, st) ->
  fits h st (Cat (d :: l)).
Proof.
  intros h1 s1 h2 s2 h st d l Hd Hl M. eapply runs_ext; [| |exact (runs_then _ _ _ _ _ _ _ _ _ _ M Hd Hl)]; intros m; reflexivity.
Qed.
Lemma fits_cat_app : forall h1 s1 h2 s2 h st a b, fits h1 s1 (Cat a) -> fits h2 s2 (Cat b) -> meet h1 s1 h2 s2 = Some (h, st) ->
  fits h st (Cat (a ++ b)).
Proof.
  intros h1 s1 h2 s2 h st a b Ha Hb M. eapply runs_ext; [| |exact (runs_then _ _ _ _ _ _ _ _ _ _ M Ha Hb)]; intros m; cbv beta; clear Ha.
  - revert m. induction a as [|d a IH]; intros m.
    + cbn [app]. change (pieces (Cat []) m) with (@nil string, m). cbv iota. destruct (pieces (Cat b) m). reflexivity.
    + cbn [app].
      change (pieces (Cat (d :: a)) m) with (let (x, m1) := pieces d m in let (y, m2) := pieces (Cat a) m1 in ((x ++ y)%list, m2)).
      change (pieces (Cat (d :: (a ++ b)%list)) m) with (let (x, m1) := pieces d m in let (y, m2) := pieces (Cat (a ++ b)) m1 in ((x ++ y)%list, m2)).
      destruct (pieces d m) as [x m1]. assert (I := IH). specialize (IH m1). destruct (pieces (Cat a) m1) as [y m2].
      destruct (pieces (Cat b) m2) as [z m3]. rewrite <- IH. now rewrite app_assoc.
  - revert m. induction a as [|d a IH]; intros m; [reflexivity|]. cbn [app].
    change (introduce_all (Cat (d :: (a ++ b)%list)) m) with (introduce_all (Cat (a ++ b)) (introduce_all d m)).
    now rewrite <- IH.
Qed.

Lemma alias_in : forall k l a, alias_of k l = Some a -> In (k, a) l.
Proof.
  intros k. induction l as [|[k' b] l IH]; intros a H; cbn in H; [discriminate|].
  destruct (String.eqb_spec k k') as [->|]; [inversion H; now left|]. right. auto.
Qed.
Lemma okm_alias : forall m k a, okm m -> alias_of k (introduced m) = Some a -> K k /\ exists ts, soft E a ts.
Proof. intros m k a O H. apply alias_in in H. unfold okm in O. rewrite Forall_forall in O. exact (O _ H). Qed.

Lemma fits_alias_text : forall a ts m, soft E a ts -> okm m ->
  exists ts, tokens_each E [a] = Some ts /\ lexed false (glue [a]) ts /\ begins Any (glue [a]) /\ okm m.
Proof.
  intros a ts m S O. exists ts. cbn [tokens_each glue]. rewrite sapp_nil_r, (soft_tokens E a ts S), app_nil_r. repeat split; auto.
Qed.

Lemma fits_shared : forall h st k d, fits h st d -> fits false Any (Shared k d).
Proof.
  intros h st k d F. apply fits_any in F. destruct F as [G R]. split; [exact G|]. intros m H. cbn [pieces].
  destruct (alias_of k (introduced m)) as [a|] eqn:A; [|now apply R].
  destruct (okm_alias m k a H A) as [_ [ts S]]. cbn [fst snd]. eapply fits_alias_text; eauto.
Qed.
Lemma fits_shared_not : forall h st k d, ~ K k -> fits h st d -> fits h st (Shared k d).
Proof.
  intros h st k d N [G R]. split; [exact G|]. intros m H. cbn [pieces].
  destruct (alias_of k (introduced m)) as [a|] eqn:A; [|now apply R]. destruct (okm_alias m k a H A). contradiction.
Qed.

Lemma open_hard : hard E "(" [Mark "("].
Proof. apply one_hard. reflexivity. Qed.
Lemma close_hard : hard E ")" [Mark ")"].
Proof. apply one_hard. reflexivity. Qed.
Lemma comma_hard : hard E ", " [Mark ","].
Proof. intros b tb L. eapply lx_tok; [reflexivity|]. eapply lx_skip; [reflexivity|exact L]. Qed.
Lemma as_hard : hard E " AS " [Word "AS"].
Proof. intros b tb L. eapply lx_skip; [reflexivity|]. eapply lx_tok; [reflexivity|]. eapply lx_skip; [reflexivity|exact L]. Qed.
Lemma open_strong : strong "(".
Proof. apply strong_by; [cbn; tauto|discriminate]. Qed.
Lemma close_strong : strong ")".
Proof. apply strong_by; [cbn; tauto|discriminate]. Qed.
Lemma comma_strong : strong ", ".
Proof. apply strong_by; [cbn; tauto|discriminate]. Qed.
Lemma as_strong : strong " AS ".
Proof. apply strong_by; [cbn; tauto|discriminate]. Qed.
Hint Resolve open_hard close_hard comma_hard as_hard open_strong close_strong comma_strong as_strong hard_soft : tok.

Lemma in_parens_text : forall x ts, soft E x ts -> hard E ("(" ++ x ++ ")") ([Mark "("] ++ ts ++ [Mark ")"]) /\ strong ("(" ++ x ++ ")").
Proof.
  intros x ts S. split; [|apply strong_app, open_strong].
  apply hard_app; [apply open_hard|]. apply soft_strong_hard; auto with tok.
Qed.

Lemma okm_mark : forall m k, okm m -> okm (mark k m).
Proof. intros m k H. exact H. Qed.

Lemma fits_once : forall h st k n ts d, soft E n ts -> fits h st d -> fits true Strong (Once k n d).
Proof.
  intros h st k n ts d Sn F. apply fits_any in F. destruct F as [G R]. split; [exact G|]. intros m H. cbn [pieces].
  destruct (existsb (String.eqb k) (written m)).
  - cbn [fst snd glue tokens_each]. exists ([Mark "("] ++ ts ++ [Mark ")"])%list.
    destruct (in_parens_text n ts Sn) as [I1 I2].
    rewrite (soft_tokens E n ts Sn), (soft_tokens E "(" [Mark "("]), (soft_tokens E ")" [Mark ")"]) by (auto with tok).
    split; [now rewrite app_nil_r|]. split; [exact I1|]. split; [exact I2|]. apply G, H.
  - destruct (R (mark k m) (okm_mark m k H)) as (t & T & L & B & O). destruct (pieces d (mark k m)) as [x m1]. cbn [fst snd] in *.
    exists ([Mark "("] ++ t ++ [Mark ")"])%list. destruct (in_parens_text (glue x) t L) as [I1 I2].
    assert (C : tokens_each E [")"] = Some [Mark ")"]) by (cbn [tokens_each]; rewrite (soft_tokens E ")" [Mark ")"]) by (auto with tok); reflexivity).
    split; [|split; [|split; [|exact O]]].
    + cbn [tokens_each]. rewrite (soft_tokens E "(" [Mark "("]) by (auto with tok).
      rewrite (tokens_each_app E x [")"] t [Mark ")"] T C). reflexivity.
    + cbn [glue lexed]. rewrite glue_app. cbn [glue]. exact I1.
    + cbn [glue]. rewrite glue_app. cbn [glue]. exact I2.
Qed.

Lemma fits_aliased : forall h st k a ts d, K k -> soft E a ts -> fits h st d -> fits false Any (Aliased k a d).
Proof.
  intros h st k a ts d Kk Sa F. apply fits_any in F. destruct F as [G R].
  assert (IO : forall m, okm m -> okm (introduce k a m)).
  { intros m O. constructor; [split; [exact Kk|now exists ts]|exact O]. }
  split; [intros m H; apply IO, G, H|]. intros m H. cbn [pieces]. destruct (alias_of k (introduced m)).
  - cbn [fst snd]. eapply fits_alias_text; [exact Sa|]. apply IO, G, H.
  - destruct (R m H) as (t & T & L & B & O). destruct (pieces d m) as [x m1]. cbn [fst snd] in *.
    exists (t ++ [Word "AS"] ++ ts)%list. split; [|split; [|split; [exact I|now apply IO]]].
    + apply tokens_each_app; [exact T|]. cbn [tokens_each].
      rewrite (soft_tokens E " AS " [Word "AS"]), (soft_tokens E a ts Sa) by (auto with tok). now rewrite app_nil_r.
    + rewrite glue_app. cbn [glue lexed]. rewrite sapp_nil_r. apply soft_led_soft; [exact L|right; apply strong_app, as_strong|].
      apply hard_soft_app; [apply as_hard|exact Sa].
Qed.

Lemma fits_commas : forall l, Forall (fits false Any) l -> fits false Any (Commas l).
Proof.
  intros l H. destruct l as [|d l].
  - split; [intros m O; exact O|]. intros m O. exists []. cbn. repeat split; auto. apply hard_soft, hard_nil.
  - inversion H as [|? ? Hd Hl]; subst. clear H.
    set (go := fix go (l : list doc) (m : memory) {struct l} := match l with [] => ([], m) | d :: l' => let (x, m1) := pieces d m in let (y, m2) := go l' m1 in (", " :: x ++ y, m2)%list end).
    set (gi := fix gi (l : list doc) (m : memory) {struct l} := match l with [] => m | d :: l' => gi l' (introduce_all d m) end).
    assert (T : runs false Led (go l) (gi l)).
    { induction Hl as [|e l [G R] Hl IH].
      - split; [intros m O; exact O|]. intros m O. exists []. cbn. repeat split; auto; [apply hard_soft, hard_nil|now left].
      - destruct IH as [G2 R2]. split; [intros m O; apply G2, G, O|]. intros m O.
        destruct (R m O) as (t & T & L & B & O1). cbn [go]. fold go. destruct (pieces e m) as [x m1]. cbn [fst snd] in *.
        destruct (R2 m1 O1) as (t2 & T2 & L2 & B2 & O2). destruct (go l m1) as [y m2]. cbn [fst snd] in *.
        exists ([Mark ","] ++ t ++ t2)%list. split; [|split; [|split; [|exact O2]]].
        + change (", " :: (x ++ y)%list) with ([", "] ++ (x ++ y))%list. apply tokens_each_app; [|now apply tokens_each_app].
          cbn [tokens_each]. now rewrite (soft_tokens E ", " [Mark ","]) by (auto with tok).
        + cbn [glue lexed] in *. rewrite glue_app. apply hard_soft_app; [apply comma_hard|]. now apply soft_led_soft.
        + cbn [glue begins]. right. apply strong_app, comma_strong. }
    eapply runs_ext; [| |exact (runs_then false Any false Led false Any _ _ _ _ eq_refl Hd T)]; intros m; reflexivity.
Qed.

(** The tokens of a whole document. *)
Theorem fits_tokens : forall h st d, fits h st d ->
  exists ts, tokens_each E (fst (pieces d nothing_written)) = Some ts /\ tokens E (trim_space (text d)) = Some ts.
Proof.
  intros h st d F. apply fits_any in F. destruct F as [_ R]. destruct (R nothing_written (Forall_nil _)) as (ts & T & L & _ & _).
  exists ts. split; [exact T|]. apply Lexes_tokens, Lexes_trim; [exact NS|]. unfold text.
  destruct (pieces_write d nothing_written) as [<- _]. now apply soft_Lexes.
Qed.

End Docs.
