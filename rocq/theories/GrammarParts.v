(** How the reader of SpecGrammar.v reads lists, maps, functions and patterns. *)

From Coq Require Import Ascii String List ZArith Bool Lia.
From Verif Require Import GoStr SpecTokens SpecOutline SpecGrammar SpecReading GrammarProofs GrammarLemmas.
Import ListNotations.
Open Scope string_scope.
Open Scope list_scope.
Open Scope nat_scope.

Notation ex := (fun f => expr_at f 0).

Lemma reads_ex : forall P ts, reads 0 P ts -> parses ex halts P ts.
Proof. intros P ts H. eapply parses_weaken; [| |exact (reads_parses 0 P ts ltac:(lia) H)]; [auto|]. intros r Hr. now apply halts_follows. Qed.

(** ** Lists with commas *)

Definition more_of (tss : list (list token)) : list token := flat_map (fun y => Mark "," :: y) tss.
Definition joined (tss : list (list token)) : list token := match tss with [] => [] | x :: l => x ++ more_of l end.

Lemma more_balanced : forall tss, Forall balanced tss -> balanced (more_of tss).
Proof. induction 1 as [|x l H HL IH]; [apply balanced_nil|]. apply balanced_cons; [reflexivity|reflexivity|]. now apply balanced_app. Qed.
Lemma joined_balanced : forall tss, Forall balanced tss -> balanced (joined tss).
Proof. intros tss [|x l H HL]; [apply balanced_nil|]. apply balanced_app; [exact H|now apply more_balanced]. Qed.
Lemma more_length : forall tss r, length tss <= length (more_of tss ++ r).
Proof. induction tss as [|x l IH]; intros r; [cbn; lia|]. cbn [more_of flat_map]. rewrite <- app_assoc. cbn [app length]. rewrite app_length. specialize (IH r). unfold more_of in IH. lia. Qed.

Lemma parses_more : forall I X (R : nat -> reader X) (C : list token -> Prop) (Q : I -> X -> Prop) es tss,
  (forall r, C (Mark "," :: r)) -> Forall2 (fun e ts => parses R C (Q e) ts) es tss ->
  exists N vs, Forall2 (fun v e => Q e v) vs es
    /\ forall f n rest, N <= f -> length tss <= n -> C rest -> is_mark "," rest = None -> more n (R f) (more_of tss ++ rest) = Some (vs, rest).
Proof.
  intros I X R C Q es tss HC H. induction H as [|e ts es tss He Hl IH].
  - exists 0, []. split; [constructor|]. intros f n rest _ _ _ H. cbn [more_of flat_map app]. destruct n; cbn [more]; now rewrite H.
  - destruct IH as (N1 & vs & V & R1). destruct He as (N2 & v & Qv & R2). exists (N1 + N2), (v :: vs). split; [now constructor|].
    intros f n rest L Ln Cr Nc. destruct n as [|n]; [cbn in Ln; lia|]. cbn [more_of flat_map]. rewrite <- app_assoc. cbn [app more is_mark].
    change (String.eqb "," ",") with true. cbv iota. fold (more_of tss).
    rewrite (R2 f (more_of tss ++ rest)); [|lia|]. 2: { destruct tss; [exact Cr|]. cbn [more_of flat_map app]. apply HC. }
    cbn [bind]. rewrite (R1 f n rest) by (cbn in Ln; auto; lia). reflexivity.
Qed.
Lemma parses_items : forall I X (R : nat -> reader X) (C : list token -> Prop) (Q : I -> X -> Prop) es tss, es <> [] ->
  (forall r, C (Mark "," :: r)) -> Forall2 (fun e ts => parses R C (Q e) ts) es tss ->
  parses (fun f => items (R f)) (fun r => C r /\ is_mark "," r = None) (fun vs => Forall2 (fun v e => Q e v) vs es) (joined tss).
Proof.
  intros I X R C Q es tss NE HC H. destruct H as [|e ts es tss He Hl]; [congruence|]. destruct (parses_more I X R C Q es tss HC Hl) as (N1 & vs & V & R1).
  destruct He as (N2 & v & Qv & R2). exists (N1 + N2), (v :: vs). split; [now constructor|]. intros f rest L [Cr Nc]. cbn [joined]. unfold items.
  rewrite <- app_assoc. rewrite (R2 f (more_of tss ++ rest)); [|lia|]. 2: { destruct tss; [exact Cr|]. cbn [more_of flat_map app]. apply HC. }
  cbn [bind]. rewrite (R1 f (length (more_of tss ++ rest)) rest) by (auto using more_length; lia). reflexivity.
Qed.
Lemma parses_until : forall I X (R : nat -> reader X) (Q : I -> X -> Prop) es tss m, In m [")"; "]"; "}"] ->
  Forall2 (fun e ts => parses R halts (Q e) ts) es tss -> Forall (fun ts => forall r, is_mark m (ts ++ r) = None) tss ->
  parses (fun f => items_until m (R f)) anything (fun vs => Forall2 (fun v e => Q e v) vs es) (joined tss ++ [Mark m]).
Proof.
  intros I X R Q es tss m Im H Hm.
  assert (HM : forall r, halts (Mark m :: r) /\ is_mark "," (Mark m :: r) = None).
  { intros r. cbn [In] in Im. repeat (destruct Im as [<-|Im]; [split; reflexivity|]). destruct Im. }
  destruct H as [|e ts es tss He Hl].
  - exists 0, []. split; [constructor|]. intros f rest _ _. cbn [joined app]. unfold items_until. cbn [is_mark]. now rewrite String.eqb_refl.
  - destruct (parses_items I X R halts Q (e :: es) (ts :: tss) ltac:(discriminate) ltac:(reflexivity) ltac:(now constructor)) as (N & vs & V & Ri).
    exists N, vs. split; [exact V|]. intros f rest L _. unfold items_until. rewrite <- app_assoc. inversion Hm as [|? ? Ht Hts]; subst.
    replace (is_mark m (joined (ts :: tss) ++ [Mark m] ++ rest)) with (@None (list token)).
    2: { cbn [joined]. rewrite <- app_assoc. now rewrite Ht. }
    rewrite (Ri f ([Mark m] ++ rest)) by (auto; apply HM). cbn [bind app is_mark]. now rewrite String.eqb_refl.
Qed.
Lemma begins_no_mark : forall n m ts r, In m [")"; "]"; "}"; ","; ".."] -> begins n ts -> is_mark m (ts ++ r) = None.
Proof.
  intros n m [|[| | | |v] ts] r Im H; try reflexivity; [destruct H|]. cbn [app is_mark]. destruct (String.eqb_spec v m) as [->|N]; [|reflexivity]. exfalso.
  destruct H as [H _]. cbn [In] in Im. repeat (destruct Im as [<-|Im]; [discriminate H|]). destruct Im.
Qed.
Lemma begins_no_word : forall n w ts r, In w ["DISTINCT"; "WHEN"] -> begins n ts -> is_word w (ts ++ r) = None.
Proof.
  intros n w [|[v| | | |] ts] r Im H; try reflexivity; [destruct H|]. cbn [app is_word]. destruct H as [H _]. apply word_apart in H. destruct H as [H1 H2].
  cbn [In] in Im. repeat (destruct Im as [<-|Im]; [now rewrite ?H1, ?H2|]). destruct Im.
Qed.

Section Lists.
Context {I : Type} (Q : I -> cx -> Prop).

Lemma reads_all_ex : forall es tss, Forall2 (fun e ts => reads 0 (Q e) ts) es tss ->
  Forall2 (fun e ts => parses ex halts (Q e) ts) es tss /\ Forall balanced tss
  /\ forall m, In m [")"; "]"; "}"; ","; ".."] -> Forall (fun ts => forall r, is_mark m (ts ++ r) = None) tss.
Proof.
  intros es tss H. induction H as [|e ts es tss He Hl (I1 & I2 & I3)]; [repeat constructor|]. split; [constructor; [now apply reads_ex|exact I1]|].
  split; [constructor; [apply He|exact I2]|]. intros m Hm. constructor; [|now apply I3]. intros r. eapply begins_no_mark; [exact Hm|apply He].
Qed.

(** The first tokens of an operand do not look like those of a comprehension. *)
Lemma no_filter : forall P x m r, reads 10 P x -> filter_ahead (x ++ Mark m :: r) = false.
Proof.
  intros P x m r (_ & _ & _ & N & t & _ & R).
  assert (X : forall t0 w x', x = t0 :: Word w :: x' -> (forall f, atom (S f) x = Some (match t0 with Word v | Name v => XVar v | _ => XStar end, Word w :: x')) -> False).
  { intros t0 w x' -> At. destruct (R (S (S (S N))) [] ltac:(lia) ltac:(now apply after_ten) Logic.I) as (f' & L' & e).
    rewrite app_nil_r in e. unfold cont in e. rewrite postfix_stop in e by (try lia; apply follows_nil). cbn [expr_at] in e. rewrite At in e. cbn [bind postfix] in e.
    inversion e. }
  destruct x as [|t0 [|t1 x]]; [reflexivity|destruct t0; reflexivity|].
  destruct t0 as [v|v|v|v|v]; cbn [app filter_ahead]; try reflexivity; destruct t1 as [w|w|w|w|w]; try reflexivity.
  - destruct (one_of ["IN"] w) eqn:W; [|reflexivity]. destruct (one_of keywords v) eqn:K; [reflexivity|]. exfalso. apply (X _ _ _ eq_refl). intros f. cbn [atom].
    rewrite (keyword_apart v "CASE" K) by keyword. unfold word.
    now rewrite (keyword_apart v "TRUE" K), (keyword_apart v "FALSE" K), (keyword_apart v "NULL" K), K by keyword.
  - destruct (one_of ["IN"] w) eqn:W; [|reflexivity]. exfalso. apply (X _ _ _ eq_refl). intros f. reflexivity.
Qed.

Lemma reads_list : forall es tss, Forall2 (fun e ts => reads 0 (Q e) ts) es tss ->
  match tss with [] => True | ts :: _ => forall m r, filter_ahead (ts ++ Mark m :: r) = false end ->
  reads 10 (fun t => exists vs, t = XList vs /\ Forall2 (fun v e => Q e v) vs es) (Mark "[" :: joined tss ++ [Mark "]"]).
Proof.
  intros es tss H Hf. destruct (reads_all_ex _ _ H) as (Hx & Hb & Hm). specialize (Hm "]" ltac:(cbn; auto)).
  assert (BL : balanced (Mark "[" :: joined tss ++ [Mark "]"])) by (apply balanced_in; auto using joined_balanced).
  assert (FL : final (Mark "[" :: joined tss ++ [Mark "]"])) by (apply final_cons, final_app; reflexivity).
  destruct Hx as [|e ts es tss He Hl].
  - apply (reads_atom _ _ _ (XList []) 1); auto; [split; reflexivity|exists []; auto|]. intros [|f] rest L _ _; [lia|]. reflexivity.
  - inversion Hm as [|? ? Ht _]; subst. destruct He as (N1 & v & Qv & R1). destruct (parses_more I cx ex halts Q es tss ltac:(reflexivity) Hl) as (N2 & vs & V & R2).
    apply (reads_atom _ _ _ (XList (v :: vs)) (S (N1 + N2))); auto; [split; reflexivity|exists (v :: vs); auto|].
    intros [|f] rest L _ _; [lia|]. cbn [app atom]. change (String.eqb "[" "$") with false. change (String.eqb "[" "*") with false.
    change (String.eqb "[" "[") with true. cbv iota. unfold a_list. cbn [joined]. rewrite <- !app_assoc. rewrite Ht.
    assert (Hh : halts (more_of tss ++ [Mark "]"] ++ rest)) by (destruct tss; reflexivity).
    replace (filter_ahead (ts ++ more_of tss ++ [Mark "]"] ++ rest)) with false.
    2: { destruct tss; cbn [more_of flat_map app]; now rewrite Hf. }
    rewrite (R1 f) by (lia || exact Hh). cbn [bind]. destruct Hl as [|e2 ts2 es tss He2 Hl].
    + cbn [more_of flat_map app is_mark]. inversion V; subst. reflexivity.
    + replace (is_mark "," (more_of (ts2 :: tss) ++ [Mark "]"] ++ rest)) with (Some (ts2 ++ more_of tss ++ [Mark "]"] ++ rest)).
      2: { cbn [more_of flat_map app is_mark]. now rewrite <- app_assoc. }
      cbv beta iota. rewrite (R2 f _ ([Mark "]"] ++ rest)) by (auto using more_length; try reflexivity; lia). reflexivity.
Qed.

(** ** Optional parts *)

Definition after_part (w : string) (P : option cx -> Prop) (ts : list token) : Prop :=
  (ts = [] /\ P None) \/ exists x, ts = Word w :: x /\ reads 0 (fun t => P (Some t)) x.
Lemma after_part_balanced : forall w P ts, after_part w P ts -> balanced ts.
Proof. intros w P ts [[-> _]|(x & -> & (B & _))]; [apply balanced_nil|now apply balanced_cons]. Qed.
Lemma after_part_halts : forall w P ts r, after_part w P ts -> stops (Word w) = true -> halts r -> halts (ts ++ r).
Proof. intros w P ts r [[-> _]|(x & -> & _)] S H; [exact H|exact S]. Qed.
Lemma parses_after : forall w P ts, one_of [w] w = true -> after_part w P ts ->
  parses (fun f => maybe_after w (expr_at f 0)) (fun r => halts r /\ is_word w r = None) P ts.
Proof.
  intros w P ts W [[-> H]|(x & -> & H)].
  - exists 0, None. split; [exact H|]. intros f rest _ [_ N]. cbn [app]. unfold maybe_after. now rewrite N.
  - destruct (reads_ex _ _ H) as (N & t & Pt & R). exists N, (Some t). split; [exact Pt|]. intros f rest L [Hr _]. unfold maybe_after. cbn [app is_word]. rewrite W.
    rewrite R by auto. reflexivity.
Qed.
Definition bar_part (P : option cx -> Prop) (ts : list token) : Prop :=
  (ts = [] /\ P None) \/ exists x, ts = Mark "|" :: x /\ reads 0 (fun t => P (Some t)) x.
Lemma bar_part_balanced : forall P ts, bar_part P ts -> balanced ts.
Proof. intros P ts [[-> _]|(x & -> & (B & _))]; [apply balanced_nil|now apply balanced_cons]. Qed.
Lemma bar_part_halts : forall P ts r, bar_part P ts -> halts r -> halts (ts ++ r).
Proof. intros P ts r [[-> _]|(x & -> & _)] H; [exact H|reflexivity]. Qed.
Lemma bar_part_word : forall w P ts r, bar_part P ts -> is_word w r = None -> is_word w (ts ++ r) = None.
Proof. intros w P ts r [[-> _]|(x & -> & _)] H; [exact H|reflexivity]. Qed.
Lemma parses_bar : forall P ts, bar_part P ts -> parses (fun f => maybe_result (expr_at f 0)) (fun r => halts r /\ is_mark "|" r = None) P ts.
Proof.
  intros P ts [[-> H]|(x & -> & H)].
  - exists 0, None. split; [exact H|]. intros f rest _ [_ N]. cbn [app]. unfold maybe_result. now rewrite N.
  - destruct (reads_ex _ _ H) as (N & t & Pt & R). exists N, (Some t). split; [exact Pt|]. intros f rest L [Hr _]. unfold maybe_result. cbn [app is_mark].
    change (String.eqb "|" "|") with true. cbv iota. rewrite R by auto. reflexivity.
Qed.

(** ** Comprehensions *)

Lemma parses_filter : forall x v P l (W : option cx -> Prop) w, a_word x v -> reads 0 P l -> after_part "WHERE" W w ->
  parses (fun f => a_filter (expr_at f 0)) (fun r => halts r /\ is_word "WHERE" r = None)
    (fun y => fst (fst y) = x /\ P (snd (fst y)) /\ W (snd y)) (v ++ Word "IN" :: l ++ w).
Proof.
  intros x v P l W w V L Hw. destruct (reads_ex _ _ L) as (N1 & t & Pt & R1). destruct (parses_after "WHERE" _ _ eq_refl Hw) as (N2 & o & Wo & R2).
  exists (N1 + N2), (x, t, o). split; [auto|]. intros f rest Lf [Hr Nr]. unfold a_filter. rewrite <- app_assoc. rewrite (a_word_name x) by exact V. cbn [bind app is_word].
  change (one_of ["IN"] "IN") with true. cbv iota. rewrite <- app_assoc. rewrite (R1 f (w ++ rest)); [|lia|]. 2: { eapply after_part_halts; [exact Hw|reflexivity|exact Hr]. }
  cbn [bind]. rewrite (R2 f rest) by (auto; lia). reflexivity.
Qed.
Lemma filter_starts : forall x v r, variable x -> a_word x v -> filter_ahead (v ++ Word "IN" :: r) = true.
Proof. intros x v r [_ K] [-> | ->]; cbn [app filter_ahead]; [now rewrite K|reflexivity]. Qed.

Lemma reads_list_comp : forall x v P l (W D : option cx -> Prop) w d, variable x -> a_word x v -> reads 0 P l -> after_part "WHERE" W w -> bar_part D d ->
  reads 10 (fun t => exists a b c, t = XListComp x a b c /\ P a /\ W b /\ D c) (Mark "[" :: v ++ Word "IN" :: l ++ w ++ d ++ [Mark "]"]).
Proof.
  intros x v P l W D w d V Hv L Hw Hd. destruct (parses_filter x v P l W w Hv L Hw) as (N1 & y & (Y1 & Y2 & Y3) & R1).
  destruct (parses_bar _ _ Hd) as (N2 & o & Do & R2).
  assert (X : v ++ Word "IN" :: l ++ w ++ d ++ [Mark "]"] = (v ++ Word "IN" :: l ++ w ++ d) ++ [Mark "]"]) by (rewrite <- !app_assoc; cbn [app]; now rewrite <- !app_assoc).
  apply (reads_atom _ _ _ (XListComp x (snd (fst y)) (snd y) o) (S (N1 + N2))).
  - rewrite X. apply balanced_in; try reflexivity. apply balanced_app; [now apply (a_word_balanced x)|]. apply balanced_cons; try reflexivity.
    apply balanced_app; [apply L|]. apply balanced_app; [now apply (after_part_balanced _ _ _ Hw)|now apply (bar_part_balanced _ _ Hd)].
  - rewrite X. apply final_cons, final_app. reflexivity.
  - split; reflexivity.
  - exists (snd (fst y)), (snd y), o. auto.
  - intros [|f] rest Lf _ _; [lia|]. cbn [app atom]. change (String.eqb "[" "$") with false. change (String.eqb "[" "*") with false.
    change (String.eqb "[" "[") with true. cbv iota. unfold a_list. rewrite <- app_assoc. cbn [app].
    replace (is_mark "]" (v ++ Word "IN" :: (l ++ w ++ d ++ [Mark "]"]) ++ rest)) with (@None (list token)) by (destruct Hv as [-> | ->]; reflexivity).
    rewrite (filter_starts x v) by assumption.
    replace (v ++ Word "IN" :: (l ++ w ++ d ++ [Mark "]"]) ++ rest) with ((v ++ Word "IN" :: l ++ w) ++ d ++ Mark "]" :: rest)
      by (rewrite <- !app_assoc; cbn [app]; now rewrite <- !app_assoc).
    rewrite (R1 f (d ++ Mark "]" :: rest)); [|lia|]. 2: { split; [eapply bar_part_halts; [exact Hd|reflexivity]|eapply bar_part_word; [exact Hd|reflexivity]]. }
    cbn [bind]. rewrite (R2 f (Mark "]" :: rest)) by (lia || split; reflexivity). cbn [bind is_mark]. change (String.eqb "]" "]") with true. cbv iota. now rewrite Y1.
Qed.

(** What is read as a pattern, or as an equation with a pattern. *)
Definition comprehends (x : cx) (mk : option cx -> option cx -> cx) : Prop :=
  forall w d, comprehension x w (Some d) = Some (mk w (Some d)).
Lemma reads_pat_comp : forall (P : cx -> Prop) p (W : option cx -> Prop) w (D : cx -> Prop) d (M : (option cx -> option cx -> cx) -> Prop),
  reads_if (fun r => arrow r = false) 0 P p -> (forall t, P t -> exists mk, comprehends t mk /\ M mk) -> (forall r, filter_ahead (p ++ r) = false) ->
  after_part "WHERE" W w -> reads 0 D d ->
  reads 10 (fun t => exists mk b c, t = mk b (Some c) /\ M mk /\ W b /\ D c) (Mark "[" :: p ++ w ++ Mark "|" :: d ++ [Mark "]"]).
Proof.
  intros P p W w D d M Hp Hm Hf Hw Hd. destruct (reads_if_parses _ 0 P p ltac:(lia) Hp) as (N1 & t & Pt & R1). destruct (Hm t Pt) as (mk & Cm & Mm).
  destruct (parses_after "WHERE" _ _ eq_refl Hw) as (N2 & b & Wb & R2). destruct (reads_ex _ _ Hd) as (N3 & c & Dc & R3). destruct Hp as (Bp & Fp & Gp & _).
  assert (X : p ++ w ++ Mark "|" :: d ++ [Mark "]"] = (p ++ w ++ Mark "|" :: d) ++ [Mark "]"]) by (rewrite <- !app_assoc; cbn [app]; now rewrite <- ?app_assoc).
  apply (reads_atom _ _ _ (mk b (Some c)) (S (N1 + N2 + N3))).
  - rewrite X. apply balanced_in; try reflexivity. apply balanced_app; [exact Bp|]. apply balanced_app; [now apply (after_part_balanced _ _ _ Hw)|]. apply balanced_cons; try reflexivity.
    apply Hd.
  - rewrite X. apply final_cons, final_app. reflexivity.
  - split; reflexivity.
  - exists mk, b, c. auto.
  - intros [|f] rest Lf _ _; [lia|]. cbn [app atom]. change (String.eqb "[" "$") with false. change (String.eqb "[" "*") with false.
    change (String.eqb "[" "[") with true. cbv iota. unfold a_list. rewrite <- !app_assoc. cbn [app]. rewrite <- !app_assoc.
    rewrite (begins_no_mark 0 "]" p _ ltac:(cbn; auto) Gp). rewrite Hf.
    assert (Hh : halts (w ++ Mark "|" :: d ++ [Mark "]"] ++ rest)) by (eapply after_part_halts; [exact Hw|reflexivity|reflexivity]).
    rewrite (R1 f) by (lia || (split; [now apply halts_follows|now apply halts_arrow])). cbn [bind].
    replace (is_mark "," (w ++ Mark "|" :: d ++ [Mark "]"] ++ rest)) with (@None (list token)) by (destruct Hw as [[-> _]|(x & -> & _)]; reflexivity).
    rewrite (R2 f) by (lia || split; reflexivity). cbn [bind maybe_result is_mark]. unfold maybe_result. cbn [is_mark]. change (String.eqb "|" "|") with true. cbv iota.
    rewrite (R3 f) by (lia || reflexivity). cbn [bind app is_mark]. change (String.eqb "]" "]") with true. cbv iota. now rewrite Cm.
Qed.

(** ** Behind operands *)

Lemma reads_prop : forall (P : cx -> Prop) x n v, reads 10 P x -> a_word n v -> reads 10 (fun t => exists a, t = XProp a n /\ P a) (x ++ Mark "." :: v).
Proof.
  intros P x n v (B & F & G & N & a & Pa & R) V. split; [apply balanced_app; [exact B|]; apply balanced_cons; try reflexivity; now apply (a_word_balanced n)|].
  split; [apply final_app, final_cons; now apply (a_word_final n)|]. split; [now apply begins_app|]. exists (S N), (XProp a n). split; [eauto|].
  intros f rest L Af _. rewrite <- app_assoc. cbn [app]. destruct (R f (Mark "." :: v ++ rest) ltac:(lia) ltac:(now apply after_ten) Logic.I) as (f' & L' & ->).
  cbn [cont]. destruct f' as [|f']; [lia|]. exists f'. split; [lia|]. cbn [postfix]. change (String.eqb "." ".") with true. cbv iota. now rewrite (a_word_name n) by exact V.
Qed.

Definition labels_tokens (ls : list string) : list token := flat_map (fun v => [Mark ":"; Name v]) ls.
Lemma labels_read : forall ls rest, is_mark ":" rest = None -> labels_of (labels_tokens ls ++ rest) = (ls, rest).
Proof.
  induction ls as [|v ls IH]; intros rest H.
  - cbn [labels_tokens flat_map app]. destruct rest as [|[| | | |m] [|t r]]; try reflexivity. cbn [labels_of]. cbn [is_mark] in H. destruct (String.eqb m ":"); [discriminate|reflexivity].
  - cbn [labels_tokens flat_map app]. cbn [labels_of]. change (String.eqb ":" ":") with true. cbv iota. fold (labels_tokens ls). now rewrite IH.
Qed.
Lemma labels_balanced : forall ls, balanced (labels_tokens ls).
Proof. induction ls as [|v ls IH]; [apply balanced_nil|]. cbn [labels_tokens flat_map app]. repeat (apply balanced_cons; try reflexivity). exact IH. Qed.
Lemma labels_final : forall ls, ls <> [] -> final (labels_tokens ls).
Proof.
  induction ls as [|v [|w ls] IH]; intros H; [congruence|reflexivity|]. cbn [labels_tokens flat_map app]. apply final_cons, final_cons. apply IH. discriminate.
Qed.
Lemma no_postfix_colon : forall rest, no_postfix rest -> is_mark ":" rest = None.
Proof.
  intros [|[| | | |m] r] H; try reflexivity. cbn [no_postfix existsb is_mark] in *. destruct (String.eqb m ":"); [|reflexivity]. repeat rewrite orb_true_r in H. discriminate.
Qed.
Lemma reads_labels : forall (P : cx -> Prop) x ls, ls <> [] -> reads 10 P x -> reads 9 (fun t => exists a, t = XLabels a ls /\ P a) (x ++ labels_tokens ls).
Proof.
  intros P x ls NE (B & F & G & N & a & Pa & R). split; [apply balanced_app; auto using labels_balanced|]. split; [now apply final_app, labels_final|].
  split; [apply begins_app; eapply begins_mono; [|exact G]; lia|]. exists (S (S N)), (XLabels a ls). split; [eauto|].
  intros f rest L Af _. destruct f as [|f]; [lia|]. exists f. split; [lia|]. rewrite <- app_assoc. cbn [expr_at cont].
  destruct (R f (labels_tokens ls ++ rest) ltac:(lia)) as (f' & L' & ->); [|exact Logic.I|].
  - apply after_ten. destruct ls; [congruence|reflexivity].
  - cbn [cont]. destruct f' as [|f']; [lia|]. cbn [postfix]. destruct ls as [|l ls]; [congruence|]. pose proof (labels_read (l :: ls) rest) as LR.
    cbn [labels_tokens flat_map app] in *. change (String.eqb ":" ".") with false. change (String.eqb ":" "[") with false. change (String.eqb ":" "(") with false.
    change (String.eqb ":" "{") with false. cbv iota. rewrite LR; [reflexivity|]. apply no_postfix_colon. apply Af. lia.
Qed.

Definition maybe_reads (P : option cx -> Prop) (ts : list token) : Prop := (ts = [] /\ P None) \/ reads 0 (fun t => P (Some t)) ts.
Lemma maybe_reads_balanced : forall P ts, maybe_reads P ts -> balanced ts.
Proof. intros P ts [[-> _]|H]; [apply balanced_nil|apply H]. Qed.

Lemma reads_subscript : forall (P : cx -> Prop) x b (S : cx -> cx -> Prop), balanced b -> reads 10 P x ->
  (forall a, P a -> parses (fun f => subscript (expr_at f 0) a) anything (S a) (b ++ [Mark "]"])) ->
  reads 10 (fun t => exists a, P a /\ S a t) (x ++ Mark "[" :: b ++ [Mark "]"]).
Proof.
  intros P x b S0 Bb (B & F & G & N & a & Pa & R) H. destruct (H a Pa) as (N2 & t & St & R2).
  split; [apply balanced_app; [exact B|]; now apply balanced_in|].
  split; [apply final_app, final_cons, final_app; reflexivity|]. split; [now apply begins_app|]. exists (S (N + N2)), t. split; [eauto|].
  intros f rest L Af _. rewrite <- app_assoc. cbn [app]. destruct (R f (Mark "[" :: (b ++ [Mark "]"]) ++ rest) ltac:(lia) ltac:(now apply after_ten) Logic.I) as (f' & L' & ->).
  cbn [cont]. destruct f' as [|f']; [lia|]. exists f'. split; [lia|]. cbn [postfix]. change (String.eqb "[" ".") with false. change (String.eqb "[" "[") with true. cbv iota.
  rewrite (R2 f' rest) by (lia || exact Logic.I). reflexivity.
Qed.
Lemma parses_index : forall (P : cx -> Prop) i a, reads 0 P i -> parses (fun f => subscript (expr_at f 0) a) anything (fun t => exists b, t = XIndex a b /\ P b) (i ++ [Mark "]"]).
Proof.
  intros P i a H. destruct (reads_ex _ _ H) as (N & b & Pb & R). exists N, (XIndex a b). split; [eauto|]. intros f rest L _. unfold subscript. rewrite <- app_assoc.
  rewrite (begins_no_mark 0 ".." i _ ltac:(cbn; tauto)) by apply H. rewrite R by (lia || reflexivity). reflexivity.
Qed.
Lemma parses_slice : forall (P Q : option cx -> Prop) lo hi a, maybe_reads P lo -> maybe_reads Q hi ->
  parses (fun f => subscript (expr_at f 0) a) anything (fun t => exists b c, t = XSlice a b c /\ P b /\ Q c) (lo ++ Mark ".." :: hi ++ [Mark "]"]).
Proof.
  intros P Q0 lo hi a Hlo Hhi.
  assert (X : exists N b, P b /\ forall f r, N <= f -> bind (match is_mark ".." (lo ++ Mark ".." :: r) with
          | Some _ => Some (None, lo ++ Mark ".." :: r)
          | None => bind (expr_at f 0 (lo ++ Mark ".." :: r)) (fun lo r => Some (Some lo, r))
          end) (fun x r => Some (x, r)) = Some (b, Mark ".." :: r)).
  { destruct Hlo as [[-> H]|H]; [exists 0, None; split; [exact H|reflexivity]|]. destruct (reads_ex _ _ H) as (N & b & Pb & R). exists N, (Some b). split; [exact Pb|].
    intros f r L. rewrite (begins_no_mark 0 ".." lo _ ltac:(cbn; tauto)) by apply H. rewrite R by (lia || reflexivity). reflexivity. }
  destruct X as (N1 & b & Pb & R1).
  assert (Y : exists N c, Q0 c /\ forall f r, N <= f -> match is_mark "]" (hi ++ Mark "]" :: r) with
        | Some r => Some (XSlice a b None, r)
        | None => bind (expr_at f 0 (hi ++ Mark "]" :: r)) (fun hi r => match is_mark "]" r with Some r => Some (XSlice a b (Some hi), r) | None => None end)
        end = Some (XSlice a b c, r)).
  { destruct Hhi as [[-> H]|H]; [exists 0, None; split; [exact H|reflexivity]|]. destruct (reads_ex _ _ H) as (N & c & Qc & R). exists N, (Some c). split; [exact Qc|].
    intros f r L. rewrite (begins_no_mark 0 "]" hi _ ltac:(cbn; tauto)) by apply H. rewrite R by (lia || reflexivity). reflexivity. }
  destruct Y as (N2 & c & Qc & R2). exists (N1 + N2), (XSlice a b c). split; [eauto|]. intros f rest L _. unfold subscript.
  replace ((lo ++ Mark ".." :: hi ++ [Mark "]"]) ++ rest) with (lo ++ Mark ".." :: hi ++ Mark "]" :: rest) by (rewrite <- app_assoc; cbn [app]; now rewrite <- app_assoc).
  specialize (R1 f (hi ++ Mark "]" :: rest) ltac:(lia)).
  destruct (match is_mark ".." (lo ++ Mark ".." :: hi ++ Mark "]" :: rest) with Some _ => _ | None => _ end) as [[u r]|]; [|discriminate]. cbn [bind] in *. inversion R1; subst.
  cbn [is_mark]. change (String.eqb ".." "..") with true. cbv iota. apply R2. lia.
Qed.

(** ** Functions *)

Definition dots (l : list string) : list token := flat_map (fun v => [Mark "."; Word v]) l.
Lemma dots_read : forall l x p f r, path_of x = Some p -> exists y, path_of y = Some (p ++ l) /\ postfix (length l + f) x (dots l ++ r) = postfix f y r.
Proof.
  induction l as [|v l IH]; intros x p f r H; [exists x; rewrite app_nil_r; auto|]. cbn [length Nat.add dots flat_map app postfix]. change (String.eqb "." ".") with true. cbv iota.
  cbn [a_name bind]. destruct (IH (XProp x v) (p ++ [v]) f r) as (y & Y & E); [cbn [path_of]; now rewrite H|]. exists y. rewrite <- app_assoc in Y. auto.
Qed.
Definition call_name (w : string) (l : list string) : Prop :=
  match l with [] => one_of ["CASE"; "DISTINCT"; "WHEN"; "NOT"; "ALL"; "ANY"; "NONE"; "SINGLE"] w = false | _ => one_of keywords w = false end.
Lemma dots_balanced : forall l, balanced (dots l).
Proof. induction l as [|v l IH]; [apply balanced_nil|]. repeat (apply balanced_cons; try reflexivity). exact IH. Qed.
Lemma call_begins : forall w l, call_name w l -> forall r, begins 10 (Word w :: dots l ++ r).
Proof.
  intros w l H r. unfold call_name in H. cbn [begins]. destruct l.
  - repeat (apply word_apart in H; let X := fresh "W" in destruct H as [X H]). split; [|auto]. unfold one_of in *. cbn [existsb] in *. rewrite orb_false_r in *. now rewrite W0, W1.
  - split; [|intros _; now apply keyword_apart; [|keyword]]. pose proof (keyword_apart w "DISTINCT" H ltac:(keyword)) as X1. pose proof (keyword_apart w "WHEN" H ltac:(keyword)) as X2.
    unfold one_of in *. cbn [existsb] in *. rewrite orb_false_r in *. now rewrite X1, X2.
Qed.
Lemma reads_call : forall w l b (S : bool * list cx -> Prop), call_name w l -> balanced b ->
  parses (fun f => arguments (expr_at f 0)) anything S (b ++ [Mark ")"]) ->
  reads 10 (fun t => exists a, t = XCall (w :: l) (fst a) (snd a) /\ S a) (Word w :: dots l ++ Mark "(" :: b ++ [Mark ")"]).
Proof.
  intros w l b S0 Cn Bb (N & a & Sa & R).
  split; [apply balanced_cons; try reflexivity; apply balanced_app; [apply dots_balanced|now apply balanced_in]|].
  split; [apply final_cons, final_app, final_cons, final_app; reflexivity|]. split; [now apply call_begins|]. exists (length l + N + 5), (XCall (w :: l) (fst a) (snd a)).
  split; [eauto|]. intros f rest L Af _. destruct f as [|f]; [lia|]. cbn [app]. cbn [expr_at].
  assert (At : atom f (Word w :: (dots l ++ Mark "(" :: b ++ [Mark ")"]) ++ rest) = Some (XVar w, (dots l ++ Mark "(" :: b ++ [Mark ")"]) ++ rest)).
  { destruct f as [|f]; [lia|]. cbn [atom]. unfold call_name in Cn. destruct l.
    - apply word_apart in Cn. destruct Cn as [-> _]. reflexivity.
    - rewrite (keyword_apart w "CASE" Cn) by keyword. cbn [dots flat_map app]. change (String.eqb "." "(") with false. change (String.eqb "." "{") with false. cbn [andb].
      unfold word. now rewrite (keyword_apart w "TRUE" Cn), (keyword_apart w "FALSE" Cn), (keyword_apart w "NULL" Cn), Cn by keyword. }
  rewrite At. cbn [bind]. rewrite <- app_assoc. replace f with (length l + (f - length l)) by lia.
  destruct (dots_read l (XVar w) [w] (f - length l) ((Mark "(" :: b ++ [Mark ")"]) ++ rest) eq_refl) as (y & Y & ->).
  destruct (f - length l) as [|g] eqn:Eg; [lia|]. exists g. split; [lia|]. cbn [app cont postfix]. change (String.eqb "(" ".") with false. change (String.eqb "(" "[") with false.
  change (String.eqb "(" "(") with true. cbv iota. rewrite Y. cbn [app].
  replace (quantifier (w :: l)) with (@None string).
  2: { unfold quantifier. destruct l; [|reflexivity]. unfold call_name in Cn. unfold one_of in *. cbn [existsb] in *. rewrite orb_false_r in *.
       repeat (apply orb_false_iff in Cn; let X := fresh "W" in destruct Cn as [X Cn]). now rewrite W3, W4, W5, Cn. }
  rewrite (R g rest) by (lia || exact Logic.I). reflexivity.
Qed.
Lemma parses_arguments : forall es tss, Forall2 (fun e ts => reads 0 (Q e) ts) es tss ->
  parses (fun f => arguments (expr_at f 0)) anything (fun a => fst a = false /\ Forall2 (fun v e => Q e v) (snd a) es) (joined tss ++ [Mark ")"]).
Proof.
  intros es tss H. destruct (reads_all_ex _ _ H) as (Hx & _ & Hm). destruct (parses_until I cx ex Q es tss ")" ltac:(cbn; auto) Hx (Hm ")" ltac:(cbn; auto))) as (N & vs & V & R).
  exists N, (false, vs). split; [auto|]. intros f rest L Ar. unfold arguments.
  replace (is_word "DISTINCT" ((joined tss ++ [Mark ")"]) ++ rest)) with (@None (list token)).
  2: { destruct H as [|e ts es tss He _]; [reflexivity|]. cbn [joined]. rewrite <- !app_assoc. symmetry. eapply begins_no_word; [cbn; auto|apply He]. }
  now rewrite (R f rest).
Qed.
Lemma parses_distinct : forall (P : cx -> Prop) x, reads 0 P x ->
  parses (fun f => arguments (expr_at f 0)) anything (fun a => exists v, a = (true, [v]) /\ P v) ((Word "DISTINCT" :: x) ++ [Mark ")"]).
Proof.
  intros P x H. destruct (parses_until unit cx ex (fun _ => P) [tt] [x] ")" ltac:(cbn; auto)) as (N & vs & V & R).
  - constructor; [now apply reads_ex|constructor].
  - constructor; [|constructor]. intros r. eapply begins_no_mark; [|apply H]. cbn; auto.
  - inversion V as [|v e vs' l' Pv V']; subst. inversion V'; subst. exists N, (true, [v]). split; [eauto|]. intros f rest L Ar. unfold arguments. cbn [app is_word].
    change (one_of ["DISTINCT"] "DISTINCT") with true. cbv iota. cbn [joined more_of flat_map] in R. rewrite app_nil_r in R. now rewrite (R f rest).
Qed.
Lemma filtering_begins : forall w, filtering w = true -> one_of ["DISTINCT"; "WHEN"; "NOT"; "CASE"] w = false.
Proof.
  intros w H. unfold filtering, one_of in *. apply existsb_exists in H. destruct H as (x & Hx & e). apply String.eqb_eq in e. rewrite e. cbn [In] in Hx.
  repeat (destruct Hx as [<-|Hx]; [reflexivity|]). destruct Hx.
Qed.
Lemma reads_filtering : forall w x v P l (W : option cx -> Prop) c, filtering w = true -> a_word x v -> reads 0 P l -> after_part "WHERE" W c ->
  reads 10 (fun t => exists a b, t = XFilter w x a b /\ P a /\ W b) (Word w :: Mark "(" :: (v ++ Word "IN" :: l ++ c) ++ [Mark ")"]).
Proof.
  intros w x v P l W c F V L Hc. destruct (parses_filter x v P l W c V L Hc) as (N & y & (Y1 & Y2 & Y3) & R).
  pose proof (filtering_begins w F) as FB. assert (FW : one_of ["DISTINCT"; "WHEN"] w = false /\ one_of ["NOT"] w = false /\ one_of ["CASE"] w = false).
  { unfold one_of in *. cbn [existsb] in *. rewrite orb_false_r in *. repeat (apply orb_false_iff in FB; let X := fresh "W" in destruct FB as [X FB]). now rewrite W0, W1, W2, FB. }
  destruct FW as (F1 & F2 & F3).
  split. { apply balanced_cons; try reflexivity. apply balanced_in; try reflexivity. apply balanced_app; [now apply (a_word_balanced x)|]. apply balanced_cons; try reflexivity.
           apply balanced_app; [apply L|now apply (after_part_balanced _ _ _ Hc)]. }
  split; [apply final_cons, final_cons, final_app; reflexivity|]. split; [split; auto|]. exists (N + 5), (XFilter w x (snd (fst y)) (snd y)). split; [eauto 6|].
  intros f rest Lf Af _. destruct f as [|[|f]]; try lia. cbn [app expr_at atom]. rewrite F3. change (String.eqb "(" "(") with true. cbv iota. cbn [bind postfix].
  change (String.eqb "(" ".") with false. change (String.eqb "(" "[") with false. change (String.eqb "(" "(") with true. cbv iota. cbn [path_of quantifier].
  unfold filtering in F. rewrite F. exists f. split; [lia|]. rewrite <- app_assoc. rewrite (R f ([Mark ")"] ++ rest)) by (lia || split; reflexivity). cbn [bind app is_mark].
  change (String.eqb ")" ")") with true. cbv iota. rewrite Y1. reflexivity.
Qed.

(** ** Maps *)

Lemma parses_entry : forall (P : cx -> Prop) n v x, a_word n v -> reads 0 P x ->
  parses (fun f => entry (expr_at f 0)) halts (fun e => fst e = n /\ P (snd e)) (v ++ Mark ":" :: x).
Proof.
  intros P n v x V H. destruct (reads_ex _ _ H) as (N & t & Pt & R). exists N, (n, t). split; [auto|]. intros f rest L Hr. unfold entry. rewrite <- app_assoc.
  rewrite (a_word_name n) by exact V. cbn [bind app is_mark]. change (String.eqb ":" ":") with true. cbv iota. now rewrite R.
Qed.
Lemma reads_map : forall b (S : list (string * cx) -> Prop), balanced b -> parses (fun f => entries (expr_at f 0)) anything S (b ++ [Mark "}"]) ->
  reads 10 (fun t => exists l, t = XMap l /\ S l) (Mark "{" :: b ++ [Mark "}"]).
Proof.
  intros b S0 B (N & l & Sl & R). apply (reads_atom _ _ _ (XMap l) (S N)); [now apply balanced_in|apply final_cons, final_app; reflexivity|split; reflexivity|eauto|].
  intros [|f] rest L _ _; [lia|]. cbn [app atom]. change (String.eqb "{" "$") with false. change (String.eqb "{" "*") with false. change (String.eqb "{" "[") with false.
  change (String.eqb "{" "{") with true. cbv iota. now rewrite (R f rest) by (lia || exact Logic.I).
Qed.
Lemma parses_proj_prop : forall n v, a_word n v -> parses (fun f => projection (expr_at f 0)) halts (fun p => p = PProp n) (Mark "." :: v).
Proof.
  intros n v V. exists 0, (PProp n). split; [reflexivity|]. intros f rest _ _. unfold projection. cbn [app is_mark]. change (String.eqb "." ".") with true. cbv iota.
  replace (is_mark "*" (v ++ rest)) with (@None (list token)) by (destruct V as [-> | ->]; reflexivity). now rewrite (a_word_name n) by exact V.
Qed.
Lemma parses_proj_all : parses (fun f => projection (expr_at f 0)) halts (fun p => p = PAll) [Mark "."; Mark "*"].
Proof. exists 0, PAll. split; [reflexivity|]. reflexivity. Qed.
Lemma parses_proj_entry : forall (P : cx -> Prop) n v x, a_word n v -> reads 0 P x ->
  parses (fun f => projection (expr_at f 0)) halts (fun p => exists t, p = PEntry n t /\ P t) (v ++ Mark ":" :: x).
Proof.
  intros P n v x V H. destruct (reads_ex _ _ H) as (N & t & Pt & R). exists N, (PEntry n t). split; [eauto|]. intros f rest L Hr. unfold projection. rewrite <- app_assoc.
  replace (is_mark "." (v ++ (Mark ":" :: x) ++ rest)) with (@None (list token)) by (destruct V as [-> | ->]; reflexivity).
  rewrite (a_word_name n) by exact V. cbn [bind app is_mark]. change (String.eqb ":" ":") with true. cbv iota. now rewrite R.
Qed.
Lemma parses_proj_var : forall n v, a_word n v -> parses (fun f => projection (expr_at f 0)) halts (fun p => p = PVar n) v.
Proof.
  intros n v V. exists 0, (PVar n). split; [reflexivity|]. intros f rest _ H. unfold projection.
  replace (is_mark "." (v ++ rest)) with (@None (list token)) by (destruct V as [-> | ->]; reflexivity).
  rewrite (a_word_name n) by exact V. cbn [bind]. destruct rest as [|[| | | |m] r]; try reflexivity. cbn [is_mark]. destruct (String.eqb_spec m ":") as [->|]; [discriminate H|reflexivity].
Qed.
Lemma reads_projection : forall x v b (S : list cproj -> Prop), variable x -> a_word x v -> balanced b ->
  parses (fun f => items_until "}" (projection (expr_at f 0))) anything S (b ++ [Mark "}"]) ->
  reads 10 (fun t => exists l, t = XProject x l /\ S l) (v ++ Mark "{" :: b ++ [Mark "}"]).
Proof.
  intros x v b S0 Vx V B (N & l & Sl & R). destruct (reads_var x v Vx V) as (Bv & Fv & Gv & N1 & t & Et & R1). subst t.
  split; [apply balanced_app; [exact Bv|now apply balanced_in]|]. split; [apply final_app, final_cons, final_app; reflexivity|]. split; [now apply begins_app|].
  exists (S (N + N1)), (XProject x l). split; [eauto|]. intros f rest L Af _. rewrite <- app_assoc. cbn [app].
  destruct (R1 f (Mark "{" :: (b ++ [Mark "}"]) ++ rest) ltac:(lia) ltac:(now apply after_ten) Logic.I) as (f' & L' & ->).
  cbn [cont]. destruct f' as [|f']; [lia|]. exists f'. split; [lia|]. cbn [postfix]. change (String.eqb "{" ".") with false. change (String.eqb "{" "[") with false. change (String.eqb "{" "(") with false.
  change (String.eqb "{" "{") with true. cbv iota. rewrite (R f' rest) by (lia || exact Logic.I). reflexivity.
Qed.

(** ** CASE *)

Definition branches (l : list (list token * list token)) : list token := flat_map (fun b => Word "WHEN" :: fst b ++ Word "THEN" :: snd b) l.
Lemma branches_balanced : forall l, Forall (fun b => balanced (fst b) /\ balanced (snd b)) l -> balanced (branches l).
Proof.
  induction 1 as [|b l [H1 H2] HL IH]; [apply balanced_nil|]. cbn [branches flat_map]. cbn [app]. apply balanced_cons; try reflexivity. rewrite <- app_assoc.
  apply balanced_app; [exact H1|]. cbn [app]. apply balanced_cons; try reflexivity. now apply balanced_app.
Qed.
Lemma branches_length : forall l r, length l <= length (branches l ++ r).
Proof.
  induction l as [|b l IH]; intros r; [cbn; lia|]. specialize (IH r). cbn [branches flat_map]. fold (branches l). rewrite <- app_assoc. cbn [app length].
  repeat rewrite ?app_length, ?app_comm_cons in *. cbn [length] in *. lia.
Qed.
Lemma parses_whens : forall (Q1 Q2 : I -> cx -> Prop) es l, Forall2 (fun e b => reads 0 (Q1 e) (fst b) /\ reads 0 (Q2 e) (snd b)) es l ->
  exists N vs, Forall2 (fun v e => Q1 e (fst v) /\ Q2 e (snd v)) vs es
    /\ forall f n rest, N <= f -> length l <= n -> halts rest -> is_word "WHEN" rest = None -> whens (expr_at f 0) n (branches l ++ rest) = Some (vs, rest).
Proof.
  intros Q1 Q2 es l H. induction H as [|e [c x] es l [Hc Hx] Hl IH].
  - exists 0, []. split; [constructor|]. intros f n rest _ _ _ H. cbn [branches flat_map app]. destruct n; cbn [whens]; now rewrite H.
  - destruct IH as (N & vs & V & R). cbn [fst snd] in *. destruct (reads_ex _ _ Hc) as (N1 & t1 & P1 & R1). destruct (reads_ex _ _ Hx) as (N2 & t2 & P2 & R2).
    exists (N + N1 + N2), ((t1, t2) :: vs). split; [now constructor|]. intros f n rest L Ln Hr Nr. destruct n as [|n]; [cbn in Ln; lia|].
    cbn [branches flat_map fst snd]. fold (branches l). rewrite <- app_assoc. cbn [app whens is_word]. change (one_of ["WHEN"] "WHEN") with true. cbv iota.
    rewrite <- app_assoc. rewrite (R1 f) by (lia || reflexivity). cbn [bind app is_word]. change (one_of ["THEN"] "THEN") with true. cbv iota.
    rewrite (R2 f); [|lia|]. 2: { destruct l; [exact Hr|reflexivity]. }
    cbn [bind]. rewrite (R f n rest) by (cbn in Ln; auto; lia). reflexivity.
Qed.
Lemma reads_case : forall (P D : option cx -> Prop) (Q1 Q2 : I -> cx -> Prop) s es l d, maybe_reads P s ->
  Forall2 (fun e b => reads 0 (Q1 e) (fst b) /\ reads 0 (Q2 e) (snd b)) es l -> after_part "ELSE" D d -> l <> [] ->
  reads 10 (fun t => exists a bs o, t = XCase a bs o /\ P a /\ Forall2 (fun v e => Q1 e (fst v) /\ Q2 e (snd v)) bs es /\ D o)
    (Word "CASE" :: s ++ branches l ++ d ++ [Word "END"]).
Proof.
  intros P D Q1 Q2 s es l d Hs Hl Hd NE. destruct (parses_whens Q1 Q2 es l Hl) as (N2 & vs & V & R2). destruct (parses_after "ELSE" _ _ eq_refl Hd) as (N3 & o & Do & R3).
  assert (X : exists N a, P a /\ forall f r, N <= f -> halts (branches l ++ r) -> (match is_word "WHEN" (s ++ branches l ++ r) with
                  | Some _ => Some (None, s ++ branches l ++ r)
                  | None => bind (expr_at f 0 (s ++ branches l ++ r)) (fun s r => Some (Some s, r))
                  end) = Some (a, branches l ++ r)).
  { destruct Hs as [[-> Hs]|Hs].
    - exists 0, None. split; [exact Hs|]. intros f r _ _. destruct l as [|b l]; [congruence|]. reflexivity.
    - destruct (reads_ex _ _ Hs) as (N & a & Pa & R). exists N, (Some a). split; [exact Pa|]. intros f r L Hr.
      rewrite (begins_no_word 0 "WHEN" s _ ltac:(cbn; auto)) by apply Hs. now rewrite (R f) by auto. }
  destruct X as (N1 & a & Pa & R1).
  apply (reads_atom _ _ _ (XCase a vs o) (S (N1 + N2 + N3))).
  - apply balanced_cons; try reflexivity. apply balanced_app; [now apply (maybe_reads_balanced _ _ Hs)|]. apply balanced_app.
    + apply branches_balanced. clear -Hl. induction Hl as [|e b es l [H1 H2] HL IH]; constructor; [split; [apply H1|apply H2]|exact IH].
    + apply balanced_app; [now apply (after_part_balanced _ _ _ Hd)|now apply balanced_one].
  - apply final_cons. apply final_app, final_app, final_app. reflexivity.
  - split; reflexivity.
  - exists a, vs, o. auto.
  - intros [|f] rest L _ _; [lia|]. cbn [app atom]. change (one_of ["CASE"] "CASE") with true. cbv iota. unfold a_case. rewrite <- !app_assoc.
    assert (Hh : halts (d ++ [Word "END"] ++ rest)) by (eapply after_part_halts; [exact Hd|reflexivity|reflexivity]).
    rewrite (R1 f); [|lia|destruct l; [exact Hh|reflexivity]]. cbn [bind].
    rewrite (R2 f (length (branches l ++ d ++ [Word "END"] ++ rest)) (d ++ [Word "END"] ++ rest)); [|lia|apply branches_length|exact Hh|destruct Hd as [[-> _]|(x & -> & _)]; reflexivity].
    cbn [bind]. rewrite (R3 f) by (lia || split; reflexivity). reflexivity.
Qed.

End Lists.
