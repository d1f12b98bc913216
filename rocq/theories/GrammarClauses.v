(** Reading the clauses of a statement from its tokens. *)

From Coq Require Import Ascii String List ZArith Bool Lia.
From Verif Require Import GoStr Escape Num VTree SpecLex SpecNum SpecSpace SpecTokens
  Ast SpecDoc SpecOutline SpecGrammar SpecReading GrammarDocs GrammarProofs GrammarLemmas GrammarParts GrammarPatterns.
Import ListNotations.
Open Scope string_scope.
Open Scope list_scope.
Open Scope nat_scope.

(** ** What follows a part of a clause *)

Definition led (ws : list string) (ts : list token) : Prop :=
  match ts with
  | [] => True
  | Word w :: _ => In w ws
  | Mark m :: _ => m = "}"
  | _ => False
  end.
Lemma led_mono : forall ws vs ts, (forall w, In w ws -> In w vs) -> led ws ts -> led vs ts.
Proof. intros ws vs [|[w|w|w|w|w] ts] H L; cbn [led] in *; auto. Qed.
Lemma led_halts : forall ws ts, forallb (fun w => stops (Word w)) ws = true -> led ws ts -> halts ts.
Proof.
  intros ws [|[w|w|w|w|w] ts] H L; cbn [led halts] in *; auto; try contradiction; [|now subst]. rewrite forallb_forall in H. exact (H w L).
Qed.
Lemma led_mark : forall ws m ts, m <> "}" -> led ws ts -> is_mark m ts = None.
Proof. intros ws m [|[w|w|w|w|w] ts] H L; cbn [led is_mark] in *; auto. subst w. destruct (String.eqb_spec "}" m); congruence. Qed.
Lemma led_word : forall ws v ts, forallb (fun w => negb (one_of [v] w)) ws = true -> led ws ts -> is_word v ts = None.
Proof.
  intros ws v [|[w|w|w|w|w] ts] H L; cbn [led is_word] in *; auto. rewrite forallb_forall in H. specialize (H w L). now destruct (one_of [v] w).
Qed.
Lemma led_behind : forall w ws x ts, led (w :: ws) (Word w :: x ++ ts).
Proof. intros w ws x ts. now left. Qed.
Lemma led_after : forall w P x ws ts, after_part w P x -> led ws ts -> led (w :: ws) (x ++ ts).
Proof. intros w P x ws ts [[-> _]|(y & -> & _)] L; [|now left]. eapply led_mono; [|exact L]. intros v I. now right. Qed.

(** Words clauses begin with. *)
Definition firsts : list string :=
  ["MATCH"; "OPTIONAL"; "CREATE"; "MERGE"; "DETACH"; "DELETE"; "SET"; "REMOVE"; "UNWIND"; "WITH"; "RETURN"; "CALL"].
Definition next : list token -> Prop := led ("UNION" :: firsts).

(** ** Items *)

Definition item_follows (r : list token) : Prop := halts r /\ is_word "AS" r = None.
Lemma parses_item_plain : forall P x, reads 0 P x ->
  parses (fun f => an_item (expr_at f 0)) item_follows (fun i => exists t, i = CItem t None /\ P t) x.
Proof.
  intros P x R. destruct (reads_ex P x R) as (N & t & Pt & H). exists N, (CItem t None). split; [eauto|]. intros f rest L [Hr As]. unfold an_item. rewrite (H f rest L Hr).
  cbn [bind]. unfold maybe_after. now rewrite As.
Qed.
Lemma parses_item_alias : forall P x a y, reads 0 P x -> a_word a y ->
  parses (fun f => an_item (expr_at f 0)) item_follows (fun i => exists t, i = CItem t (Some a) /\ P t) (x ++ Word "AS" :: y).
Proof.
  intros P x a y R W. destruct (reads_ex P x R) as (N & t & Pt & H). exists N, (CItem t (Some a)). split; [eauto|]. intros f rest L [Hr As]. unfold an_item.
  rewrite <- app_assoc. cbn [app]. rewrite (H f _ L); [|reflexivity]. cbn [bind]. unfold maybe_after. cbn [is_word]. change (one_of ["AS"] "AS") with true. cbv iota.
  now rewrite (a_word_name a y rest W).
Qed.

Definition sort_follows (r : list token) : Prop := halts r /\ forall w, In w ["DESC"; "DESCENDING"; "ASC"; "ASCENDING"] -> is_word w r = None.
Definition sort_tokens (d : option bool) : list token := match d with Some true => [Word "DESC"] | Some false => [Word "ASC"] | None => [] end.
Lemma one_of_cons : forall v l w, one_of (v :: l) w = (one_of [v] w || one_of l w)%bool.
Proof. intros v l w. unfold one_of. cbn [existsb]. now rewrite orb_false_r. Qed.
Lemma parses_sort : forall P x d, reads 0 P x ->
  parses (fun f => a_sort (expr_at f 0)) sort_follows (fun s => exists t, s = (t, d) /\ P t) (x ++ sort_tokens d).
Proof.
  intros P x d R. destruct (reads_ex P x R) as (N & t & Pt & H). exists N, (t, d). split; [eauto|]. intros f rest L [Hr No]. unfold a_sort. rewrite <- app_assoc.
  destruct d as [[|]|]; cbn [sort_tokens app]; (rewrite (H f _ L); [|try exact Hr; reflexivity]); cbn [bind]; try reflexivity.
  destruct rest as [|[w|w|w|w|w] rest]; try reflexivity. pose proof (No "DESC" ltac:(cbn; tauto)) as N1. pose proof (No "DESCENDING" ltac:(cbn; tauto)) as N2.
  pose proof (No "ASC" ltac:(cbn; tauto)) as N3. pose proof (No "ASCENDING" ltac:(cbn; tauto)) as N4. cbn [is_word] in N1, N2, N3, N4.
  rewrite (one_of_cons "DESC"), (one_of_cons "ASC"). destruct (one_of ["DESC"] w); [discriminate|]. destruct (one_of ["DESCENDING"] w); [discriminate|].
  destruct (one_of ["ASC"] w); [discriminate|]. destruct (one_of ["ASCENDING"] w); [discriminate|]. reflexivity.
Qed.

Definition order_part (P : list (cx * option bool) -> Prop) (ts : list token) : Prop :=
  (ts = [] /\ P []) \/ exists x, ts = Word "ORDER" :: Word "BY" :: x
    /\ parses (fun f => items (a_sort (expr_at f 0))) (fun r => sort_follows r /\ is_mark "," r = None) P x.
Lemma parses_order : forall P ts, order_part P ts ->
  parses (fun f => an_order (expr_at f 0)) (fun r => sort_follows r /\ is_mark "," r = None /\ is_word "ORDER" r = None) P ts.
Proof.
  intros P ts [[-> H]|(x & -> & N & v & V & H)].
  - exists 0, []. split; [exact H|]. intros f rest L (_ & _ & O). cbn [app]. unfold an_order. now rewrite O.
  - exists N, v. split; [exact V|]. intros f rest L (S & C & O). cbn [app]. unfold an_order. cbn [is_word]. change (one_of ["ORDER"] "ORDER") with true. change (one_of ["BY"] "BY") with true. cbv iota. now apply H.
Qed.
Lemma led_order : forall P x ws ts, order_part P x -> led ws ts -> led ("ORDER" :: ws) (x ++ ts).
Proof. intros P x ws ts [[-> _]|(y & -> & _)] L; [|now left]. eapply led_mono; [|exact L]. intros v I. now right. Qed.

Lemma led_sort : forall ws ts, forallb (fun w => stops (Word w)) ws = true -> forallb (fun w => negb (one_of ["DESC"; "DESCENDING"; "ASC"; "ASCENDING"] w)) ws = true ->
  led ws ts -> sort_follows ts.
Proof.
  intros ws ts S H L. split; [now apply (led_halts ws)|]. intros w I. destruct ts as [|[v|v|v|v|v] ts]; try reflexivity. cbn [led is_word] in *. rewrite forallb_forall in H. specialize (H v L).
  destruct (one_of [w] v) eqn:O; [|reflexivity]. exfalso. apply Bool.negb_true_iff in H. unfold one_of in *. cbn [existsb] in O. rewrite orb_false_r in O. apply String.eqb_eq in O. rewrite O in H.
  apply Bool.not_true_iff_false in H. apply H. apply existsb_exists. exists w. split; [exact I|apply String.eqb_refl].
Qed.

Definition tail_words : list string := ["ORDER"; "SKIP"; "LIMIT"; "WHERE"; "UNION"] ++ firsts.
Lemma parses_body : forall I (Q : I -> citem -> Prop) (d : bool) es tss (PO : list (cx * option bool) -> Prop) o (PS PL : option cx -> Prop) s n, es <> [] ->
  Forall2 (fun e ts => parses (fun f => an_item (expr_at f 0)) item_follows (Q e) ts) es tss ->
  (forall r, is_word "DISTINCT" (joined tss ++ r) = None) ->
  order_part PO o -> after_part "SKIP" PS s -> after_part "LIMIT" PL n ->
  parses (fun f => a_body (expr_at f 0)) (led ("WHERE" :: "UNION" :: firsts))
    (fun b => exists l ol sl nl, b = CBody d l ol sl nl /\ Forall2 (fun i e => Q e i) l es /\ PO ol /\ PS sl /\ PL nl)
    ((if d then [Word "DISTINCT"] else []) ++ joined tss ++ o ++ s ++ n).
Proof.
  intros I Q d es tss PO o PS PL s n NE F ND HO HS HL.
  destruct (parses_items I _ (fun f => an_item (expr_at f 0)) item_follows Q es tss NE) as (N1 & l & Hl & R1); [intros r; split; reflexivity|exact F|].
  destruct (parses_order PO o HO) as (N2 & ol & Ho & R2). destruct (parses_after "SKIP" PS s eq_refl HS) as (N3 & sl & Hs & R3).
  destruct (parses_after "LIMIT" PL n eq_refl HL) as (N4 & nl & Hn & R4). exists (N1 + N2 + N3 + N4), (CBody d l ol sl nl). split; [exists l, ol, sl, nl; auto|].
  intros f rest L Hr. rewrite <- !app_assoc. unfold a_body.
  assert (M : maybe_distinct ((if d then [Word "DISTINCT"] else []) ++ joined tss ++ o ++ s ++ n ++ rest) = (d, joined tss ++ o ++ s ++ n ++ rest)).
  { unfold maybe_distinct. destruct d; cbn [app]; [reflexivity|]. now rewrite ND. }
  rewrite M. pose proof (led_after _ _ n _ rest HL Hr) as L4. pose proof (led_after _ _ s _ _ HS L4) as L3. pose proof (led_order _ o _ _ HO L3) as L2.
  assert (X1 : item_follows (o ++ s ++ n ++ rest) /\ is_mark "," (o ++ s ++ n ++ rest) = None).
  { split; [split|]; [eapply led_halts; [|exact L2]; reflexivity|eapply led_word; [|exact L2]; reflexivity|eapply led_mark; [|exact L2]; congruence]. }
  rewrite (R1 f _ ltac:(lia) X1). cbn [bind]. rewrite (R2 f (s ++ n ++ rest) ltac:(lia)).
  2: { split; [eapply led_sort; [| |exact L3]; reflexivity|]. split; [eapply led_mark; [|exact L3]; congruence|eapply led_word; [|exact L3]; reflexivity]. }
  cbn [bind]. rewrite (R3 f (n ++ rest) ltac:(lia)). 2: { split; [eapply led_halts; [|exact L4]; reflexivity|eapply led_word; [|exact L4]; reflexivity]. }
  cbn [bind]. rewrite (R4 f rest ltac:(lia)). 2: { split; [eapply led_halts; [|exact Hr]; reflexivity|eapply led_word; [|exact Hr]; reflexivity]. }
  reflexivity.
Qed.

(** ** SET and REMOVE *)

Definition operand_follows (r : list token) : Prop := no_postfix r.
Lemma no_postfix_open : forall r, no_postfix r -> is_mark "(" r = None.
Proof. intros [|[w|w|w|w|w] r] H; try reflexivity. cbn [no_postfix is_mark] in *. destruct (String.eqb_spec w "("); [subst; discriminate|reflexivity]. Qed.
Lemma follows_ten : forall r, no_postfix r -> follows 10 r.
Proof.
  intros r H. pose proof (after_ten r (no_postfix_open r H)) as (A & _ & _ & B). split; [|split; [lia|split; [auto|exact B]]].
  destruct r as [|[w|v|l|s|m] ts]; cbn [infix_of]; try exact Logic.I.
  - repeat match goal with |- context [if ?b then _ else _] => destruct b end; try lia; try exact Logic.I; destruct (is_word "WITH" ts); try lia; exact Logic.I.
  - unfold mark_operator. repeat match goal with |- context [if ?b then _ else _] => destruct b end; try lia; exact Logic.I.
Qed.
Lemma parses_operand : forall P x, reads 10 P x -> parses (fun f => expr_at f 10) operand_follows P x.
Proof.
  intros P x (_ & _ & _ & N & t & Pt & R). exists (S N), t. split; [exact Pt|]. intros f rest L Hr. destruct (R f rest ltac:(lia)) as (f' & L' & ->); [apply after_ten; now apply no_postfix_open|exact Logic.I|].
  cbn [cont]. apply postfix_stop; [lia|]. now apply follows_ten.
Qed.
Lemma parses_labelled : forall P x ls, ls <> [] -> reads 10 P x ->
  parses (fun f => expr_at f 10) operand_follows (fun t => exists a, t = XLabels a ls /\ P a) (x ++ labels_tokens ls).
Proof.
  intros P x ls NE (_ & _ & _ & N & a & Pa & R). exists (S (S N)), (XLabels a ls). split; [eauto|]. intros f rest L Hr. rewrite <- app_assoc.
  destruct (R f (labels_tokens ls ++ rest) ltac:(lia)) as (f' & L' & ->); [|exact Logic.I|].
  - apply after_ten. destruct ls; [congruence|reflexivity].
  - cbn [cont]. destruct f' as [|f']; [lia|]. cbn [postfix]. destruct ls as [|l ls]; [congruence|]. pose proof (labels_read (l :: ls) rest) as LR.
    cbn [labels_tokens flat_map app] in *. change (String.eqb ":" ".") with false. change (String.eqb ":" "[") with false. change (String.eqb ":" "(") with false.
    change (String.eqb ":" "{") with false. cbv iota. rewrite LR; [reflexivity|]. now apply no_postfix_colon.
Qed.

Definition set_follows (r : list token) : Prop := halts r /\ no_postfix r.
Notation setting := (fun f => a_set (expr_at f 0) (expr_at f 10)).
Lemma halts_not_mark : forall m r, In m ["="; "+="] -> halts r -> is_mark m r = None.
Proof.
  intros m [|[w|w|w|w|w] r] I H; try reflexivity. cbn [halts stops is_mark] in *. destruct (String.eqb_spec w m); [|reflexivity]. subst w. destruct I as [<-|[<-|[]]]; discriminate H.
Qed.
Lemma parses_assign : forall P Q x y, reads 10 P x -> reads 0 Q y ->
  parses setting set_follows (fun s => exists t u, s = SAssign t u /\ P t /\ Q u) (x ++ Mark "=" :: y).
Proof.
  intros P Q x y Rx Ry. destruct (parses_operand P x Rx) as (N & t & Pt & H). destruct (reads_ex Q y Ry) as (M & u & Qu & G). exists (N + M), (SAssign t u). split; [eauto|].
  intros f rest L [Hr _]. unfold a_set. rewrite <- app_assoc. cbn [app]. rewrite (H f _ ltac:(lia)); [|reflexivity]. cbn [bind is_mark]. change (String.eqb "=" "=") with true. cbv iota.
  now rewrite (G f rest ltac:(lia) Hr).
Qed.
Lemma parses_mutate : forall P Q x y, reads 10 P x -> reads 0 Q y ->
  parses setting set_follows (fun s => exists t u, s = SMutate t u /\ P t /\ Q u) (x ++ Mark "+=" :: y).
Proof.
  intros P Q x y Rx Ry. destruct (parses_operand P x Rx) as (N & t & Pt & H). destruct (reads_ex Q y Ry) as (M & u & Qu & G). exists (N + M), (SMutate t u). split; [eauto|].
  intros f rest L [Hr _]. unfold a_set. rewrite <- app_assoc. cbn [app]. rewrite (H f _ ltac:(lia)); [|reflexivity]. cbn [bind is_mark]. change (String.eqb "+=" "=") with false.
  change (String.eqb "+=" "+=") with true. cbv iota. now rewrite (G f rest ltac:(lia) Hr).
Qed.
Lemma parses_label_set : forall P x ls, ls <> [] -> reads 10 P x ->
  parses setting set_follows (fun s => exists t, s = SLabels (XLabels t ls) /\ P t) (x ++ labels_tokens ls).
Proof.
  intros P x ls NE Rx. destruct (parses_labelled P x ls NE Rx) as (N & t & (a & -> & Pa) & H). exists N, (SLabels (XLabels a ls)). split; [eauto|].
  intros f rest L [Hr Hp]. unfold a_set. rewrite (H f rest L Hp). cbn [bind]. rewrite (halts_not_mark "=" rest), (halts_not_mark "+=" rest); auto; cbn; tauto.
Qed.
Lemma led_no_postfix : forall ws ts, led ws ts -> no_postfix ts.
Proof. intros ws [|[w|w|w|w|w] ts] L; cbn [led no_postfix] in *; auto. now subst. Qed.
Lemma led_set : forall ws ts, forallb (fun w => stops (Word w)) ws = true -> led ws ts -> set_follows ts /\ is_mark "," ts = None.
Proof. intros ws ts H L. split; [split; [now apply (led_halts ws)|now apply (led_no_postfix ws)]|eapply led_mark; [|exact L]; congruence]. Qed.

Lemma parses_sets : forall I (Q : I -> cset -> Prop) es tss, es <> [] -> Forall2 (fun e ts => parses setting set_follows (Q e) ts) es tss ->
  parses (fun f => items (a_set (expr_at f 0) (expr_at f 10))) (led ("ON" :: "UNION" :: firsts)) (fun l => Forall2 (fun s e => Q e s) l es) (joined tss).
Proof.
  intros I Q es tss NE F. eapply parses_weaken; [| |apply (parses_items I _ setting set_follows Q es tss NE); [intros r; split; reflexivity|exact F]]; [auto|].
  intros r L. apply (led_set ("ON" :: "UNION" :: firsts) r); [reflexivity|exact L].
Qed.

Definition action_tokens (p : bool * list token) : list token :=
  Word "ON" :: Word (if fst p then "CREATE" else "MATCH") :: Word "SET" :: snd p.
Lemma parses_actions : forall I (c : I -> bool) (Q : I -> list cset -> Prop) es l,
  Forall2 (fun e p => fst p = c e /\ parses (fun f => items (a_set (expr_at f 0) (expr_at f 10))) (led ("ON" :: "UNION" :: firsts)) (Q e) (snd p)) es l ->
  exists N vs, Forall2 (fun v e => fst v = c e /\ Q e (snd v)) vs es
    /\ forall f n rest, N <= f -> length l <= n -> next rest -> actions (expr_at f 0) (expr_at f 10) n (flat_map action_tokens l ++ rest) = Some (vs, rest).
Proof.
  intros I c Q es l F. induction F as [|e p es l (Hc & N1 & v & Qv & R1) F (N2 & vs & Hvs & R2)].
  - exists 0, []. split; [constructor|]. intros f n rest _ _ Nx. cbn [flat_map app]. assert (O : is_word "ON" rest = None) by (eapply led_word; [|exact Nx]; reflexivity).
    destruct n; cbn [actions]; now rewrite O.
  - exists (N1 + N2), ((c e, v) :: vs). split; [constructor; auto|]. intros f n rest L Ln Nx. destruct n as [|n]; [cbn in Ln; lia|]. cbn [flat_map]. rewrite <- app_assoc. unfold action_tokens at 1. cbn [app actions is_word].
    change (one_of ["ON"] "ON") with true. cbv iota. rewrite Hc. destruct (c e); cbn [is_word]; repeat (change (one_of ["CREATE"] "CREATE") with true || change (one_of ["CREATE"] "MATCH") with false || change (one_of ["MATCH"] "MATCH") with true || change (one_of ["SET"] "SET") with true); cbv iota; cbn [bind is_word];
      change (one_of ["SET"] "SET") with true; cbv iota; (rewrite (R1 f _ ltac:(lia)); [|destruct l; [eapply led_mono; [|exact Nx]; intros w Iw; now right|now left]]); cbn [bind]; (rewrite R2; [reflexivity|lia|cbn in Ln; lia|exact Nx]).
Qed.
Lemma actions_length : forall l r, length l <= length (flat_map action_tokens l ++ r).
Proof. induction l as [|p l IH]; intros r; [cbn; lia|]. cbn [flat_map length]. rewrite <- app_assoc. rewrite app_length. specialize (IH r). unfold action_tokens at 1. cbn [length]. lia. Qed.

(** ** CALL *)

Lemma dotted_read : forall l r, is_mark "." r = None -> dotted (flat_map (fun v => [Mark "."; Word v]) l ++ r) = (l, r).
Proof.
  induction l as [|v l IH]; intros r H; cbn [flat_map app].
  - destruct r as [|[w|w|w|w|w] r]; try reflexivity. cbn [dotted is_mark] in *. destruct (String.eqb w "."); [discriminate|]. now destruct r.
  - cbn [dotted]. change (String.eqb "." ".") with true. cbv iota. now rewrite (IH r H).
Qed.
Definition args_part (P : option (list cx) -> Prop) (ts : list token) : Prop :=
  (ts = [] /\ P None) \/ exists x, ts = Mark "(" :: x /\ parses (fun f => items_until ")" (expr_at f 0)) anything (fun l => P (Some l)) x.
Definition yield_part (P : option (list citem) -> Prop) (ts : list token) : Prop :=
  (ts = [] /\ P None) \/ exists x, ts = Word "YIELD" :: x
     /\ parses (fun f => items (an_item (expr_at f 0))) (fun r => item_follows r /\ is_mark "," r = None) (fun l => P (Some l)) x.
Lemma led_yield : forall P x ws ts, yield_part P x -> led ws ts -> led ("YIELD" :: ws) (x ++ ts).
Proof. intros P x ws ts [[-> _]|(y & -> & _)] L; [|now left]. eapply led_mono; [|exact L]. intros v I. now right. Qed.

Lemma parses_call : forall l PA a PY y PW w, l <> [] -> args_part PA a -> yield_part PY y -> after_part "WHERE" PW w ->
  parses (fun f => a_call (expr_at f 0)) next (fun c => exists al yl t, c = CCall l al yl t /\ PA al /\ PY yl /\ PW t) (spelling l ++ a ++ y ++ w).
Proof.
  intros [|n l] PA a PY y PW w NE HA HY HW; [congruence|].
  assert (RA : parses (fun f ts => match is_mark "(" ts with Some r => bind (items_until ")" (expr_at f 0) r) (fun a r => Some (Some a, r)) | None => Some (None, ts) end)
    (fun r => is_mark "(" r = None) PA a).
  { destruct HA as [[-> H]|(x & -> & N & v & V & H)]; [exists 0, None; split; [exact H|]; intros f rest _ Hr; cbn [app]; now rewrite Hr|].
    exists N, (Some v). split; [exact V|]. intros f rest L Hr. cbn [app is_mark]. change (String.eqb "(" "(") with true. cbv iota. now rewrite (H f rest L Logic.I). }
  assert (RY : parses (fun f => maybe_after "YIELD" (items (an_item (expr_at f 0)))) (fun r => item_follows r /\ is_mark "," r = None /\ is_word "YIELD" r = None) PY y).
  { destruct HY as [[-> H]|(x & -> & N & v & V & H)]; [exists 0, None; split; [exact H|]; intros f rest _ (_ & _ & Hr); cbn [app]; unfold maybe_after; now rewrite Hr|].
    exists N, (Some v). split; [exact V|]. intros f rest L (Hi & Hc & _). cbn [app]. unfold maybe_after. cbn [is_word]. change (one_of ["YIELD"] "YIELD") with true. cbv iota. now rewrite (H f rest L (conj Hi Hc)). }
  destruct RA as (N1 & al & Ha & R1). destruct RY as (N2 & yl & Hy & R2). destruct (parses_after "WHERE" PW w eq_refl HW) as (N3 & t & Ht & R3).
  exists (N1 + N2 + N3), (CCall (n :: l) al yl t). split; [exists al, yl, t; auto|]. intros f rest L Hr. unfold a_call. cbn [spelling app a_name bind]. rewrite <- !app_assoc.
  pose proof (led_after _ _ w _ rest HW Hr) as L3. pose proof (led_yield _ y _ _ HY L3) as L2.
  rewrite dotted_read. 2: { destruct HA as [[-> _]|(x & -> & _)]; [|reflexivity]. cbn [app]. eapply led_mark; [|exact L2]. congruence. }
  rewrite (R1 f _ ltac:(lia)) by (eapply led_mark; [|exact L2]; congruence). cbn [bind].
  rewrite (R2 f _ ltac:(lia)).
  2: { split; [split; [eapply led_halts; [|exact L3]; reflexivity|eapply led_word; [|exact L3]; reflexivity]|]. split; [eapply led_mark; [|exact L3]; congruence|eapply led_word; [|exact L3]; reflexivity]. }
  cbn [bind]. rewrite (R3 f rest ltac:(lia)); [reflexivity|]. split; [eapply led_halts; [|exact Hr]; reflexivity|eapply led_word; [|exact Hr]; reflexivity].
Qed.

(** ** Clauses *)

Definition clause_reads (P : cclause -> Prop) (ts : list token) : Prop :=
  (exists w r, ts = Word w :: r /\ In w firsts) /\ parses (fun f => a_clause f) next P ts.
Lemma clause_intro : forall w P r, In w firsts -> one_of ["CALL"] w = false ->
  parses (fun f => clause_of (expr_at f 0) (expr_at f 10) w) next P r -> clause_reads P (Word w :: r).
Proof.
  intros w P r I C (N & v & V & H). split; [eauto|]. exists (S N), v. split; [exact V|]. intros f rest L Nx. destruct f as [|f]; [lia|]. cbn [app a_clause]. rewrite C. apply H; [lia|exact Nx].
Qed.

Lemma next_halts : forall r, next r -> halts r.
Proof. intros r H. eapply led_halts; [|exact H]. reflexivity. Qed.
Lemma next_mark : forall m r, m <> "}" -> next r -> is_mark m r = None.
Proof. intros m r N H. now apply (led_mark ("UNION" :: firsts)). Qed.
Lemma next_word : forall w r, In w ["WHERE"; "AS"; "ON"; "YIELD"; "ORDER"; "SKIP"; "LIMIT"] -> next r -> is_word w r = None.
Proof. intros w r I H. eapply led_word; [|exact H]. repeat (destruct I as [<-|I]; [reflexivity|]). contradiction. Qed.

Lemma match_reads : forall (o : bool) (P : list cpart -> Prop) (W : option cx -> Prop) ps w, parts_read P ps -> after_part "WHERE" W w ->
  clause_reads (fun c => exists l t, c = CMatch o l t /\ P l /\ W t) ((if o then [Word "OPTIONAL"; Word "MATCH"] else [Word "MATCH"]) ++ ps ++ w).
Proof.
  intros o P W ps w (_ & N & l & Pl & R) HW. destruct (parses_after "WHERE" W w eq_refl HW) as (N2 & t & Wt & R2).
  assert (G : forall f rest, N + N2 <= f -> next rest -> a_match (expr_at f 0) o ((ps ++ w) ++ rest) = Some (CMatch o l t, rest)).
  { intros f rest L Nx. unfold a_match. rewrite <- app_assoc. pose proof (led_after _ _ w _ rest HW Nx) as L2. rewrite (R f _ ltac:(lia)).
    2: { split; [eapply led_halts; [|exact L2]; reflexivity|eapply led_mark; [|exact L2]; congruence]. }
    cbn [bind]. rewrite (R2 f rest ltac:(lia)); [reflexivity|]. split; [now apply next_halts|apply next_word; [cbn; tauto|exact Nx]]. }
  destruct o; cbn [app]; apply clause_intro; try (cbn; tauto); try reflexivity; exists (N + N2); eexists; (split; [exists l, t; eauto|]); intros f rest L Nx; rewrite <- (G f rest L Nx); reflexivity.
Qed.
Lemma parts_next : forall P ps, parts_read P ps -> parses (fun f => items (a_part (expr_at f 0))) next P ps.
Proof. intros P ps [_ H]. eapply parses_weaken; [| |exact H]; [auto|]. intros r Nx. split; [now apply next_halts|apply next_mark; [congruence|exact Nx]]. Qed.
Lemma create_reads : forall (P : list cpart -> Prop) ps, parts_read P ps -> clause_reads (fun c => exists l, c = CCreate l /\ P l) (Word "CREATE" :: ps).
Proof.
  intros P ps H. destruct (parts_next P ps H) as (N & l & Pl & R). apply clause_intro; [cbn; tauto|reflexivity|]. exists N, (CCreate l). split; [eauto|].
  intros f rest L Nx. change (bind (items (a_part (expr_at f 0)) (ps ++ rest)) (fun ps r => Some (CCreate ps, r)) = Some (CCreate l, rest)). now rewrite (R f rest L Nx).
Qed.
Lemma merge_reads : forall I (c : I -> bool) (Q : I -> list cset -> Prop) (P : list cpart -> Prop) ps es l, parts_read P ps ->
  Forall2 (fun e p => fst p = c e /\ parses (fun f => items (a_set (expr_at f 0) (expr_at f 10))) (led ("ON" :: "UNION" :: firsts)) (Q e) (snd p)) es l ->
  clause_reads (fun m => exists vs us, m = CMerge vs us /\ P vs /\ Forall2 (fun v e => fst v = c e /\ Q e (snd v)) us es) (Word "MERGE" :: ps ++ flat_map action_tokens l).
Proof.
  intros I c Q P ps es l [_ (N & vs & Pl & R)] F. destruct (parses_actions I c Q es l F) as (N2 & us & Hu & R2). apply clause_intro; [cbn; tauto|reflexivity|]. exists (N + N2), (CMerge vs us). split; [eauto|].
  intros f rest L Nx. change (bind (items (a_part (expr_at f 0)) ((ps ++ flat_map action_tokens l) ++ rest)) (fun ps r => bind (actions (expr_at f 0) (expr_at f 10) (length r) r) (fun l r => Some (CMerge ps l, r))) = Some (CMerge vs us, rest)).
  rewrite <- app_assoc. rewrite (R f _ ltac:(lia)).
  - cbn [bind]. rewrite (R2 f _ rest ltac:(lia)); [reflexivity|apply actions_length|exact Nx].
  - destruct l as [|p l]; cbn [flat_map app]; [split; [now apply next_halts|apply next_mark; [congruence|exact Nx]]|]. split; reflexivity.
Qed.
Lemma delete_reads : forall I (Q : I -> cx -> Prop) (d : bool) es tss, es <> [] -> Forall2 (fun e ts => reads 0 (Q e) ts) es tss ->
  clause_reads (fun c => exists l, c = CDelete d l /\ Forall2 (fun t e => Q e t) l es) ((if d then [Word "DETACH"; Word "DELETE"] else [Word "DELETE"]) ++ joined tss).
Proof.
  intros I Q d es tss NE F. destruct (reads_all_ex Q es tss F) as (F' & _).
  destruct (parses_items I _ (fun f => expr_at f 0) halts Q es tss NE ltac:(reflexivity) F') as (N & l & Hl & R).
  assert (G : forall f rest, N <= f -> next rest -> items (expr_at f 0) (joined tss ++ rest) = Some (l, rest)) by (intros f rest L Nx; apply R; [exact L|split; [now apply next_halts|apply next_mark; [congruence|exact Nx]]]).
  destruct d; cbn [app]; apply clause_intro; try (cbn; tauto); try reflexivity; exists N; eexists; (split; [exists l; eauto|]); intros f rest L Nx.
  - change (bind (items (expr_at f 0) (joined tss ++ rest)) (fun l r => Some (CDelete true l, r)) = Some (CDelete true l, rest)). now rewrite (G f rest L Nx).
  - change (bind (items (expr_at f 0) (joined tss ++ rest)) (fun l r => Some (CDelete false l, r)) = Some (CDelete false l, rest)). now rewrite (G f rest L Nx).
Qed.
Lemma set_reads : forall I (Q : I -> cset -> Prop) es tss, es <> [] -> Forall2 (fun e ts => parses setting set_follows (Q e) ts) es tss ->
  clause_reads (fun c => exists l, c = CSet l /\ Forall2 (fun s e => Q e s) l es) (Word "SET" :: joined tss).
Proof.
  intros I Q es tss NE F. destruct (parses_sets I Q es tss NE F) as (N & l & Hl & R). apply clause_intro; [cbn; tauto|reflexivity|]. exists N, (CSet l). split; [eauto|]. intros f rest L Nx.
  change (bind (items (a_set (expr_at f 0) (expr_at f 10)) (joined tss ++ rest)) (fun l r => Some (CSet l, r)) = Some (CSet l, rest)). rewrite (R f rest L); [reflexivity|].
  eapply led_mono; [|exact Nx]. intros w Iw. now right.
Qed.
Lemma remove_reads : forall I (Q : I -> cx -> Prop) es tss, es <> [] -> Forall2 (fun e ts => parses (fun f => expr_at f 10) operand_follows (Q e) ts) es tss ->
  clause_reads (fun c => exists l, c = CRemove l /\ Forall2 (fun s e => Q e s) l es) (Word "REMOVE" :: joined tss).
Proof.
  intros I Q es tss NE F. destruct (parses_items I _ (fun f => expr_at f 10) operand_follows Q es tss NE ltac:(reflexivity) F) as (N & l & Hl & R). apply clause_intro; [cbn; tauto|reflexivity|].
  exists N, (CRemove l). split; [eauto|]. intros f rest L Nx. change (bind (items (expr_at f 10) (joined tss ++ rest)) (fun l r => Some (CRemove l, r)) = Some (CRemove l, rest)). rewrite (R f rest L); [reflexivity|].
  split; [now apply (led_no_postfix _ _ Nx)|apply next_mark; [congruence|exact Nx]].
Qed.
Lemma unwind_reads : forall P x v y, reads 0 P x -> a_word v y -> clause_reads (fun c => exists t, c = CUnwind t v /\ P t) (Word "UNWIND" :: x ++ Word "AS" :: y).
Proof.
  intros P x v y R W. destruct (reads_ex P x R) as (N & t & Pt & H). apply clause_intro; [cbn; tauto|reflexivity|]. exists N, (CUnwind t v). split; [eauto|]. intros f rest L Nx.
  change (bind (expr_at f 0 ((x ++ Word "AS" :: y) ++ rest)) (fun x r => match is_word "AS" r with Some r => bind (a_name r) (fun v r => Some (CUnwind x v, r)) | None => None end) = Some (CUnwind t v, rest)).
  rewrite <- app_assoc. cbn [app]. rewrite (H f _ L); [|reflexivity]. cbn [bind is_word]. change (one_of ["AS"] "AS") with true. cbv iota. now rewrite (a_word_name v y rest W).
Qed.
Definition body_reads (P : cbody -> Prop) (ts : list token) : Prop := parses (fun f => a_body (expr_at f 0)) (led ("WHERE" :: "UNION" :: firsts)) P ts.
Lemma with_reads : forall P (W : option cx -> Prop) b w, body_reads P b -> after_part "WHERE" W w ->
  clause_reads (fun c => exists v t, c = CWith v t /\ P v /\ W t) (Word "WITH" :: b ++ w).
Proof.
  intros P W b w (N & v & Pv & R) HW. destruct (parses_after "WHERE" W w eq_refl HW) as (N2 & t & Wt & R2). apply clause_intro; [cbn; tauto|reflexivity|]. exists (N + N2), (CWith v t). split; [eauto|]. intros f rest L Nx.
  change (bind (a_body (expr_at f 0) ((b ++ w) ++ rest)) (fun b r => bind (maybe_after "WHERE" (expr_at f 0) r) (fun c r => Some (CWith b c, r))) = Some (CWith v t, rest)).
  rewrite <- app_assoc. rewrite (R f _ ltac:(lia) (led_after _ _ w _ rest HW Nx)). cbn [bind]. rewrite (R2 f rest ltac:(lia)); [reflexivity|]. split; [now apply next_halts|apply next_word; [cbn; tauto|exact Nx]].
Qed.
Lemma return_reads : forall P b, body_reads P b -> clause_reads (fun c => exists v, c = CReturn v /\ P v) (Word "RETURN" :: b).
Proof.
  intros P b (N & v & Pv & R). apply clause_intro; [cbn; tauto|reflexivity|]. exists N, (CReturn v). split; [eauto|]. intros f rest L Nx.
  change (bind (a_body (expr_at f 0) (b ++ rest)) (fun b r => Some (CReturn b, r)) = Some (CReturn v, rest)). rewrite (R f rest L); [reflexivity|]. eapply led_mono; [|exact Nx]. intros w Iw. now right.
Qed.
Lemma call_reads : forall l PA a PY y PW w, l <> [] -> args_part PA a -> yield_part PY y -> after_part "WHERE" PW w ->
  clause_reads (fun c => exists al yl t, c = CCall l al yl t /\ PA al /\ PY yl /\ PW t) (Word "CALL" :: spelling l ++ a ++ y ++ w).
Proof.
  intros l PA a PY y PW w NE HA HY HW. destruct (parses_call l PA a PY y PW w NE HA HY HW) as (N & v & V & R). split; [exists "CALL"; eexists; split; [reflexivity|cbn; tauto]|].
  exists (S N), v. split; [exact V|]. intros f rest L Nx. destruct f as [|f]; [lia|]. cbn [app a_clause]. change (one_of ["CALL"] "CALL") with true. cbv iota.
  replace (is_mark "{" ((spelling l ++ a ++ y ++ w) ++ rest)) with (@None (list token)) by (destruct l; [congruence|reflexivity]). apply R; [lia|exact Nx].
Qed.

(** ** Queries *)

Definition clauses_read (P : list cclause -> Prop) (ts : list token) : Prop := parses (fun f => clauses f) (led ["UNION"]) P ts.
Lemma clauses_end : forall f rest, led ["UNION"] rest -> clauses (S f) rest = Some ([], rest).
Proof. intros f rest L. cbn [clauses]. replace (query_ends rest) with true; [reflexivity|]. destruct rest as [|[w|w|w|w|w] rest]; cbn [led] in L; try contradiction; try reflexivity; [destruct L as [<-|[]]; reflexivity|now subst]. Qed.
Lemma clause_next : forall P ts r, clause_reads P ts -> next (ts ++ r).
Proof. intros P ts r [(w & x & -> & I) _]. right. exact I. Qed.
Lemma clauses_intro : forall I (Q : I -> cclause -> Prop) qs tss (P : list cclause -> Prop) ts, Forall2 (fun q ts => clause_reads (Q q) ts) qs tss -> clauses_read P ts ->
  (ts <> [] -> forall r, next (ts ++ r)) -> clauses_read (fun l => exists l1 l2, l = l1 ++ l2 /\ Forall2 (fun c q => Q q c) l1 qs /\ P l2) (concat tss ++ ts)
     /\ (concat tss ++ ts <> [] -> forall r, next ((concat tss ++ ts) ++ r)).
Proof.
  intros I Q qs tss P ts F R Hn. induction F as [|q t qs tss Hq F [(N & v & (l1 & l2 & -> & F1 & P2) & IH) Hx]].
  - cbn [concat app]. split; [|exact Hn]. eapply parses_weaken; [| |exact R]; [|auto]. intros l Pl. exists [], l. split; [reflexivity|]. split; [constructor|exact Pl].
  - cbn [concat]. rewrite <- app_assoc. split; [|intros _ r; rewrite <- app_assoc; eapply clause_next; exact Hq].
    pose proof Hq as [(w & x & Ex & Iw) (N2 & c & Qc & Rc)]. exists (S (N + N2)), (c :: l1 ++ l2). split; [exists (c :: l1), l2; split; [reflexivity|]; split; [constructor|]; auto|].
    intros f rest L Lr. destruct f as [|f]; [lia|]. rewrite <- app_assoc. cbn [clauses].
    replace (query_ends (t ++ (concat tss ++ ts) ++ rest)) with false.
    2: { rewrite Ex. cbn [app query_ends]. symmetry. clear -Iw. repeat (destruct Iw as [<-|Iw]; [reflexivity|]). contradiction. }
    rewrite (Rc f _ ltac:(lia)).
    + cbn [bind]. rewrite (IH f rest ltac:(lia) Lr). reflexivity.
    + destruct (concat tss ++ ts) as [|a b] eqn:Ec; [|apply Hx; discriminate]. cbn [app]. eapply led_mono; [|exact Lr]. intros z [<-|[]]. now left.
Qed.
Lemma clauses_none : clauses_read (fun l => l = []) [].
Proof. exists 1, []. split; [reflexivity|]. intros [|f] rest L Lr; [lia|]. now apply clauses_end. Qed.

Definition union_tokens (p : bool * list token) : list token := Word "UNION" :: (if fst p then [Word "ALL"] else []) ++ snd p.
Lemma unions_intro : forall I (a : I -> bool) (P : I -> list cclause -> Prop) es l,
  Forall2 (fun e p => fst p = a e /\ clauses_read (P e) (snd p) /\ (forall r, led ["UNION"] r -> is_word "ALL" (snd p ++ r) = None)) es l ->
  exists N vs, Forall2 (fun v e => fst v = a e /\ P e (snd v)) vs es
    /\ forall f rest, N <= f -> led [] rest -> unions f (flat_map union_tokens l ++ rest) = Some (vs, rest).
Proof.
  intros I a P es l F. induction F as [|e p es l (Ha & (N1 & v & Pv & R1) & NA) F (N2 & vs & Hv & R2)].
  - exists 1, []. split; [constructor|]. intros [|f] rest L Lr; [lia|]. cbn [flat_map app unions].
    replace (is_word "UNION" rest) with (@None (list token)); [reflexivity|]. symmetry. eapply led_word; [|exact Lr]. reflexivity.
  - exists (S (N1 + N2)), ((a e, v) :: vs). split; [constructor; auto|]. intros [|f] rest L Lr; [lia|]. cbn [flat_map]. unfold union_tokens at 1. cbn [app unions is_word]. change (one_of ["UNION"] "UNION") with true. cbv iota.
    rewrite <- !app_assoc. assert (U : led ["UNION"] (flat_map union_tokens l ++ rest)) by (destruct l; [eapply led_mono; [|exact Lr]; intros w Iw; contradiction|now left]).
    rewrite Ha. destruct (a e); cbn [app is_word].
    + change (one_of ["ALL"] "ALL") with true. cbv iota beta. rewrite (R1 f _ ltac:(lia) U). cbn [bind]. rewrite (R2 f rest ltac:(lia) Lr). reflexivity.
    + rewrite NA by exact U. rewrite (R1 f _ ltac:(lia) U). cbn [bind]. rewrite (R2 f rest ltac:(lia) Lr). reflexivity.
Qed.

Definition query_reads (P : list cclause -> list (bool * list cclause) -> Prop) (ts : list token) : Prop :=
  exists N l us, P l us /\ forall f rest, N <= f -> led [] rest ->
    bind (clauses f (ts ++ rest)) (fun l r => bind (unions f r) (fun us r => Some ((l, us), r))) = Some ((l, us), rest).
Lemma query_intro : forall I (a : I -> bool) (P : I -> list cclause -> Prop) P0 ts es l, clauses_read P0 ts ->
  Forall2 (fun e p => fst p = a e /\ clauses_read (P e) (snd p) /\ (forall r, led ["UNION"] r -> is_word "ALL" (snd p ++ r) = None)) es l ->
  query_reads (fun c us => P0 c /\ Forall2 (fun v e => fst v = a e /\ P e (snd v)) us es) (ts ++ flat_map union_tokens l).
Proof.
  intros I a P P0 ts es l (N & c & Pc & R) F. destruct (unions_intro I a P es l F) as (N2 & us & Hu & R2). exists (N + N2), c, us. split; [auto|]. intros f rest L Lr. rewrite <- app_assoc.
  rewrite (R f _ ltac:(lia)) by (destruct l; [eapply led_mono; [|exact Lr]; intros w Iw; contradiction|now left]). cbn [bind]. now rewrite (R2 f rest ltac:(lia) Lr).
Qed.
Lemma sub_reads : forall P ts, query_reads P ts -> clause_reads (fun c => exists l us, c = CSub l us /\ P l us) (Word "CALL" :: Mark "{" :: ts ++ [Mark "}"]).
Proof.
  intros P ts (N & l & us & H & R). split; [exists "CALL"; eexists; split; [reflexivity|cbn; tauto]|]. exists (S N), (CSub l us). split; [eauto|]. intros f rest L Nx. destruct f as [|f]; [lia|].
  cbn [app a_clause]. change (one_of ["CALL"] "CALL") with true. cbn [is_mark]. change (String.eqb "{" "{") with true. cbv iota. rewrite <- app_assoc. cbn [app].
  specialize (R f (Mark "}" :: rest) ltac:(lia) eq_refl). destruct (clauses f (ts ++ Mark "}" :: rest)) as [[l' r]|]; [|discriminate]. cbn [bind] in *.
  destruct (unions f r) as [[us' r']|]; [|discriminate]. cbn [bind] in *. injection R as -> -> ->. reflexivity.
Qed.
