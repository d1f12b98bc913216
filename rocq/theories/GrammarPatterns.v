(** How the reader of SpecGrammar.v reads patterns. *)

From Coq Require Import Ascii String List ZArith Bool Lia.
From Verif Require Import GoStr Num SpecTokens SpecOutline SpecGrammar SpecReading GrammarDocs GrammarProofs GrammarLemmas GrammarParts.
Import ListNotations.
Open Scope string_scope.
Open Scope list_scope.
Open Scope nat_scope.

(** Tokens of a name, if there is one. *)
Inductive name_part : option string -> list token -> Prop :=
| np_none : name_part None []
| np_some : forall x ts, a_word x ts -> name_part (Some x) ts.
(** Tokens of properties, if there are some. *)
Definition props_part (P : option (list (string * cx)) -> Prop) (ts : list token) : Prop :=
  (ts = [] /\ P None) \/ exists b, ts = Mark "{" :: b ++ [Mark "}"] /\ balanced b
    /\ parses (fun f => entries (expr_at f 0)) anything (fun l => P (Some l)) (b ++ [Mark "}"]).

Lemma name_part_balanced : forall n ts, name_part n ts -> balanced ts.
Proof. intros n ts [|x t W]; [apply balanced_nil|now apply (a_word_balanced x)]. Qed.
Lemma props_part_balanced : forall P ts, props_part P ts -> balanced ts.
Proof. intros P ts [[-> _]|(b & -> & B & _)]; [apply balanced_nil|now apply balanced_in]. Qed.
Lemma parses_props : forall P ts, props_part P ts -> parses (fun f => properties (expr_at f 0)) (fun r => is_mark "{" r = None) P ts.
Proof.
  intros P ts [[-> H]|(b & -> & B & (N & l & Pl & R))].
  - exists 0, None. split; [exact H|]. intros f rest _ Nr. unfold properties. cbn [app]. now rewrite Nr.
  - exists N, (Some l). split; [exact Pl|]. intros f rest L _. unfold properties. cbn [app is_mark]. change (String.eqb "{" "{") with true. cbv iota.
    rewrite (R f rest) by (lia || exact Logic.I). reflexivity.
Qed.
Lemma props_no_mark : forall m P ts r, m <> "{" -> props_part P ts -> is_mark m r = None -> is_mark m (ts ++ r) = None.
Proof.
  intros m P ts r Nm [[-> H]|(b & -> & _)] Nr; [exact Nr|]. cbn [app is_mark]. destruct (String.eqb_spec "{" m); [congruence|reflexivity].
Qed.
Definition unnamed (ts : list token) : Prop := match ts with Word _ :: _ | Name _ :: _ => False | _ => True end.
Lemma name_part_read : forall n ts r, name_part n ts -> unnamed r -> maybe_name (ts ++ r) = (n, r).
Proof. intros n ts r [|x t W] U; [|now apply a_word_maybe]. destruct r as [|[] r]; cbn in *; tauto. Qed.
Lemma props_unnamed : forall P ts r, props_part P ts -> unnamed r -> unnamed (ts ++ r).
Proof. intros P ts r [[-> H]|(b & -> & _)] U; [exact U|exact Logic.I]. Qed.
Lemma labels_unnamed : forall ls r, unnamed r -> unnamed (labels_tokens ls ++ r).
Proof. intros [|l ls] r U; [exact U|exact Logic.I]. Qed.

(** ** Nodes *)

Definition node_body (tn : list token) (ls : list string) (tp : list token) : list token := tn ++ labels_tokens ls ++ tp.

Lemma node_body_balanced : forall n tn ls P tp, name_part n tn -> props_part P tp -> balanced (node_body tn ls tp).
Proof.
  intros n tn ls P tp Hn Hp. apply balanced_app; [now apply (name_part_balanced n)|]. apply balanced_app; [apply labels_balanced|now apply (props_part_balanced _ _ Hp)].
Qed.
Lemma parses_node : forall n tn ls (P : option (list (string * cx)) -> Prop) tp, name_part n tn -> props_part P tp ->
  parses (fun f => a_node (expr_at f 0)) anything (fun c => exists l, c = CNode n ls l /\ P l) (Mark "(" :: node_body tn ls tp ++ [Mark ")"]).
Proof.
  intros n tn ls P tp Hn Hp. destruct (parses_props _ _ Hp) as (N & l & Pl & R). exists N, (CNode n ls l). split; [eauto|]. intros f rest L _.
  unfold a_node, node_body. cbn [app is_mark]. change (String.eqb "(" "(") with true. cbv iota. rewrite <- !app_assoc.
  rewrite (name_part_read n) by (auto; apply labels_unnamed, (props_unnamed _ _ _ Hp); exact Logic.I).
  rewrite labels_read by (eapply props_no_mark; [discriminate|exact Hp|reflexivity]). rewrite R by (lia || reflexivity). reflexivity.
Qed.
Lemma node_is_ahead : forall n tn ls P tp, name_part n tn -> props_part P tp -> forall r, node_ahead Start (node_body tn ls tp ++ Mark ")" :: r) = Some r.
Proof.
  intros n tn ls P tp Hn Hp r. unfold node_body. rewrite <- !app_assoc.
  assert (T : forall s, s = Start \/ s = Named -> node_ahead s (tp ++ Mark ")" :: r) = Some r).
  { intros s Hs. destruct Hp as [[-> _]|(b & -> & B & _)]; [destruct Hs as [-> | ->]; reflexivity|]. cbn [app node_ahead].
    assert (St : step s (Mark "{") = Inside 0) by (destruct Hs as [-> | ->]; reflexivity). rewrite St. replace (may_end s && called ")" (Mark "{"))%bool with false by (now rewrite andb_false_r).
    rewrite <- app_assoc. rewrite (inside_ahead b 0 0) by apply B. reflexivity. }
  assert (L : forall ls s, s = Start \/ s = Named -> node_ahead s (labels_tokens ls ++ tp ++ Mark ")" :: r) = Some r).
  { clear ls. induction ls as [|v ls IH]; intros s Hs; [now apply T|]. cbn [labels_tokens flat_map app node_ahead].
    replace (may_end s && called ")" (Mark ":"))%bool with false by (now rewrite andb_false_r). assert (St : step s (Mark ":") = Colon) by (destruct Hs as [-> | ->]; reflexivity).
    rewrite St. cbn [may_end andb step naming]. fold (labels_tokens ls). apply IH. auto. }
  destruct Hn as [|x t W]; [now apply L; left|]. destruct W as [-> | ->]; cbn [app node_ahead may_end called andb step naming]; apply L; auto.
Qed.

(** ** Relationships *)

Lemma bars_read : forall vs rest, is_mark "|" rest = None -> types_more (bars vs ++ rest) = (vs, rest).
Proof.
  induction vs as [|v vs IH]; intros rest H.
  - cbn [bars app]. destruct rest as [|[| | | |m] [|t r]]; try reflexivity. cbn [types_more]. cbn [is_mark] in H. destruct (String.eqb m "|"); [discriminate|reflexivity].
  - cbn [bars app types_more]. change (String.eqb "|" "|") with true. cbv iota. now rewrite IH.
Qed.
Definition types_tokens (vs : list string) : list token := match vs with [] => [] | v :: vs => Mark ":" :: Name v :: bars vs end.
Lemma types_read : forall vs rest, is_mark ":" rest = None -> is_mark "|" rest = None -> types_of (types_tokens vs ++ rest) = Some (vs, rest).
Proof.
  intros [|v vs] rest H1 H2; unfold types_of; cbn [types_tokens app]; [now rewrite H1|]. cbn [is_mark]. change (String.eqb ":" ":") with true. cbv iota. cbn [a_name bind]. now rewrite bars_read.
Qed.
Lemma types_balanced : forall vs, balanced (types_tokens vs).
Proof.
  intros [|v vs]; [apply balanced_nil|]. repeat (apply balanced_cons; try reflexivity). induction vs as [|w vs IH]; [apply balanced_nil|]. repeat (apply balanced_cons; try reflexivity). exact IH.
Qed.
Lemma itoa_read : forall z rest, numeral (itoa_tokens z ++ rest) = (Some (itoa z), rest).
Proof. intros z rest. unfold itoa_tokens, itoa. destruct (z <? 0)%Z; reflexivity. Qed.
Definition length_tokens (len : option (option Z * option Z)) (any : bool) : list token :=
  if any then [Mark "*"]
  else match len with
       | None | Some (None, None) => []
       | Some (lo, hi) => Mark "*" :: bound_tokens lo ++ Mark ".." :: bound_tokens hi
       end.
Definition unnumbered (ts : list token) : Prop := numeral ts = (None, ts).
Lemma bound_read : forall o rest, unnumbered rest -> numeral (bound_tokens o ++ rest) = (option_map itoa o, rest).
Proof. intros [z|] rest U; [apply itoa_read|exact U]. Qed.
Definition length_reads (len : option (option Z * option Z)) (any : bool) : option (option string * bool * option string) :=
  if any then Some (None, false, None)
  else match len with
       | None | Some (None, None) => None
       | Some (lo, hi) => Some (option_map itoa lo, true, option_map itoa hi)
       end.
Lemma length_read : forall len any rest, is_mark "*" rest = None -> is_mark ".." rest = None -> unnumbered rest ->
  length_of (length_tokens len any ++ rest) = (length_reads len any, rest).
Proof.
  intros len any rest H1 H2 U. unfold length_of, length_tokens, length_reads. destruct any.
  - cbn [app is_mark]. change (String.eqb "*" "*") with true. cbv iota. rewrite U. now rewrite H2.
  - destruct len as [[lo hi]|]; [|cbn [app]; now rewrite H1].
    assert (G : (let (lo0, r) := numeral (bound_tokens lo ++ Mark ".." :: bound_tokens hi ++ rest) in
       match is_mark ".." r with None => (Some (lo0, false, None), r) | Some r => let (hi, r) := numeral r in (Some (lo0, true, hi), r) end)
       = (Some (option_map itoa lo, true, option_map itoa hi), rest)).
    { rewrite bound_read; [|destruct hi as [z|]; cbn [bound_tokens]; [unfold itoa_tokens; destruct (z <? 0)%Z; reflexivity|]; destruct rest as [|[] ?]; reflexivity].
      cbn [is_mark]. change (String.eqb ".." "..") with true. cbv iota. now rewrite bound_read. }
    destruct lo, hi; cbn [app]; rewrite <- ?app_assoc; cbn [app is_mark]; change (String.eqb "*" "*") with true; cbv iota; try exact G. now rewrite H1.
Qed.
Lemma bound_balanced : forall o, balanced (bound_tokens o).
Proof. intros [z|] d; [|reflexivity]. unfold bound_tokens, itoa_tokens. destruct (z <? 0)%Z; reflexivity. Qed.
Lemma length_balanced : forall len any, balanced (length_tokens len any).
Proof.
  intros len any. unfold length_tokens. destruct any; [now apply balanced_one|]. destruct len as [[lo hi]|]; [|apply balanced_nil].
  assert (G : balanced (Mark "*" :: bound_tokens lo ++ Mark ".." :: bound_tokens hi)).
  { apply balanced_cons; try reflexivity. apply balanced_app; [apply bound_balanced|]. apply balanced_cons; try reflexivity. apply bound_balanced. }
  destruct lo, hi; try exact G.
Qed.

Definition rel_body (tn : list token) (vs : list string) len any (tp : list token) : list token := tn ++ types_tokens vs ++ length_tokens len any ++ tp.

Lemma rest_of_length : forall len any P tp r, props_part P tp -> let l := length_tokens len any ++ tp ++ Mark "]" :: r in
  is_mark ":" l = None /\ is_mark "|" l = None /\ unnamed l.
Proof.
  intros len any P tp r Hp l. subst l.
  assert (H : is_mark ":" (tp ++ Mark "]" :: r) = None /\ is_mark "|" (tp ++ Mark "]" :: r) = None /\ unnamed (tp ++ Mark "]" :: r)).
  { split; [eapply props_no_mark; [discriminate|exact Hp|reflexivity]|]. split; [eapply props_no_mark; [discriminate|exact Hp|reflexivity]|].
    apply (props_unnamed _ _ _ Hp). exact Logic.I. }
  unfold length_tokens. destruct any; [repeat split|]. destruct len as [[[lo|] [hi|]]|]; try (repeat split; fail); exact H.
Qed.
Lemma parses_details : forall h n tn vs len any (P : option (list (string * cx)) -> Prop) tp, name_part n tn -> props_part P tp ->
  parses (fun f => details (expr_at f 0) h) anything (fun c => exists l, c = CRel h n vs (length_reads len any) l /\ P l)
    (Mark "[" :: rel_body tn vs len any tp ++ [Mark "]"]).
Proof.
  intros h n tn vs len any P tp Hn Hp. destruct (parses_props _ _ Hp) as (N & l & Pl & R). exists N, (CRel h n vs (length_reads len any) l). split; [eauto|].
  intros f rest L _. unfold details, rel_body. cbn [app is_mark]. change (String.eqb "[" "[") with true. cbv iota. rewrite <- !app_assoc. cbn [app].
  destruct (rest_of_length len any P tp rest Hp) as (H1 & H2 & H3). rewrite (name_part_read n); [|exact Hn|destruct vs; [exact H3|exact Logic.I]].
  rewrite types_read by assumption. cbn [bind]. rewrite length_read.
  - rewrite R by (lia || reflexivity). reflexivity.
  - eapply props_no_mark; [discriminate|exact Hp|reflexivity].
  - eapply props_no_mark; [discriminate|exact Hp|reflexivity].
  - unfold unnumbered. destruct Hp as [[-> _]|(b & -> & _)]; cbn [app]; [destruct rest as [|[] ?]; reflexivity|]. destruct (b ++ [Mark "}"]) as [|[] ?]; reflexivity.
Qed.

(** The tokens around the details. *)
Definition around (h : heading) (ts : list token) : list token :=
  match h with
  | ToRight => Mark "-" :: ts ++ [Mark "-"; Mark ">"]
  | ToLeft => Mark "<" :: Mark "-" :: ts ++ [Mark "-"]
  | Undirected => Mark "-" :: ts ++ [Mark "-"]
  end.
Definition inner_of (P : crel -> Prop) (h : heading) (ts : list token) : Prop :=
  (ts = [] /\ P (CRel h None [] None None))
  \/ exists b, ts = Mark "[" :: b ++ [Mark "]"] /\ balanced b
        /\ forall h', parses (fun f => details (expr_at f 0) h') anything (fun c => P (turned h c) /\ turned h' c = c) ts.
Definition no_head (r : list token) : Prop := is_mark ">" r = None.
Lemma around_arrow : forall P h ts r, inner_of P h ts -> arrow (around h ts ++ r) = true.
Proof. intros P h ts r [[-> _]|(b & -> & _)]; destruct h; reflexivity. Qed.
Lemma around_balanced : forall P h ts, inner_of P h ts -> balanced (around h ts).
Proof.
  intros P h ts H. assert (B : balanced ts) by (destruct H as [[-> _]|(b & -> & B & _)]; [apply balanced_nil|now apply balanced_in]).
  destruct h; cbn [around]; repeat (apply balanced_cons; try reflexivity); apply balanced_app; try exact B; intros d; reflexivity.
Qed.
Lemma parses_rel : forall (P : crel -> Prop) h ts, inner_of P h ts -> parses (fun f => a_rel (expr_at f 0)) no_head P (around h ts).
Proof.
  intros P h ts [[-> H]|(b & E & B & H)].
  - exists 0, (CRel h None [] None None). split; [exact H|]. intros f rest _ Nr. unfold a_rel. destruct h; try reflexivity. cbn. unfold no_head in Nr. now rewrite Nr.
  - destruct h.
    + destruct (H Undirected) as (N & c & (Pc & Tc) & R). exists N, (turned ToRight c). split; [exact Pc|]. intros f rest L _. unfold a_rel. cbn [around app is_mark].
      change (String.eqb "-" "<") with false. change (String.eqb "-" "-") with true. cbv iota. rewrite <- app_assoc. rewrite R by (lia || exact Logic.I). reflexivity.
    + destruct (H ToLeft) as (N & c & (Pc & Tc) & R). exists N, c. rewrite Tc in Pc. split; [exact Pc|]. intros f rest L _. unfold a_rel. cbn [around app is_mark].
      change (String.eqb "<" "<") with true. cbv iota. cbn [is_mark]. change (String.eqb "-" "-") with true. cbv iota. rewrite <- app_assoc. rewrite R by (lia || exact Logic.I). reflexivity.
    + destruct (H Undirected) as (N & c & (Pc & Tc) & R). exists N, c. rewrite Tc in Pc. split; [exact Pc|]. intros f rest L Nr. unfold a_rel. cbn [around app is_mark].
      change (String.eqb "-" "<") with false. change (String.eqb "-" "-") with true. cbv iota. rewrite <- app_assoc. rewrite R by (lia || exact Logic.I). cbn [bind app is_mark].
      change (String.eqb "-" "-") with true. cbv iota. unfold no_head in Nr. now rewrite Nr.
Qed.

(** ** Chains *)

Definition node_reads (P : cnode -> Prop) (ts : list token) : Prop :=
  exists b, ts = Mark "(" :: b ++ [Mark ")"] /\ balanced b /\ (forall r, node_ahead Start (b ++ Mark ")" :: r) = Some r)
    /\ parses (fun f => a_node (expr_at f 0)) anything P ts.
Definition rel_reads (P : crel -> Prop) (ts : list token) : Prop :=
  balanced ts /\ (forall r, arrow (ts ++ r) = true) /\ parses (fun f => a_rel (expr_at f 0)) no_head P ts.
Lemma node_reads_intro : forall n tn ls (P : option (list (string * cx)) -> Prop) tp, name_part n tn -> props_part P tp ->
  node_reads (fun c => exists l, c = CNode n ls l /\ P l) (Mark "(" :: node_body tn ls tp ++ [Mark ")"]).
Proof.
  intros n tn ls P tp Hn Hp. exists (node_body tn ls tp). split; [reflexivity|]. split; [eapply node_body_balanced; eassumption|].
  split; [intros r; eapply node_is_ahead; eassumption|]. now apply parses_node.
Qed.
Lemma rel_reads_intro : forall (P : crel -> Prop) h ts, inner_of P h ts -> rel_reads P (around h ts).
Proof. intros P h ts H. split; [eapply around_balanced; exact H|]. split; [intros r; eapply around_arrow; exact H|now apply parses_rel]. Qed.
Lemma node_reads_balanced : forall P ts, node_reads P ts -> balanced ts.
Proof. intros P ts (b & -> & B & _). now apply balanced_in. Qed.
Lemma node_no_head : forall P ts r, node_reads P ts -> no_head (ts ++ r).
Proof. intros P ts r (b & -> & _). reflexivity. Qed.

Definition hops_tokens (l : list (list token * list token)) : list token := flat_map (fun p => fst p ++ snd p) l.
Lemma arrow_nonempty : forall ts r, arrow (ts ++ r) = true -> arrow r = false -> ts <> [].
Proof. intros ts r H G ->. cbn [app] in H. congruence. Qed.
Section Hops.
Context {I : Type} (PR : I -> crel -> Prop) (PN : I -> cnode -> Prop).
Lemma parses_hops : forall es l, Forall2 (fun e p => rel_reads (PR e) (fst p) /\ node_reads (PN e) (snd p)) es l ->
  exists N vs, Forall2 (fun v e => PR e (fst v) /\ PN e (snd v)) vs es
    /\ forall f n rest, N <= f -> length l <= n -> arrow rest = false -> hops (expr_at f 0) n (hops_tokens l ++ rest) = Some (vs, rest).
Proof.
  intros es l H. induction H as [|e [tr tn] es l [Hr Hn] Hl IH].
  - exists 0, []. split; [constructor|]. intros f n rest _ _ H. cbn [hops_tokens flat_map app]. destruct n; cbn [hops]; now rewrite H.
  - destruct IH as (N & vs & V & R). cbn [fst snd] in *. destruct Hr as (Br & Ar & (N1 & x & Px & R1)). pose proof (fun r => node_no_head _ _ r Hn) as NH.
    destruct Hn as (b & E & Bb & Ab & (N2 & y & Py & R2)). exists (N + N1 + N2), ((x, y) :: vs). split; [now constructor|].
    intros f n rest L Ln Hr. destruct n as [|n]; [cbn in Ln; lia|]. cbn [hops_tokens flat_map fst snd]. fold (hops_tokens l). rewrite <- !app_assoc. cbn [hops]. rewrite Ar.
    rewrite (R1 f) by (lia || apply NH). cbn [bind]. rewrite (R2 f) by (lia || exact Logic.I). cbn [bind]. rewrite (R f n rest) by (cbn in Ln; auto; lia). reflexivity.
Qed.
Lemma hops_length : forall es l r, Forall2 (fun e p => rel_reads (PR e) (fst p) /\ node_reads (PN e) (snd p)) es l -> length l <= length (hops_tokens l ++ r).
Proof.
  intros es l r H. induction H as [|e [tr tn] es l [Hr Hn] Hl IH]; [cbn; lia|]. cbn [hops_tokens flat_map fst snd length]. fold (hops_tokens l). cbn [fst snd] in *.
  destruct Hn as (b & -> & _). rewrite <- !app_assoc. rewrite !app_length in *. cbn [length app]. rewrite ?app_length. lia.
Qed.
Lemma hops_balanced : forall es l, Forall2 (fun e p => rel_reads (PR e) (fst p) /\ node_reads (PN e) (snd p)) es l -> balanced (hops_tokens l).
Proof.
  intros es l H. induction H as [|e [tr tn] es l [Hr Hn] Hl IH]; [apply balanced_nil|]. cbn [hops_tokens flat_map fst snd] in *. apply balanced_app; [|exact IH].
  apply balanced_app; [apply Hr|now apply (node_reads_balanced _ _ Hn)].
Qed.
End Hops.

(** Chains of nodes. *)
Definition chain_reads (P : cnode * list (crel * cnode) -> Prop) (long : bool) (ts : list token) : Prop :=
  (exists b, ts = Mark "(" :: b /\ (long = true -> forall r, pattern_ahead (b ++ r) = true)) /\ balanced ts /\ final ts
  /\ parses (fun f => a_chain (expr_at f 0)) (fun r => arrow r = false) P ts.
Lemma chain_reads_intro : forall I (PR : I -> crel -> Prop) (PN : I -> cnode -> Prop) P0 tn es l, node_reads P0 tn ->
  Forall2 (fun e p => rel_reads (PR e) (fst p) /\ node_reads (PN e) (snd p)) es l ->
  chain_reads (fun c => P0 (fst c) /\ Forall2 (fun v e => PR e (fst v) /\ PN e (snd v)) (snd c) es) (match l with [] => false | _ => true end) (tn ++ hops_tokens l).
Proof.
  intros I PR PN P0 tn es l Hn Hl. destruct (parses_hops PR PN es l Hl) as (N & vs & V & R). pose proof (node_reads_balanced _ _ Hn) as Bt.
  destruct Hn as (b & E & Bb & Ab & (N1 & x & Px & R1)). split; [|split; [|split]].
  - exists (b ++ [Mark ")"] ++ hops_tokens l). split; [rewrite E; cbn [app]; now rewrite <- app_assoc|]. intros Ll r. unfold pattern_ahead. rewrite <- !app_assoc. cbn [app]. rewrite Ab.
    destruct Hl as [|e [tr tn'] es l [Hr _] Hl]; [discriminate|]. cbn [hops_tokens flat_map fst snd]. rewrite <- !app_assoc. apply Hr.
  - apply balanced_app; [exact Bt|now apply (hops_balanced PR PN es)].
  - assert (Ft : final tn) by (rewrite E; apply final_cons, final_app; reflexivity). clear -Ft Hl. revert tn Ft.
    induction Hl as [|e [tr tn'] es l [Hr Hn'] Hl IH]; intros tn Ft; [cbn; now rewrite app_nil_r|]. cbn [hops_tokens flat_map fst snd] in *. fold (hops_tokens l).
    apply final_app. rewrite <- app_assoc. apply final_app. apply IH. destruct Hn' as (b & -> & _). apply final_cons, final_app. reflexivity.
  - exists (N + N1), (x, vs). split; [auto|]. intros f rest L A. unfold a_chain. rewrite <- app_assoc. rewrite (R1 f) by (lia || exact Logic.I). cbn [bind].
    rewrite (R f _ rest) by (auto; try lia; eapply hops_length; exact Hl). reflexivity.
Qed.
Lemma chain_weaken : forall (P Q : cnode * list (crel * cnode) -> Prop) long ts, (forall c, P c -> Q c) -> chain_reads P long ts -> chain_reads Q long ts.
Proof. intros P Q long ts H (A & B & F & R). split; [exact A|]. split; [exact B|]. split; [exact F|]. eapply parses_weaken; [exact H| |exact R]. auto. Qed.

(** A pattern with a relationship, as an expression. *)
Lemma reads_pattern_if : forall P ts, chain_reads P true ts -> reads_if (fun r => arrow r = false) 10 (fun t => exists c, t = XPattern (fst c) (snd c) /\ P c) ts.
Proof.
  intros P ts ((b & E & A) & B & F & (N & c & Pc & R)). apply (reads_atom _ _ _ (XPattern (fst c) (snd c)) (S N)); auto.
  - subst ts. split; reflexivity.
  - eauto.
  - intros [|f] rest L _ Ar. { lia. } subst ts. cbn [app atom]. change (String.eqb "(" "$") with false. change (String.eqb "(" "*") with false.
    change (String.eqb "(" "[") with false. change (String.eqb "(" "{") with false. change (String.eqb "(" "(") with true. cbv iota.
    rewrite A by reflexivity. specialize (R f rest ltac:(lia) Ar). cbn [app] in R. rewrite R. reflexivity.
Qed.
Lemma reads_pattern : forall P ts, chain_reads P true ts -> reads 4 (fun t => exists c, t = XPattern (fst c) (snd c) /\ P c) ts.
Proof.
  intros P ts H. apply (reads_always (fun r => arrow r = false)); [intros rest A; now apply (follows_arrow 4)|].
  apply (climb _ 4 10); [lia|lia|]. now apply reads_pattern_if.
Qed.

(** ** Parts of patterns *)

Definition part_reads (P : cpart -> Prop) (ts : list token) : Prop :=
  balanced ts /\ parses (fun f => a_part (expr_at f 0)) halts P ts.
Lemma part_of_chain : forall (P : cnode * list (crel * cnode) -> Prop) long ts path, chain_reads P long ts ->
  parses (fun f => a_part_of (expr_at f 0) path) halts (fun p => exists c, p = CPart path None (fst c) (snd c) /\ P c) ts.
Proof.
  intros P long ts path ((b & E & _) & B & F & (N & c & Pc & R)). exists N, (CPart path None (fst c) (snd c)). split; [eauto|]. intros f rest L Hr.
  specialize (R f rest L (halts_arrow _ Hr)). subst ts. cbn [app] in *. unfold a_part_of. rewrite R. reflexivity.
Qed.
Lemma part_reads_chain : forall (P : cnode * list (crel * cnode) -> Prop) long ts, chain_reads P long ts ->
  part_reads (fun p => exists c, p = CPart None None (fst c) (snd c) /\ P c) ts.
Proof.
  intros P long ts H. split; [apply H|]. destruct (part_of_chain P long ts None H) as (N & v & Pv & R). destruct H as ((b & E & _) & _). exists N, v. split; [exact Pv|].
  intros f rest L Hr. specialize (R f rest L Hr). subst ts. exact R.
Qed.
Lemma part_reads_path : forall (P : cnode * list (crel * cnode) -> Prop) long ts x v, a_word x v -> chain_reads P long ts ->
  part_reads (fun p => exists c, p = CPart (Some x) None (fst c) (snd c) /\ P c) (v ++ Mark "=" :: ts).
Proof.
  intros P long ts x v V H. split; [apply balanced_app; [now apply (a_word_balanced x)|apply balanced_cons; try reflexivity; apply H]|].
  destruct (part_of_chain P long ts (Some x) H) as (N & c & Pc & R). exists N, c. split; [exact Pc|]. intros f rest L Hr. rewrite <- app_assoc.
  destruct V as [-> | ->]; cbn [app]; unfold a_part; change (String.eqb "=" "=") with true; cbv iota; now apply R.
Qed.
Lemma part_reads_shortest : forall (P : cnode * list (crel * cnode) -> Prop) long ts x v w, a_word x v ->
  one_of ["SHORTESTPATH"; "ALLSHORTESTPATHS"] w = true -> chain_reads P long ts ->
  part_reads (fun p => exists c, p = CPart (Some x) (Some w) (fst c) (snd c) /\ P c) (v ++ Mark "=" :: Word w :: Mark "(" :: ts ++ [Mark ")"]).
Proof.
  intros P long ts x v w V W H.
  split; [apply balanced_app; [now apply (a_word_balanced x)|do 2 (apply balanced_cons; try reflexivity); apply balanced_in; try reflexivity; apply H]|].
  destruct H as (_ & B & F & (N & c & Pc & R)). exists N, (CPart (Some x) (Some w) (fst c) (snd c)). split; [eauto|]. intros f rest L Hr. rewrite <- app_assoc.
  assert (G : a_part_of (expr_at f 0) (Some x) (Word w :: Mark "(" :: (ts ++ [Mark ")"]) ++ rest) = Some (CPart (Some x) (Some w) (fst c) (snd c), rest)).
  { unfold a_part_of. change (String.eqb "(" "(") with true. rewrite W. cbn [andb]. rewrite <- app_assoc. rewrite (R f) by (lia || reflexivity). reflexivity. }
  destruct V as [-> | ->]; cbn [app]; unfold a_part; change (String.eqb "=" "=") with true; cbv iota; exact G.
Qed.
Definition parts_read (P : list cpart -> Prop) (ts : list token) : Prop :=
  balanced ts /\ parses (fun f => items (a_part (expr_at f 0))) (fun r => halts r /\ is_mark "," r = None) P ts.
Lemma parts_read_intro : forall I (Q : I -> cpart -> Prop) es tss, es <> [] -> Forall2 (fun e ts => part_reads (Q e) ts) es tss ->
  parts_read (fun vs => Forall2 (fun v e => Q e v) vs es) (joined tss).
Proof.
  intros I Q es tss NE H. split.
  - apply joined_balanced. clear NE. induction H as [|e ts es tss He Hl IH]; constructor; [apply He|exact IH].
  - apply (parses_items I cpart (fun f => a_part (expr_at f 0)) halts Q es tss NE); [reflexivity|]. clear NE. induction H as [|e ts es tss He Hl IH]; constructor; [apply He|exact IH].
Qed.

Lemma reads_exists : forall (P : list cpart -> Prop) (W : option cx -> Prop) (o : bool) ps w, parts_read P ps -> after_part "WHERE" W w ->
  reads 10 (fun t => exists a b, t = XExists o a b /\ P a /\ W b)
    (Word "EXISTS" :: Mark "{" :: ((if o then [Word "OPTIONAL"; Word "MATCH"] else [Word "MATCH"]) ++ ps ++ w) ++ [Mark "}"]).
Proof.
  intros P W o ps w (Bp & (N & a & Pa & R)) Hw. destruct (parses_after "WHERE" _ _ eq_refl Hw) as (N2 & b & Wb & R2).
  apply (reads_atom _ _ _ (XExists o a b) (S (N + N2))).
  - apply balanced_cons; try reflexivity. apply balanced_in; try reflexivity. apply balanced_app; [destruct o; intros d; reflexivity|].
    apply balanced_app; [exact Bp|now apply (after_part_balanced _ _ _ Hw)].
  - apply final_cons, final_cons, final_app. reflexivity.
  - split; [reflexivity|]. intros _. reflexivity.
  - eauto.
  - intros [|f] rest L _ _; [lia|]. cbn [app atom]. change (one_of ["CASE"] "EXISTS") with false. change (String.eqb "{" "(") with false. change (String.eqb "{" "{") with true.
    change (one_of ["EXISTS"] "EXISTS") with true. cbn [andb]. unfold an_exists.
    assert (G : bind (items (a_part (expr_at f 0)) ((ps ++ w) ++ Mark "}" :: rest)) (fun ps r => bind (maybe_after "WHERE" (expr_at f 0) r) (fun w r =>
          match is_mark "}" r with Some r => Some (XExists o ps w, r) | None => None end)) = Some (XExists o a b, rest)).
    { rewrite <- app_assoc. rewrite (R f); [|lia|].
      - cbn [bind]. rewrite (R2 f) by (lia || split; reflexivity). reflexivity.
      - split; [eapply after_part_halts; [exact Hw|reflexivity|reflexivity]|]. destruct Hw as [[-> _]|(x & -> & _)]; reflexivity. }
    destruct o; rewrite <- ?app_assoc in *; cbn [app] in *; exact G.
Qed.
