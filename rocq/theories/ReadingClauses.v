(** The tokens of a clause that can be read are read as that clause, and
    those of a statement as that statement. *)

From Coq Require Import Ascii String List ZArith Bool Lia.
From Verif Require Import GoStr Escape Num VTree SpecLex SpecNum SpecSpace SpecTokens EscapeProofs GoStrProofs TokenProofs TokenTexts
  Ast SpecDoc SpecPrint SpecShape PrintProofs TokenDocs SpecOutline SpecGrammar SpecReading GrammarDocs GrammarProofs GrammarLemmas GrammarParts GrammarPatterns
  GrammarClauses ReadingProofs.
Import ListNotations.
Open Scope string_scope.
Open Scope list_scope.
Open Scope nat_scope.

Section Reading.
Context (E : env) (NS : no_space_in_names E) (A : register).
Context (AN : forall k a, A k a -> variable a) (SP : shared_parts E (fun k => exists a, A k a)).

Notation writes := (writes E A).
Notation agrees := (agrees E A).
Notation readable := (readable E A).
Notation unaliased := (unaliased A).

Ltac text H := cbn [GrammarDocs.writes] in H; vm_compute in H; injection H as H; subst.
Ltac piece W t Hv := let y := fresh "y" in apply cat_inv in W; destruct W as (t & y & -> & Hv & W).
Ltac catnil W := apply nil_inv in W; subst.
Ltac plain W := apply not_aliased in W; [|assumption].

Lemma expr_back : forall n e ts, n <= 10 -> readable (At n) e -> writes (print E e) ts -> reads n (fun t => agrees t e) ts.
Proof. intros n e ts L R W. exact (written_back E NS A AN SP e (At n) ts R W L). Qed.
Lemma exprs_back : forall n es tss, n <= 10 -> Forall (readable (At n)) es -> Forall2 (fun e ts => writes (print E e) ts) es tss ->
  Forall2 (fun e ts => reads n (fun t => agrees t e) ts) es tss.
Proof. intros n es tss L R F. induction F; constructor; inversion R; subst; auto. now apply expr_back. Qed.
Lemma where_back : forall w ts, Forall (readable WhereP) (opt_list w) -> writes (Cat (maybe (option_map (print E) w))) ts ->
  after_part "WHERE" (fun o => agrees_where E A o w) ts.
Proof.
  intros w ts R W. apply where_option; auto. apply Forall_forall. intros e _ c t. now apply written_back.
Qed.
Lemma pattern_back : forall p ts, readable PartsP p -> writes (print E p) ts ->
  parts_read (fun l => exists k ps, p = EPattern k ps /\ Forall2 (agrees_part E A) l ps) ts.
Proof. intros p ts R W. exact (written_back E NS A AN SP p PartsP ts R W). Qed.
Lemma silent_not : forall c e, readable c e -> silent e = false.
Proof. intros c e. exact (not_silent E A c e). Qed.

(** ** Items *)

Definition item_read (e : expr) (ts : list token) : Prop :=
  parses (fun f => an_item (expr_at f 0)) item_follows (fun i => agrees_item E A i e) ts /\ forall r, is_word "DISTINCT" (ts ++ r) = None.
Lemma a_word_same : forall a b ts, a_word a ts -> a_word b ts -> a = b.
Proof. intros a b ts [-> | ->] [H|H]; congruence. Qed.
Lemma item_back : forall e ts, readable_item E A e -> writes (print E e) ts -> item_read e ts.
Proof.
  intros e ts R W. inversion R as [e' Re|k dk e' a U Hv Re]; subst.
  - pose proof (expr_back 0 e ts ltac:(lia) Re W) as G. split; [|intros r; eapply begins_no_word; [cbn; auto|apply G]].
    eapply parses_weaken; [| |exact (parses_item_plain _ ts G)]; [|auto]. intros i (t & -> & H). now apply ai_plain.
  - cbn [print] in W. plain W. cbn [GrammarDocs.writes] in W. destruct W as [(x & y & T & W & ->)|[T (b & [Ab Rb] & Tb)]].
    + pose proof (expr_back 0 e' x ltac:(lia) Re W) as G. apply (name_written E NS) in T; [|apply Hv]. split.
      * eapply parses_weaken; [| |exact (parses_item_alias _ x a y G T)]; [|auto]. intros i (t & -> & H). now apply ai_alias.
      * intros r. rewrite <- app_assoc. eapply begins_no_word; [cbn; auto|apply G].
    + apply (name_written E NS) in T; [|apply Hv]. pose proof (AN _ _ Ab) as Vb. apply (name_written E NS) in Tb; [|apply Vb].
      rewrite <- (a_word_same a b ts T Tb) in Ab. pose proof (reads_var a ts Hv T) as G. apply (climb _ 0 10) in G; [|lia|lia].
      split; [|intros r; eapply begins_no_word; [cbn; auto|apply G]].
      eapply parses_weaken; [| |exact (parses_item_plain _ ts G)]; [|auto]. intros i (t & -> & ->). now apply ai_again.
Qed.
Lemma item_heard : forall es, Forall (readable_item E A) es -> Forall (fun e => silent e = false) es.
Proof. intros es. apply Forall_impl. intros e R. inversion R; subst; [now apply (silent_not (At 0))|reflexivity]. Qed.
Lemma items_back : forall es ts, Forall (readable_item E A) es -> writes (listing (print E) es) ts ->
  exists tss, ts = joined tss /\ Forall2 item_read es tss.
Proof.
  intros es ts R W. apply listing_written in W; [|now apply item_heard]. destruct W as (tss & F & ->). exists tss. split; [reflexivity|].
  induction F; constructor; inversion R; subst; auto. now apply item_back.
Qed.
Lemma items_parse : forall es tss, Forall2 item_read es tss ->
  Forall2 (fun e ts => parses (fun f => an_item (expr_at f 0)) item_follows (fun i => agrees_item E A i e) ts) es tss.
Proof. intros es tss F. induction F as [|e ts es tss [H _] F IH]; constructor; auto. Qed.

(** ** Bodies *)

Lemma sort_back : forall e ts, readable_sort E A e -> writes (print E e) ts ->
  parses (fun f => a_sort (expr_at f 0)) sort_follows (fun s => agrees_sort E A s e) ts.
Proof.
  intros e ts R W. inversion R as [k e' d U Re]; subst. cbn [print] in W. plain W. piece W x Hv. pose proof (expr_back 0 e' x ltac:(lia) Re Hv) as G.
  assert (Y : y = sort_tokens d).
  { destruct d as [[|]|]; [| |now catnil W]; piece W z Hz; catnil W; (apply not_aliased in Hz; [|apply (none_unaliased E A SP)]); text Hz; reflexivity. }
  subst y. eapply parses_weaken; [| |exact (parses_sort _ x d G)]; [|auto]. intros s (t & -> & H). now constructor.
Qed.
Lemma order_back : forall o ts,
  Forall (fun o => exists k es, o = EOrder k es /\ unaliased k /\ es <> [] /\ Forall (readable_sort E A) es) (opt_list o) ->
  writes (Cat (maybe (option_map (print E) o))) ts -> order_part (fun l => agrees_order E A l o) ts.
Proof.
  intros [o|] ts R W; cbn [option_map maybe opt_list] in *; [|catnil W; left; split; [reflexivity|constructor]].
  piece W x Hv. catnil W. rewrite app_nil_r. inversion R as [|? ? (k & es & -> & U & NE & Re) _]; subst. cbn [print] in Hv. plain Hv. piece Hv t Ht. text Ht. piece Hv t Ht. catnil Hv. rewrite app_nil_r.
  right. exists t. split; [reflexivity|]. apply listing_written in Ht.
  2: { eapply Forall_impl; [|exact Re]. intros e H. inversion H; reflexivity. }
  destruct Ht as (tss & F & ->). assert (G : Forall2 (fun e ts => parses (fun f => a_sort (expr_at f 0)) sort_follows (fun s => agrees_sort E A s e) ts) es tss).
  { clear NE R. induction F; constructor; inversion Re; subst; auto. now apply sort_back. }
  eapply parses_weaken; [| |exact (parses_items _ _ (fun f => a_sort (expr_at f 0)) sort_follows _ es tss NE ltac:(intros r; split; [reflexivity|]; reflexivity) G)]; [|auto].
  intros l H. constructor. exact H.
Qed.
Lemma skip_back : forall s ts, Forall (fun s => exists k e, s = ESkip k e /\ unaliased k /\ readable (At 0) e) (opt_list s) ->
  writes (Cat (maybe (option_map (print E) s))) ts -> after_part "SKIP" (fun l => agrees_skip E A l s) ts.
Proof.
  intros [s|] ts R W; cbn [option_map maybe opt_list] in *; [|catnil W; left; split; [reflexivity|constructor]].
  piece W x Hv. catnil W. rewrite app_nil_r. inversion R as [|? ? (k & e & -> & U & Re) _]; subst. cbn [print] in Hv. plain Hv. piece Hv t Ht. text Ht. piece Hv t Ht. catnil Hv. rewrite app_nil_r.
  right. exists t. split; [reflexivity|]. eapply reads_weaken; [|exact (expr_back 0 e t ltac:(lia) Re Ht)]. intros u H. now constructor.
Qed.
Lemma limit_back : forall s ts, Forall (fun s => exists k e, s = ELimit k e /\ unaliased k /\ readable (At 0) e) (opt_list s) ->
  writes (Cat (maybe (option_map (print E) s))) ts -> after_part "LIMIT" (fun l => agrees_limit E A l s) ts.
Proof.
  intros [s|] ts R W; cbn [option_map maybe opt_list] in *; [|catnil W; left; split; [reflexivity|constructor]].
  piece W x Hv. catnil W. rewrite app_nil_r. inversion R as [|? ? (k & e & -> & U & Re) _]; subst. cbn [print] in Hv. plain Hv. piece Hv t Ht. text Ht. piece Hv t Ht. catnil Hv. rewrite app_nil_r.
  right. exists t. split; [reflexivity|]. eapply reads_weaken; [|exact (expr_back 0 e t ltac:(lia) Re Ht)]. intros u H. now constructor.
Qed.
Lemma body_back : forall d b ts, readable_body E A b -> writes (print_body E d b) ts -> body_reads (fun c => agrees_body E A c d b) ts.
Proof.
  intros d [it o s n] ts ((k & es & Eb & U & NE & Ri) & Ro & Rs & Rn) W. cbn [b_items b_order b_skip b_limit] in *. subst it. unfold print_body in W. cbn [b_items b_order b_skip b_limit] in W.
  apply writes_app in W. destruct W as (td & y1 & -> & Wd & W). piece W ti Wi. apply writes_app in W. destruct W as (to & y2 & -> & Wo & W).
  apply writes_app in W. destruct W as (ts & tn & -> & Ws & Wn). cbn [print] in Wi. plain Wi. apply items_back in Wi; [|exact Ri]. destruct Wi as (tss & -> & Fi).
  assert (Td : td = if d then [Word "DISTINCT"] else []).
  { destruct d; [|now catnil Wd]. piece Wd x Hv. catnil Wd. apply not_aliased in Hv; [|apply (distinct_unaliased E A SP)]. text Hv. reflexivity. }
  subst td. pose proof (order_back o to Ro Wo) as PO. pose proof (skip_back s ts Rs Ws) as PS. pose proof (limit_back n tn Rn Wn) as PL.
  pose proof (fun ND => parses_body _ (fun e i => agrees_item E A i e) d es tss _ to _ _ ts tn NE (items_parse es tss Fi) ND PO PS PL) as G. unfold body_reads.
  eapply parses_weaken; [| |apply G]; [|auto|].
  - intros c (l & ol & sl & nl & -> & H1 & H2 & H3 & H4). now constructor.
  - intros r. destruct Fi as [|e t es tss [_ D] Fi]; [congruence|]. cbn [joined]. rewrite <- app_assoc. apply D.
Qed.

(** ** SET and REMOVE *)

Lemma labels_back : forall kl ls ts, unaliased kl -> labels_ok A ls -> writes (print E (ELabels kl ls)) ts -> ts = labels_tokens (map snd ls).
Proof. intros kl ls ts U L W. cbn [print] in W. plain W. now apply labels_written in W. Qed.
Lemma set_back : forall e ts, readable_set E A e -> writes (print E e) ts ->
  parses (fun f => a_set (expr_at f 0) (expr_at f 10)) set_follows (fun s => agrees_set E A s e) ts.
Proof.
  intros e ts R W. inversion R as [k l r U Rl Rr|k l r U Rl Rr|k l ol kl ls LA U Ul Rl NE LO]; subst; try (assert (IP : in_parens ol = false) by (destruct LA; subst; reflexivity); cbn [print] in W; rewrite IP in W); cbn [print in_parens] in W; plain W; piece W x Vx; piece W o Vo; piece W z Vz; catnil W; rewrite app_nil_r;
    apply (op_written E A SP) in Vo; try (destruct LA; subst ol); vm_compute in Vo; injection Vo as Vo; subst o; pose proof (expr_back 10 l x ltac:(lia) Rl Vx) as G; cbn [app].
  - pose proof (expr_back 0 r z ltac:(lia) Rr Vz) as G2. eapply parses_weaken; [| |exact (parses_assign _ _ x z G G2)]; [|auto]. intros s (t & u & -> & H1 & H2). now constructor.
  - pose proof (expr_back 0 r z ltac:(lia) Rr Vz) as G2. eapply parses_weaken; [| |exact (parses_mutate _ _ x z G G2)]; [|auto]. intros s (t & u & -> & H1 & H2). now constructor.
  - apply labels_back in Vz; auto. subst z. eapply parses_weaken; [| |exact (parses_label_set _ x (map snd ls) ltac:(destruct ls; [congruence|discriminate]) G)]; [|auto].
    intros s (t & -> & H). constructor; [now left|exact H].
  - apply labels_back in Vz; auto. subst z. eapply parses_weaken; [| |exact (parses_label_set _ x (map snd ls) ltac:(destruct ls; [congruence|discriminate]) G)]; [|auto].
    intros s (t & -> & H). constructor; [now right|exact H].
Qed.
Lemma removal_back : forall e ts, readable_removal E A e -> writes (print E e) ts -> parses (fun f => expr_at f 10) operand_follows (fun t => agrees_removal E A t e) ts.
Proof.
  intros e ts R W. inversion R as [e' Re|k l ol kl ls LA U Ul Rl NE LO]; subst.
  - eapply parses_weaken; [| |exact (parses_operand _ ts (expr_back 10 e ts ltac:(lia) Re W))]; [|auto]. intros t H. now apply ar_plain.
  - assert (IP : in_parens ol = false) by (destruct LA; subst; reflexivity). cbn [print] in W. rewrite IP in W. plain W. piece W x Vx. piece W o Vo. piece W z Vz. catnil W. rewrite app_nil_r. apply (op_written E A SP) in Vo.
    assert (Vo' : o = []) by (destruct LA; subst ol; vm_compute in Vo; congruence). subst o. cbn [app].
    apply labels_back in Vz; auto. subst z.
    eapply parses_weaken; [| |exact (parses_labelled _ x (map snd ls) ltac:(destruct ls; [congruence|discriminate]) (expr_back 10 l x ltac:(lia) Rl Vx))]; [|auto].
    intros s (t & -> & H). now apply ar_labels.
Qed.
Lemma sets_back : forall es ts, Forall (readable_set E A) es -> writes (listing (print E) es) ts ->
  exists tss, ts = joined tss /\ Forall2 (fun e ts => parses (fun f => a_set (expr_at f 0) (expr_at f 10)) set_follows (fun s => agrees_set E A s e) ts) es tss.
Proof.
  intros es ts R W. apply listing_written in W.
  2: { eapply Forall_impl; [|exact R]. intros e H. inversion H; reflexivity. }
  destruct W as (tss & F & ->). exists tss. split; [reflexivity|]. induction F; constructor; inversion R; subst; auto. now apply set_back.
Qed.

Definition on_create (q : query) : bool := match q with QAction _ c _ => c | _ => false end.
Lemma action_back : forall q ts, readable_action E A q -> writes (print_query E q) ts ->
  exists p, ts = action_tokens p /\ fst p = on_create q
    /\ parses (fun f => items (a_set (expr_at f 0) (expr_at f 10))) (led ("ON" :: "UNION" :: firsts)) (fun l => agrees_action E A (on_create q, l) q) (snd p).
Proof.
  intros q ts (k & c & ks & ke & es & -> & U & Us & Ue & NE & R) W. cbn [print_query on_create] in *. plain W. piece W x Vx. piece W z Vz. catnil W. rewrite app_nil_r.
  plain Vz. piece Vz s Vs. piece Vz w Vw. piece Vz b Vb. catnil Vz. rewrite app_nil_r. text Vs. text Vb. rewrite app_nil_r. cbn [print] in Vw. plain Vw. apply sets_back in Vw; [|exact R].
  destruct Vw as (tss & -> & F). exists (c, joined tss). split; [destruct c; text Vx; reflexivity|]. split; [reflexivity|]. cbn [snd].
  eapply parses_weaken; [| |exact (parses_sets _ _ es tss NE F)]; [|auto]. intros l H. constructor. exact H.
Qed.
Lemma actions_back : forall qs ts, Forall (readable_action E A) qs -> writes (Cat (map (print_query E) qs)) ts ->
  exists l, ts = flat_map action_tokens l
    /\ Forall2 (fun q p => fst p = on_create q /\ parses (fun f => items (a_set (expr_at f 0) (expr_at f 10))) (led ("ON" :: "UNION" :: firsts)) (fun v => agrees_action E A (on_create q, v) q) (snd p)) qs l.
Proof.
  intros qs ts R. revert ts. induction R as [|q qs Rq R IH]; intros ts W; cbn [map] in W; [catnil W; exists []; split; [reflexivity|constructor]|].
  piece W x Hv. destruct (action_back q x Rq Hv) as (p & -> & H). destruct (IH y W) as (l & -> & F). exists (p :: l). split; [reflexivity|]. now constructor.
Qed.

(** ** CALL *)

Lemma args_back : forall a ts, Forall (fun e => exists ka es, e = EArgs ka es /\ unaliased ka /\ Forall (readable (At 0)) es) (opt_list a) ->
  writes (Cat (maybe (option_map (print E) a))) ts -> args_part (fun l => agrees_args E A l a) ts.
Proof.
  intros [a|] ts R W; cbn [option_map maybe opt_list] in *; [|catnil W; left; split; [reflexivity|constructor]].
  piece W x Hv. catnil W. rewrite app_nil_r. inversion R as [|? ? (k & es & -> & U & Re) _]; subst. cbn [print] in Hv. plain Hv. piece Hv o Ho. text Ho. piece Hv t Ht. piece Hv c C. catnil Hv. text C. rewrite app_nil_r.
  right. exists (t ++ [Mark ")"]). split; [reflexivity|]. apply listing_written in Ht.
  2: { eapply Forall_impl; [|exact Re]. intros e H. now apply (silent_not (At 0)). }
  destruct Ht as (tss & F & ->). pose proof (exprs_back 0 es tss ltac:(lia) Re F) as G. destruct (reads_all_ex _ es tss G) as (G1 & _ & G3).
  eapply parses_weaken; [| |exact (parses_until _ _ (fun f => expr_at f 0) _ es tss ")" ltac:(cbn; auto) G1 (G3 ")" ltac:(cbn; auto)))]; [|auto].
  intros l H. constructor. exact H.
Qed.
Lemma yield_back : forall a ts, Forall (fun e => exists ky es, e = EYield ky es /\ unaliased ky /\ es <> [] /\ Forall (readable_item E A) es) (opt_list a) ->
  writes (Cat (maybe (option_map (print E) a))) ts -> yield_part (fun l => agrees_yield E A l a) ts.
Proof.
  intros [a|] ts R W; cbn [option_map maybe opt_list] in *; [|catnil W; left; split; [reflexivity|constructor]].
  piece W x Hv. catnil W. rewrite app_nil_r. inversion R as [|? ? (k & es & -> & U & NE & Re) _]; subst. cbn [print] in Hv. plain Hv. piece Hv o Ho. text Ho. piece Hv t Ht. catnil Hv. rewrite app_nil_r.
  right. exists t. split; [reflexivity|]. apply items_back in Ht; [|exact Re]. destruct Ht as (tss & -> & F).
  eapply parses_weaken; [| |exact (parses_items _ _ (fun f => an_item (expr_at f 0)) item_follows _ es tss NE ltac:(intros r; split; reflexivity) (items_parse es tss F))]; [|auto].
  intros l H. constructor. exact H.
Qed.

(** ** Clauses *)

Definition clause_back (q : query) : Prop := forall ts, readable_c E A q -> writes (print_query E q) ts -> clause_reads (fun c => agrees_c E A c q) ts.
Definition follows_on (ts : list token) : Prop := ts <> [] -> forall r, next (ts ++ r).
Definition clauses_back (q : query) : Prop := forall ts, readable_cs E A q -> writes (print_query E q) ts ->
  clauses_read (fun l => agrees_cs E A l q) ts /\ follows_on ts.
Definition query_back (q : query) : Prop := forall ts, readable_q E A q -> writes (print_query E q) ts -> query_reads (fun l us => agrees_q E A l us q) ts.
Definition backs (q : query) : Prop := clause_back q /\ clauses_back q /\ query_back q.

Lemma clause_weaken : forall (P Q : cclause -> Prop) ts, (forall c, P c -> Q c) -> clause_reads P ts -> clause_reads Q ts.
Proof. intros P Q ts H [B R]. split; [exact B|]. eapply parses_weaken; [exact H| |exact R]. auto. Qed.
Lemma query_weaken : forall (P Q : list cclause -> list (bool * list cclause) -> Prop) ts, (forall l us, P l us -> Q l us) -> query_reads P ts -> query_reads Q ts.
Proof. intros P Q ts H (N & l & us & Hl & R). exists N, l, us. auto. Qed.

Lemma one_query : forall q, clauses_back q -> (forall k r qs, q <> QUnion k r qs) -> query_back q.
Proof.
  intros q H N ts R W. inversion R as [q' Rc|k r qs]; subst; [|destruct (N k r qs eq_refl)]. destruct (H ts Rc W) as [C _].
  pose proof (query_intro unit (fun _ => false) (fun _ _ => True) _ ts [] [] C (Forall2_nil _)) as Q. cbn [flat_map] in Q. rewrite app_nil_r in Q.
  eapply query_weaken; [|exact Q]. intros l us [Hl Hu]. inversion Hu; subst. now constructor.
Qed.
Lemma clause_only : forall q, clause_back q -> (forall cs r, q <> QSingle cs r) -> (forall ps r, q <> QMulti ps r) -> (forall k r qs, q <> QUnion k r qs) ->
  (forall k kn sp n a y w, q <> QCall k kn sp n a y w) -> backs q.
Proof.
  intros q H N1 N2 N3 N4. assert (C : clauses_back q) by (intros ts R; inversion R; subst; exfalso; [eapply N1|eapply N2|eapply N4]; reflexivity).
  split; [exact H|]. split; [exact C|]. now apply one_query.
Qed.

Lemma list_back : forall qs ts, Forall clause_back qs -> Forall (readable_c E A) qs -> writes (Cat (map (print_query E) qs)) ts ->
  exists tss, ts = concat tss /\ Forall2 (fun q ts => clause_reads (fun c => agrees_c E A c q) ts) qs tss.
Proof.
  intros qs ts B R. revert ts. induction R as [|q qs Rq R IH]; intros ts W; cbn [map] in W; [catnil W; exists []; split; [reflexivity|constructor]|].
  inversion B; subst. piece W x Hv. destruct (IH ltac:(assumption) y W) as (tss & -> & F). exists (x :: tss). split; [reflexivity|]. constructor; auto.
Qed.
Lemma follows_on_nil : follows_on [].
Proof. intros H. congruence. Qed.

Ltac words W t Hv := piece W t Hv; text Hv.

Lemma match_back : forall k o p w, clause_back (QMatch k o p w).
Proof.
  intros k o p w ts R W. inversion R as [? ? ? ? U Rp Rw| | | | | | | | | | |]; subst. cbn [print_query] in W. plain W. cbn [app] in W. piece W x Hv. piece W tp Vp. apply writes_app in W. destruct W as (tw & z & -> & Ww & W).
  piece W b Vb. text Vb. catnil W. rewrite !app_nil_r. pose proof (match_reads o _ _ tp tw (pattern_back p tp Rp Vp) (where_back w tw Rw Ww)) as G.
  replace x with (if o then [Word "OPTIONAL"; Word "MATCH"] else [Word "MATCH"]) by (destruct o; text Hv; reflexivity).
  eapply clause_weaken; [|exact G]. intros c (l & t & -> & (kp & ps & -> & H1) & H2). now constructor.
Qed.
Lemma create_back : forall k p, clause_back (QCreate k p).
Proof.
  intros k p ts R W. inversion R as [|? ? U Rp| | | | | | | | | |]; subst. cbn [print_query] in W. plain W. words W x Hv. piece W tp Vp. words W b Vb. catnil W. rewrite !app_nil_r. cbn [app].
  eapply clause_weaken; [|exact (create_reads _ tp (pattern_back p tp Rp Vp))]. intros c (l & -> & (kp & ps & -> & H1)). now constructor.
Qed.
Lemma merge_back : forall k p evs, clause_back (QMerge k p evs).
Proof.
  intros k p evs ts R W. inversion R as [| |? ? U Rp|? ? kb es U Ub Rp Re| | | | | | | |]; subst; cbn [print_query map app] in W; plain W; words W x Hv; piece W tp Vp.
  - words W b Vb. catnil W. rewrite !app_nil_r. cbn [app]. pose proof (merge_reads unit (fun _ => false) (fun _ _ => True) _ tp [] [] (pattern_back p tp Rp Vp) (Forall2_nil _)) as G.
    cbn [flat_map] in G. rewrite app_nil_r in G. eapply clause_weaken; [|exact G]. intros c (vs & us & -> & (kp & ps & -> & H1) & H2). inversion H2; subst. constructor; [exact H1|constructor].
  - piece W b Vb. plain Vb. text Vb. apply writes_app in W. destruct W as (ta & z & -> & Wa & W). catnil W. rewrite app_nil_r. cbn [app]. destruct (actions_back es ta Re Wa) as (l & -> & F).
    eapply clause_weaken; [|exact (merge_reads _ on_create (fun q v => agrees_action E A (on_create q, v) q) _ tp es l (pattern_back p tp Rp Vp) F)].
    intros c (vs & us & -> & (kp & ps & -> & H1) & H2). constructor; [exact H1|]. constructor. clear -H2. induction H2 as [|v e us es [H3 H4] F IH]; constructor; [|exact IH].
    destruct v as [c l]. cbn [fst snd] in *. now subst c.
Qed.
Lemma delete_back : forall k d e, clause_back (QDelete k d e).
Proof.
  intros k d e ts R W. inversion R as [| | | |? ? ke es U Ue NE Re| | | | | | |]; subst. cbn [print_query] in W. plain W. piece W x Hv. piece W y0 Vy. words W b Vb. catnil W. rewrite !app_nil_r. cbn [print] in Vy. plain Vy.
  apply listing_written in Vy. 2: { eapply Forall_impl; [|exact Re]. intros e H. now apply (silent_not (At 0)). }
  destruct Vy as (tss & F & ->). pose proof (exprs_back 0 es tss ltac:(lia) Re F) as G. replace x with (if d then [Word "DETACH"; Word "DELETE"] else [Word "DELETE"]) by (destruct d; text Hv; reflexivity).
  eapply clause_weaken; [|exact (delete_reads _ _ d es tss NE G)]. intros c (l & -> & H). now constructor.
Qed.
Lemma set_clause_back : forall k e, clause_back (QSet k e).
Proof.
  intros k e ts R W. inversion R as [| | | | |? ke es U Ue NE Re| | | | | |]; subst. cbn [print_query] in W. plain W. words W x Hv. piece W y0 Vy. words W b Vb. catnil W. rewrite !app_nil_r. cbn [print app] in *. plain Vy.
  destruct (sets_back es y0 Re Vy) as (tss & -> & F). eapply clause_weaken; [|exact (set_reads _ _ es tss NE F)]. intros c (l & -> & H). now constructor.
Qed.
Lemma remove_back : forall k e, clause_back (QRemove k e).
Proof.
  intros k e ts R W. inversion R as [| | | | | |? ke es U Ue NE Re| | | | |]; subst. cbn [print_query] in W. plain W. words W x Hv. piece W y0 Vy. words W b Vb. catnil W. rewrite !app_nil_r. cbn [print app] in *. plain Vy.
  apply listing_written in Vy. 2: { eapply Forall_impl; [|exact Re]. intros e H. inversion H; subst; [now apply (silent_not (At 10))|reflexivity]. }
  destruct Vy as (tss & F & ->). assert (G : Forall2 (fun e ts => parses (fun f => expr_at f 10) operand_follows (fun t => agrees_removal E A t e) ts) es tss).
  { clear NE R. induction F; constructor; inversion Re; subst; auto. now apply removal_back. }
  eapply clause_weaken; [|exact (remove_reads _ _ es tss NE G)]. intros c (l & -> & H). now constructor.
Qed.
Lemma unwind_back : forall k e v, clause_back (QUnwind k e v).
Proof.
  intros k e v ts R W. inversion R as [| | | | | | |? ? ? U Re I| | | |]; subst. cbn [print_query] in W. plain W. words W x Hv. piece W y0 Vy. words W a Va. piece W n Vn. words W b Vb. catnil W. rewrite !app_nil_r. cbn [app] in *.
  cbn [GrammarDocs.writes] in Vn. apply (identifier_written E NS) in Vn; [|exact I]. subst n.
  eapply clause_weaken; [|exact (unwind_reads _ y0 v [Word v] (expr_back 0 e y0 ltac:(lia) Re Vy) (or_introl eq_refl))]. intros c (t & -> & H). now constructor.
Qed.
Lemma with_back : forall k d b w, clause_back (QWith k d b w).
Proof.
  intros k d b w ts R W. inversion R as [| | | | | | | |? ? ? ? U Rb Rw| | |]; subst. cbn [print_query app] in W. plain W. words W x Hv. piece W tb Vb. apply writes_app in W. destruct W as (tw & z & -> & Ww & W).
  words W y0 Vy. catnil W. rewrite !app_nil_r. cbn [app].
  eapply clause_weaken; [|exact (with_reads _ _ tb tw (body_back d b tb Rb Vb) (where_back w tw Rw Ww))]. intros c (v & t & -> & H1 & H2). now constructor.
Qed.
Lemma return_back : forall k d b, clause_back (QReturn k d b).
Proof.
  intros k d b ts R W. inversion R as [| | | | | | | | |? ? ? U Rb| |]; subst. cbn [print_query app] in W. plain W. words W x Hv. piece W tb Vb. catnil W. rewrite !app_nil_r. cbn [app].
  eapply clause_weaken; [|exact (return_reads _ tb (body_back d b tb Rb Vb))]. intros c (v & -> & H1). now constructor.
Qed.
Lemma call_back : forall k kn sp n a y w, clause_back (QCall k kn sp n a y w).
Proof.
  intros k kn sp n a y w ts R W. inversion R as [| | | | | | | | | |? ? ? ? ? ? ? U Un Us (l & NE & tx & tn & Tx & Tn & Sp) Ra Ry Rw|]; subst. cbn [print_query app] in W. plain W. words W x Hv. piece W t Vt.
  apply writes_app in W. destruct W as (ta & z & -> & Wa & W). apply writes_app in W. destruct W as (ty & z2 & -> & Wy & W). apply writes_app in W. destruct W as (tw & z3 & -> & Ww & W).
  words W b Vb. catnil W. rewrite !app_nil_r. plain Vt. apply writes_app in Vt. destruct Vt as (t1 & t2 & -> & V1 & V2). piece V2 t3 V3. catnil V2. rewrite app_nil_r. cbn [GrammarDocs.writes] in V3.
  assert (X1 : t1 = tx). { destruct sp as [[ks s]|]; [|catnil V1; vm_compute in Tx; congruence]. piece V1 t4 V4. catnil V1. rewrite app_nil_r. apply not_aliased in V4; [|exact (Us ks s eq_refl)]. cbn [GrammarDocs.writes] in V4. congruence. }
  assert (X2 : t3 = tn) by congruence. subst t1 t3. cbn [app]. rewrite <- Sp.
  eapply clause_weaken; [|exact (call_reads l _ ta _ ty _ tw NE (args_back a ta Ra Wa) (yield_back y ty Ry Wy) (where_back w tw Rw Ww))].
  intros c (al & yl & u & -> & H1 & H2 & H3). constructor; auto. split; [exact NE|]. exists tx, tn. auto.
Qed.
Lemma sub_back : forall k q, query_back q -> clause_back (QSubquery k q).
Proof.
  intros k q H ts R W. inversion R as [| | | | | | | | | | |? ? U Rq]; subst. cbn [print_query app] in W. plain W. words W x Hv. piece W tq Vq. words W b Vb. catnil W. cbn [app].
  eapply clause_weaken; [|exact (sub_reads _ tq (H tq Rq Vq))]. intros c (l & us & -> & H1). now constructor.
Qed.

Lemma clauses_weaken : forall (P Q : list cclause -> Prop) ts, (forall c, P c -> Q c) -> clauses_read P ts -> clauses_read Q ts.
Proof. intros P Q ts H R. eapply parses_weaken; [exact H| |exact R]. auto. Qed.
Lemma single_back : forall cs r, Forall backs cs -> (forall q, r = Some q -> backs q) -> clauses_back (QSingle cs r).
Proof.
  intros cs r B Br ts R W. inversion R as [? ? Rc| |]; subst. cbn [print_query] in W.
  assert (W' : writes (Cat (map (print_query E) (cs ++ match r with Some q => [q] | None => [] end))) ts) by (rewrite map_app; destruct r; exact W).
  assert (Bc : Forall clause_back (cs ++ match r with Some q => [q] | None => [] end)).
  { apply Forall_app. split; [eapply Forall_impl; [|exact B]; intros q H; apply H|]. destruct r as [q|]; constructor; [apply (Br q eq_refl)|constructor]. }
  destruct (list_back _ ts Bc Rc W') as (tss & -> & F).
  destruct (clauses_intro _ (fun q c => agrees_c E A c q) _ tss _ [] F clauses_none follows_on_nil) as [C N]. rewrite app_nil_r in *. split; [|exact N].
  eapply clauses_weaken; [|exact C]. intros l (l1 & l2 & -> & H & ->). rewrite app_nil_r. now constructor.
Qed.
Lemma multi_back : forall ps r, Forall (fun p : key * list query * query => Forall backs (snd (fst p)) /\ backs (snd p)) ps -> backs r -> clauses_back (QMulti ps r).
Proof.
  intros ps r B (_ & Br & _) ts R W. inversion R as [|? ? Rp Rr|]; subst. cbn [print_query] in W. apply writes_app in W. destruct W as (tp & z & -> & Wp & W). piece W tr Vr. catnil W. rewrite app_nil_r.
  destruct (Br tr Rr Vr) as [C N].
  assert (G : exists tss, tp = concat tss /\ Forall2 (fun q ts => clause_reads (fun c => agrees_c E A c q) ts) (flat_map (fun p => snd (fst p) ++ [snd p]) ps) tss).
  { clear C N R. revert tp Wp. induction Rp as [|[[k cs] q] ps [U Rc] Rp IH]; intros tp Wp; cbn [map flat_map] in *; [catnil Wp; exists []; split; [reflexivity|constructor]|].
    inversion B as [|? ? [Bc Bq] B']; subst. cbn [fst snd] in *. piece Wp x Hv. plain Hv. destruct (IH B' y Wp) as (tss & -> & F).
    assert (Hv' : writes (Cat (map (print_query E) (cs ++ [q]))) x) by (rewrite map_app; exact Hv).
    assert (B2 : Forall clause_back (cs ++ [q])).
    { apply Forall_app. split; [eapply Forall_impl; [|exact Bc]; intros c H; apply H|]. constructor; [apply Bq|constructor]. }
    destruct (list_back _ x B2 Rc Hv') as (tss1 & -> & F1).
    exists (tss1 ++ tss). split; [now rewrite concat_app|]. now apply Forall2_app. }
  destruct G as (tss & -> & F). destruct (clauses_intro _ (fun q c => agrees_c E A c q) _ tss _ tr F C N) as [C' N']. split; [|exact N'].
  eapply clauses_weaken; [|exact C']. intros l (l1 & l2 & -> & H1 & H2). now constructor.
Qed.
Lemma follows_no_all : forall ts r, follows_on ts -> led ["UNION"] r -> is_word "ALL" (ts ++ r) = None.
Proof.
  intros [|t ts] r H L; [eapply led_word; [|exact L]; reflexivity|]. eapply led_word; [|exact (H ltac:(discriminate) r)]. reflexivity.
Qed.
Lemma union_back : forall k q qs, backs q -> Forall (fun p : key * bool * query => backs (snd p)) qs -> query_back (QUnion k q qs).
Proof.
  intros k q qs (_ & Bq & _) B ts R W. inversion R as [? Rc|? ? ? U Rq Rs]; subst; [inversion Rc|]. cbn [print_query] in W. plain W. piece W tq Vq. destruct (Bq tq Rq Vq) as [C _].
  assert (G : exists l, y = flat_map union_tokens l
     /\ Forall2 (fun p t => fst t = snd (fst p) /\ clauses_read (fun l => agrees_cs E A l (snd p)) (snd t) /\ forall r, led ["UNION"] r -> is_word "ALL" (snd t ++ r) = None) qs l).
  { clear C R. revert y W. induction Rs as [|[[ku a] p] qs [Up Rp] Rs IH]; intros y W; cbn [map] in W; [catnil W; exists []; split; [reflexivity|constructor]|].
    inversion B as [|? ? (_ & Bp & _) B']; subst. cbn [fst snd] in *. piece W x Hv. destruct (IH B' y0 W) as (l & -> & F). plain Hv. piece Hv u Vu. piece Hv tp Vp. catnil Hv. rewrite app_nil_r.
    destruct (Bp tp Rp Vp) as [C N]. exists ((a, tp) :: l). split; [cbn [flat_map]; f_equal; unfold union_tokens; cbn [fst snd]; destruct a; text Vu; reflexivity|]. constructor; [|exact F].
    cbn [fst snd]. split; [reflexivity|]. split; [exact C|]. intros r L. now apply follows_no_all. }
  destruct G as (l & -> & F). eapply query_weaken; [|exact (query_intro _ (fun p : key * bool * query => snd (fst p)) (fun p l => agrees_cs E A l (snd p)) _ tq qs l C F)].
  intros c us [H1 H2]. now constructor.
Qed.

Lemma lone_call_back : forall k kn sp n a y w, backs (QCall k kn sp n a y w).
Proof.
  intros k kn sp n a y w. pose proof (call_back k kn sp n a y w) as H.
  assert (C : clauses_back (QCall k kn sp n a y w)).
  { intros ts R W. inversion R as [| |? ? ? ? ? ? ? Rc]; subst.
    destruct (clauses_intro _ (fun q c => agrees_c E A c q) [QCall k kn sp n a y w] [ts] _ [] ltac:(constructor; [exact (H ts Rc W)|constructor]) clauses_none follows_on_nil) as [C N].
    cbn [concat] in C, N. rewrite !app_nil_r in *. split; [|exact N]. eapply clauses_weaken; [|exact C]. intros l (l1 & l2 & -> & F & ->).
    inversion F as [|c ? ? ? Hc F']; subst. inversion F'; subst. cbn [app]. now constructor. }
  split; [exact H|]. split; [exact C|]. apply one_query; [exact C|congruence].
Qed.

Theorem backs_all : forall q, backs q.
Proof.
  apply query_ind'.
  - intros. apply clause_only; try congruence. apply match_back.
  - intros. apply clause_only; try congruence. apply create_back.
  - intros. apply clause_only; try congruence. apply merge_back.
  - intros. apply clause_only; try congruence. intros ts R. inversion R.
  - intros. apply clause_only; try congruence. intros ts R. inversion R.
  - intros. apply clause_only; try congruence. apply delete_back.
  - intros. apply clause_only; try congruence. apply set_clause_back.
  - intros. apply clause_only; try congruence. apply remove_back.
  - intros. apply clause_only; try congruence. apply unwind_back.
  - intros. apply clause_only; try congruence. apply with_back.
  - intros. apply clause_only; try congruence. apply return_back.
  - intros. apply lone_call_back.
  - intros k q (_ & _ & Q). apply clause_only; try congruence. now apply sub_back.
  - intros cs r B Br. assert (C : clauses_back (QSingle cs r)) by now apply single_back. split; [intros ts R; inversion R|]. split; [exact C|]. apply one_query; [exact C|congruence].
  - intros ps r B Br. assert (C : clauses_back (QMulti ps r)) by now apply multi_back. split; [intros ts R; inversion R|]. split; [exact C|]. apply one_query; [exact C|congruence].
  - intros k q qs B Bs. split; [intros ts R; inversion R|]. split; [intros ts R; inversion R|]. now apply union_back.
Qed.

Theorem statement_back : forall q ts, readable_q E A q -> writes (print_query E q) ts ->
  exists c n, agrees_statement E A c q /\ forall f, n <= f -> a_query f ts = Some (c, []).
Proof.
  intros q ts R W. destruct (proj2 (proj2 (backs_all q)) ts R W) as (N & l & us & H & G). exists (CQuery l us), N. split; [exact H|]. intros f L. unfold a_query.
  specialize (G f [] L Logic.I). rewrite app_nil_r in G. destruct (clauses f ts) as [[l' r]|]; [|discriminate]. cbn [bind] in *. destruct (unions f r) as [[us' r']|]; [|discriminate]. cbn [bind] in *.
  injection G as -> -> ->. reflexivity.
Qed.
End Reading.
