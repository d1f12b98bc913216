(** The tokens of an element that can be read are read as that element. *)

From Coq Require Import Ascii String List ZArith Bool Lia.
From Verif Require Import GoStr Escape Num VTree SpecLex SpecNum SpecSpace SpecTokens EscapeProofs GoStrProofs TokenProofs TokenTexts
  Ast SpecDoc SpecPrint SpecShape PrintProofs TokenDocs SpecOutline SpecGrammar SpecReading GrammarDocs GrammarProofs GrammarLemmas GrammarParts GrammarPatterns.
Import ListNotations.
Open Scope string_scope.
Open Scope list_scope.
Open Scope nat_scope.

Section Reading.
Context (E : env) (NS : no_space_in_names E) (A : register).
Context (AN : forall k a, A k a -> variable a) (SP : shared_parts E (fun k => exists a, A k a)).

Notation writes := (writes E A).
Notation agrees := (agrees E A).
Notation readable := (readable E A).

(** ** Documents *)

Lemma cat_inv : forall d l ts, writes (Cat (d :: l)) ts -> exists x y, ts = x ++ y /\ writes d x /\ writes (Cat l) y.
Proof. intros d l ts H. exact H. Qed.
Lemma nil_inv : forall ts, writes (Cat []) ts -> ts = [].
Proof. intros ts H. exact H. Qed.
Lemma not_aliased : forall k d ts, unaliased A k -> writes (Shared k d) ts -> writes d ts.
Proof. intros k d ts U [(a & [Ak _] & _)|H]; [destruct (U a Ak)|exact H]. Qed.
Lemma alias_or : forall k d ts, writes (Shared k d) ts -> (exists a, (A k a /\ again A k) /\ variable a /\ a_word a ts) \/ writes d ts.
Proof. intros k d ts [(a & Ak & T)|H]; [left|now right]. exists a. split; [exact Ak|]. pose proof (AN k a (proj1 Ak)) as V. split; [exact V|]. now apply (name_written E NS); [|apply V]. Qed.

Lemma op_unaliased : forall o, unaliased A (op_key E o).
Proof. intros o a H. apply (proj1 SP o). eauto. Qed.
Lemma none_unaliased : unaliased A "".
Proof. intros a H. apply (proj1 (proj2 SP)). eauto. Qed.
Lemma dot_unaliased : unaliased A (e_dotkey E).
Proof. intros a H. apply (proj1 (proj2 (proj2 SP))). eauto. Qed.
Lemma distinct_unaliased : unaliased A "DISTINCT_INSTANCE".
Proof. intros a H. apply (proj2 (proj2 (proj2 SP))). eauto. Qed.

Lemma op_written : forall o ts, writes (print_op E o) ts -> tokens E (op_word o) = Some ts.
Proof. intros o ts H. apply not_aliased in H; [exact H|apply op_unaliased]. Qed.
Lemma binop_written : forall o b ts, binop_of o = Some b -> writes (print_op E o) ts -> ts = op_tokens b.
Proof. intros o b ts B H. apply op_written in H. destruct o; try discriminate B; inversion B; subst; vm_compute in H; inversion H; reflexivity. Qed.

Lemma commas_split : forall ds ts, commas_after E A ds ts -> exists tss, Forall2 writes ds tss /\ ts = more_of tss.
Proof.
  induction ds as [|d ds IH]; intros ts H; cbn [commas_after] in H; [exists []; split; [constructor|exact H]|].
  destruct H as (x & y & -> & Hx & Hy). destruct (IH y Hy) as (tss & F & ->). exists (x :: tss). split; [now constructor|reflexivity].
Qed.
Lemma commas_joined : forall ds ts, writes (Commas ds) ts -> exists tss, Forall2 writes ds tss /\ ts = joined tss.
Proof.
  intros [|d ds] ts H; [exists []; split; [constructor|exact H]|]. apply writes_commas in H. destruct H as (x & y & -> & Hx & Hy).
  destruct (commas_split ds y Hy) as (tss & F & ->). exists (x :: tss). split; [now constructor|reflexivity].
Qed.
Lemma Forall2_map_l : forall X Y Z (f : X -> Y) (R : Y -> Z -> Prop) l l', Forall2 R (map f l) l' -> Forall2 (fun x z => R (f x) z) l l'.
Proof. intros X Y Z f R l. induction l as [|x l IH]; intros l' H; inversion H; subst; constructor; auto. Qed.
Lemma listing_written : forall es ts, Forall (fun e => silent e = false) es -> writes (listing (print E) es) ts ->
  exists tss, Forall2 (fun e ts => writes (print E e) ts) es tss /\ ts = joined tss.
Proof.
  intros es ts S H. unfold listing in H. replace (flat_map (fun e => if silent e then [] else [print E e]) es) with (map (print E) es) in H.
  2: { clear H. induction S as [|e es Se S IH]; [reflexivity|]. cbn [map flat_map]. rewrite Se. cbn [app]. now rewrite IH. }
  destruct (commas_joined _ _ H) as (tss & F & ->). exists tss. split; [now apply Forall2_map_l|reflexivity].
Qed.
Lemma literals_written : forall es ts, writes (literals (map (print E) es)) ts ->
  exists tss, Forall2 (fun e ts => writes (print E e) ts) es tss /\ ts = joined tss.
Proof.
  intros [|e es] ts H; cbn [map literals] in H.
  - exists []. split; [constructor|]. vm_compute in H. now inversion H.
  - apply cat_inv in H. destruct H as (x & y & -> & Hx & Hy).
    assert (G : exists tss, Forall2 (fun e ts => writes (print E e) ts) es tss /\ y = more_of tss).
    { clear Hx. revert y Hy. induction es as [|e2 es IH]; intros y Hy; [exists []; split; [constructor|exact Hy]|]. cbn [map flat_map app] in Hy.
      apply cat_inv in Hy. destruct Hy as (c & y1 & -> & Hc & Hy). apply cat_inv in Hy. destruct Hy as (z & y2 & -> & Hz & Hy).
      cbn [GrammarDocs.writes] in Hc. vm_compute in Hc. inversion Hc; subst c. destruct (IH y2 Hy) as (tss & F & ->). exists (z :: tss). split; [now constructor|reflexivity]. }
    destruct G as (tss & F & ->). exists (x :: tss). split; [now constructor|reflexivity].
Qed.
Lemma labels_written : forall ls ts, labels_ok A ls -> writes (Cat (map print_label ls)) ts -> ts = labels_tokens (map snd ls).
Proof.
  intros ls ts H. revert ts. induction H as [|l ls [U N] H IH]; intros ts W; [exact W|]. cbn [map] in W. apply cat_inv in W. destruct W as (x & y & -> & Wx & Wy).
  rewrite (IH y Wy). unfold print_label in Wx. apply not_aliased in Wx; [|exact U]. apply label_written in Wx; [|exact N]. subst x. reflexivity.
Qed.

Lemma not_silent : forall c e, readable c e -> silent e = false.
Proof.
  intros c e R. induction R; try reflexivity; try assumption. cbn [silent]. destruct cs; [congruence|reflexivity].
Qed.

(** ** What is to be shown *)

Definition meaning (c : place) (e : expr) (ts : list token) : Prop :=
  match c with
  | At n => n <= 10 -> reads n (fun t => agrees t e) ts
  | MapP => exists b, ts = Mark "{" :: b ++ [Mark "}"] /\ balanced b
              /\ parses (fun f => entries (expr_at f 0)) anything (fun l => agrees_map E A l e) (b ++ [Mark "}"])
  | EntryP => balanced ts /\ (forall r, is_mark "}" (ts ++ r) = None)
              /\ parses (fun f => entry (expr_at f 0)) halts (fun x => exists ke v, e = EEntry ke (fst x) v /\ agrees (snd x) v) ts
  | ProjectionP => balanced ts /\ (forall r, is_mark "}" (ts ++ r) = None)
              /\ parses (fun f => projection (expr_at f 0)) halts (fun p => agrees_proj E A p e) ts
  | PropsP => props_part (fun o => agrees_props E A o (Some e)) ts
  | NodeP => node_reads (fun c => agrees_node E A c e) ts
  | DetailsP => rel_reads (fun c => agrees_rel E A c e) ts
  | ChainP => chain_reads (fun c => agrees_chain E A (fst c) (snd c) e) (hopping e) ts
  | PartP => part_reads (fun p => agrees_part E A p e) ts
  | PartsP => parts_read (fun l => exists k ps, e = EPattern k ps /\ Forall2 (agrees_part E A) l ps) ts
  | WhereP => exists x, ts = Word "WHERE" :: x /\ reads 0 (fun t => agrees_where E A (Some t) (Some e)) x
  end.
Definition reads_back (e : expr) : Prop := forall c ts, readable c e -> writes (print E e) ts -> meaning c e ts.
Definition deep (e : expr) : Prop := reads_back e /\ Forall reads_back (children e).

Lemma alias_read : forall n e k d ts, n <= 10 -> key_of e = Some k -> writes (Shared k d) ts ->
  (writes d ts -> reads n (fun t => agrees t e) ts) -> reads n (fun t => agrees t e) ts.
Proof.
  intros n e k d ts L K W H. apply alias_or in W. destruct W as [(a & Ak & V & W)|W]; [|now apply H].
  apply (climb _ n 10); [exact L|lia|]. eapply reads_weaken; [|exact (reads_var a ts V W)]. intros t ->. destruct Ak; now apply (ag_alias E A e k a).
Qed.
Lemma all_written : forall c es tss, Forall reads_back es -> Forall (readable c) es ->
  Forall2 (fun e ts => writes (print E e) ts) es tss -> Forall2 (fun e ts => meaning c e ts) es tss.
Proof. intros c es tss B R W. induction W as [|e ts es tss W Ws IH]; [constructor|]. inversion B; inversion R; subst. constructor; auto. Qed.
Lemma all_not_silent : forall c es, Forall (readable c) es -> Forall (fun e => silent e = false) es.
Proof. intros c es. apply Forall_impl. intros e. apply not_silent. Qed.

Ltac text H := cbn [GrammarDocs.writes] in H; vm_compute in H; injection H as H; subst.
Ltac cat W := let x := fresh "x" in let y := fresh "y" in let H := fresh "W" in
  apply cat_inv in W; destruct W as (x & y & -> & H & W).
Ltac catnil W := apply nil_inv in W; subst.

Lemma below : forall e d, deep e -> In d (children e) -> reads_back d.
Proof. intros e d [_ H] I. rewrite Forall_forall in H. auto. Qed.

(** ** Maps, entries and projections *)

Lemma until_brace : forall I X (R : nat -> reader X) (Q : I -> X -> Prop) es tss,
  Forall2 (fun e ts => balanced ts /\ (forall r, is_mark "}" (ts ++ r) = None) /\ parses R halts (Q e) ts) es tss ->
  balanced (joined tss) /\ parses (fun f => items_until "}" (R f)) anything (fun vs => Forall2 (fun v e => Q e v) vs es) (joined tss ++ [Mark "}"]).
Proof.
  intros I X R Q es tss H. split.
  - apply joined_balanced. induction H as [|e ts es tss (B & _) Hl IH]; constructor; auto.
  - apply parses_until; [cbn; auto| |]; induction H as [|e ts es tss (B & M & P) Hl IH]; constructor; auto.
Qed.
Lemma map_read : forall k es ts, Forall reads_back es -> Forall (readable EntryP) es -> writes (Cat [Txt "{"; listing (print E) es; Txt "}"]) ts ->
  exists b, ts = Mark "{" :: b ++ [Mark "}"] /\ balanced b
              /\ parses (fun f => entries (expr_at f 0)) anything (fun l => agrees_map E A l (EMap k es)) (b ++ [Mark "}"]).
Proof.
  intros k es ts B R W. cat W. cat W. cat W. catnil W. text W0. text W2. apply listing_written in W1; [|eapply all_not_silent; exact R].
  destruct W1 as (tss & F & ->). pose proof (all_written _ _ _ B R F) as M. cbn [meaning] in M. destruct (until_brace _ _ _ _ _ _ M) as [Bj P].
  exists (joined tss). split; [reflexivity|]. split; [exact Bj|]. eapply parses_weaken; [| |exact P]; [|auto]. intros l H. constructor. exact H.
Qed.
Lemma maps_back : forall e ts, Forall deep (children e) -> readable MapP e -> writes (print E e) ts -> meaning MapP e ts.
Proof.
  intros e ts IH R W. inversion R; subst. cbn [print] in W. apply not_aliased in W; [|assumption]. apply map_read; auto.
  eapply Forall_impl; [|exact IH]. intros d H'. apply H'.
Qed.
Lemma entry_written : forall x v ts, blank x = false -> writes (Cat [Txt (escape_if_necessary E x); Txt ": "; print E v]) ts ->
  exists n u, ts = n ++ Mark ":" :: u /\ a_word x n /\ writes (print E v) u.
Proof.
  intros x v ts B W. cat W. cat W. cat W. catnil W. text W1. apply (name_written E NS) in W0; [|exact B]. exists x0, x2. rewrite app_nil_r. auto.
Qed.
Lemma a_word_no_brace : forall x n r, a_word x n -> is_mark "}" (n ++ r) = None.
Proof. intros x n r [-> | ->]; reflexivity. Qed.
Lemma entries_back : forall e ts, Forall deep (children e) -> readable EntryP e -> writes (print E e) ts -> meaning EntryP e ts.
Proof.
  intros e ts IH R W. inversion R; subst. cbn [print] in W. apply not_aliased in W; [|assumption]. apply entry_written in W; [|assumption].
  destruct W as (n & u & -> & N & W). inversion IH as [|? ? [D _] _]; subst. specialize (D (At 0) u ltac:(assumption) W). cbn [meaning] in D. specialize (D ltac:(lia)).
  split; [apply balanced_app; [now apply (a_word_balanced x)|apply balanced_cons; try reflexivity; apply D]|].
  split; [intros r; rewrite <- app_assoc; now apply (a_word_no_brace x)|]. eapply parses_weaken; [| |exact (parses_entry _ x n u N D)]; [|auto].
  intros [y z] [-> H2]. exists k, v. auto.
Qed.
Lemma projections_back : forall e ts, Forall deep (children e) -> readable ProjectionP e -> writes (print E e) ts -> meaning ProjectionP e ts.
Proof.
  intros e ts IH R W. inversion R; subst; cbn [print] in W.
  - apply not_aliased in W; [|assumption]. apply (lookup_written E NS) in W; [|assumption]. destruct W as [[N W]|[-> ->]].
    + assert (V : exists v, ts = Mark "." :: v /\ a_word x v) by (destruct W as [-> | ->]; eexists; (split; [reflexivity|]); [now left|now right]).
      destruct V as (v & -> & V). split; [apply balanced_cons; try reflexivity; now apply (a_word_balanced x)|]. split; [reflexivity|].
      eapply parses_weaken; [| |exact (parses_proj_prop x v V)]; [|auto]. intros p ->. now constructor.
    + split; [intros d; reflexivity|]. split; [reflexivity|]. eapply parses_weaken; [| |exact parses_proj_all]; [|auto]. intros p ->. constructor.
  - apply not_aliased in W; [|assumption]. apply entry_written in W; [|assumption].
    destruct W as (n & u & -> & N & W). inversion IH as [|? ? [D _] _]; subst. specialize (D (At 0) u ltac:(assumption) W). cbn [meaning] in D. specialize (D ltac:(lia)).
    split; [apply balanced_app; [now apply (a_word_balanced x)|apply balanced_cons; try reflexivity; apply D]|].
    split; [intros r; rewrite <- app_assoc; now apply (a_word_no_brace x)|]. eapply parses_weaken; [| |exact (parses_proj_entry _ x n u N D)]; [|auto].
    intros p (t & -> & H2). now constructor.
  - assert (G : exists y, a_word y ts /\ agrees (XVar y) (ESym k x)).
    { apply alias_or in W. destruct W as [(a & Ak & V & W)|W]; [exists a; split; [exact W|destruct Ak; now apply (ag_alias E A _ k a)]|].
      cbn [GrammarDocs.writes] in W. apply (resolved E NS) in W; [|match goal with V : variable x |- _ => apply V end]. exists x. split; [exact W|constructor]. }
    destruct G as (y & Y & G). split; [now apply (a_word_balanced y)|]. split; [intros r; now apply (a_word_no_brace y)|].
    eapply parses_weaken; [| |exact (parses_proj_var y ts Y)]; [|auto]. intros p ->. now constructor.
Qed.

(** ** Patterns *)

Lemma props_back : forall e ts, Forall deep (children e) -> readable PropsP e -> writes (print E e) ts -> meaning PropsP e ts.
Proof.
  intros e ts IH R W. inversion R; subst. cbn [print] in W. apply not_aliased in W; [|assumption]. cat W. cat W. catnil W. text W0.
  inversion IH as [|? ? [D _] _]; subst. specialize (D MapP x0 ltac:(assumption) W1). cbn [meaning] in D. destruct D as (b & -> & B & P). right. exists b.
  rewrite app_nil_r. cbn [app]. split; [reflexivity|]. split; [exact B|]. eapply parses_weaken; [| |exact P]; [|auto]. intros l H'. now constructor.
Qed.
Lemma props_option : forall ps ts, Forall reads_back (opt_list ps) -> Forall (readable PropsP) (opt_list ps) ->
  writes (Cat (maybe (option_map (print E) ps))) ts -> props_part (fun o => agrees_props E A o ps) ts.
Proof.
  intros [m|] ts B R W; cbn [option_map maybe opt_list] in *.
  - cat W. catnil W. rewrite app_nil_r. inversion B; inversion R; subst. match goal with H : reads_back m |- _ => exact (H PropsP x ltac:(assumption) W0) end.
  - catnil W. left. split; [reflexivity|constructor].
Qed.
Lemma children_back : forall l, Forall deep l -> Forall reads_back l.
Proof. intros l. apply Forall_impl. intros e H. apply H. Qed.

Lemma nodes_back : forall e ts, Forall deep (children e) -> readable NodeP e -> writes (print E e) ts -> meaning NodeP e ts.
Proof.
  intros e ts IH R W. inversion R as [| | | | | | | | | | | | | | | | | | | | | | | | | | | | | | | | | | | | | | | | | | | | k n ls ps U N L P HC HE| | | | | | | | |]; subst. cbn [print children] in *. apply children_back in IH.
  assert (G : forall x tn, name_part x tn -> named A x n -> forall y, writes (Cat (map print_label ls ++ maybe (option_map (print E) ps))) y ->
    node_reads (fun c => agrees_node E A c (ENode k n ls ps)) (Mark "(" :: (tn ++ y) ++ [Mark ")"])).
  { intros x tn Hn Nm y Wy. apply writes_app in Wy. destruct Wy as (u & v & -> & Wu & Wv). apply labels_written in Wu; [|exact L]. subst u.
    pose proof (node_reads_intro x tn (map snd ls) _ v Hn (props_option ps v IH P Wv)) as NR. unfold node_body in NR.
    destruct NR as (b & Eb & Bb & Ab & Pb). exists b. split; [exact Eb|]. split; [exact Bb|]. split; [exact Ab|].
    eapply parses_weaken; [| |exact Pb]; [|auto]. intros c (l & -> & H'). now constructor. }
  destruct n as [[kn x]|].
  - apply not_aliased in W; [|exact U]. specialize (N kn x eq_refl). cbn [GrammarDocs.writes] in W. destruct W as [(Rk & y & T & ->)|(y & W & ->)].
    + apply (identifier_written E NS) in T; [|exact N]. subst y.
      pose proof (node_reads_intro (Some x) [Word x] [] (fun o => o = None) [] (np_some x _ (or_introl eq_refl)) (or_introl (conj eq_refl eq_refl))) as NR.
      destruct NR as (b & Eb & Bb & Ab & Pb). exists b. split; [exact Eb|]. split; [exact Bb|]. split; [exact Ab|].
      eapply parses_weaken; [| |exact Pb]; [|auto]. intros c (l & -> & ->). now constructor.
    + cbn [app] in W. apply cat_inv in W. destruct W as (tn & z & -> & Wn & Wz).
      assert (B : blank x = false) by (now apply (identifier_not_blank E NS)).
      assert (Q : exists a, name_part (Some a) tn /\ named A (Some a) (Some (kn, x))).
      { apply alias_or in Wn. destruct Wn as [(a & Ak & V & Wn)|Wn]; [exists a; split; [now constructor|destruct Ak; now constructor]|].
        cbn [GrammarDocs.writes] in Wn. apply (resolved E NS) in Wn; [|exact B]. exists x. split; constructor. exact Wn. }
      destruct Q as (a & Q1 & Q2). exact (G (Some a) tn Q1 Q2 z Wz).
  - apply not_aliased in W; [|exact U]. cat W. cat W. cat W. catnil W. text W0. text W2. cbn [app] in *. exact (G None [] np_none (nm_none A) x0 W1).
Qed.

Lemma sym_written : forall kv x ts, variable x -> writes (print E (ESym kv x)) ts ->
  exists y, a_word y ts /\ variable y /\ agrees (XVar y) (ESym kv x).
Proof.
  intros kv x ts V W. cbn [print] in W. apply alias_or in W. destruct W as [(a & Ak & Va & W)|W].
  - exists a. split; [exact W|]. split; [exact Va|]. destruct Ak; now apply (ag_alias E A _ kv a).
  - cbn [GrammarDocs.writes] in W. apply (resolved E NS) in W; [|apply V]. exists x. split; [exact W|]. split; [exact V|constructor].
Qed.

Definition types_list (ts : option (key * list string)) : list string := match ts with Some (_, v) => v | None => [] end.
Definition length_pair (len : option (key * bool * option Z * option Z)) : option (option Z * option Z) :=
  match len with Some (_, _, lo, hi) => Some (lo, hi) | None => None end.
Definition length_any (len : option (key * bool * option Z * option Z)) : bool := match len with Some (_, u, _, _) => u | None => false end.
Lemma length_agrees : forall len, length_reads (length_pair len) (length_any len) = length_as len.
Proof. intros [[[[kl [|]] [lo|]] [hi|]]|]; reflexivity. Qed.

Definition heading_text (d : direction) (i : doc) : doc :=
  match d with
  | LTR => Cat [Txt "-"; i; Txt "->"] | RTL => Cat [Txt "<-"; i; Txt "-"] | UNI => Cat [Txt "-"; i; Txt "-"] | NoDirection => i
  end.
Lemma heading_written : forall d i ts, d <> NoDirection -> writes (heading_text d i) ts ->
  exists h x, heading_of d = Some h /\ ts = around h x /\ writes i x.
Proof.
  intros d i ts N W. destruct d; try congruence; cbn [heading_text] in W; cat W; cat W; cat W; catnil W; text W0; text W2; cbn [app]; do 2 eexists; (split; [reflexivity|]);
    (split; [|exact W1]); reflexivity.
Qed.

Lemma details_back : forall e ts, Forall deep (children e) -> readable DetailsP e -> writes (print E e) ts -> meaning DetailsP e ts.
Proof.
  intros e ts IH R W. inversion R as [| | | | | | | | | | | | | | | | | | | | | | | | | | | | | | | | | | | | | | | | | | | | |k d n ty len ps U ND Hn Ht Hl Hp HC HE| | | | | | | |]; subst.
  cbn [print children] in *. apply children_back in IH. apply Forall_app in IH. destruct IH as [_ Bp]. apply not_aliased in W; [|exact U].
  set (parts := (maybe (option_map (print E) n)
                    ++ match ty with Some (kt, v) => [Shared kt (Txt (rel_types_text v))] | None => [] end
                    ++ match len with Some (kl, u, lo, hi) => [Shared kl (Txt (rel_length_text u lo hi))] | None => [] end
                    ++ maybe (option_map (print E) ps))%list) in *.
  change (writes (heading_text d (match parts with [] => Txt "" | _ => Cat [Txt "["; Cat parts; Txt "]"] end)) ts) in W.
  destruct (heading_written _ _ _ ND W) as (h & x & Hh & -> & Wx). clear W. apply rel_reads_intro.
  assert (C : parts = [] /\ x = [] \/ exists y, x = Mark "[" :: y ++ [Mark "]"] /\ writes (Cat parts) y).
  { destruct parts as [|p0 parts0] eqn:Ep; [left; split; [reflexivity|]; vm_compute in Wx; now inversion Wx|right]. cat Wx. cat Wx. cat Wx. catnil Wx. text W. text W1. match goal with V : writes (Cat _) ?z |- _ => exists z end.
    split; [reflexivity|exact W0]. }
  destruct C as [[Ep ->]|(y & -> & Wy)].
  - left. split; [reflexivity|]. subst parts. destruct n as [n|]; [discriminate|]. destruct ty as [[kt v]|]; [discriminate|]. destruct len as [[[[kl u] lo] hi]|]; [discriminate|].
    destruct ps as [ps|]; [discriminate|]. apply (ag_rel E A k d None None None None h None None Hh); constructor.
  - right. subst parts. apply writes_app in Wy. destruct Wy as (tn & y1 & -> & Wn & Wy). apply writes_app in Wy. destruct Wy as (tt & y2 & -> & Wt & Wy).
    apply writes_app in Wy. destruct Wy as (tl & tp & -> & Wl & Wp). pose proof (props_option ps tp Bp Hp Wp) as PP.
    assert (Qn : exists a, name_part a tn /\ agrees_if E A (option_map XVar a) n).
    { destruct n as [v|]; cbn [option_map maybe opt_list] in *.
      - cat Wn. catnil Wn. rewrite app_nil_r. inversion Hn as [|? ? (kv & z & -> & V) _]; subst. destruct (sym_written kv z x V W) as (a & Wa & _ & Aa).
        exists (Some a). split; [now constructor|now constructor].
      - catnil Wn. exists None. split; constructor. }
    destruct Qn as (a & Na & Aa).
    assert (Qt : tt = types_tokens (types_list ty)).
    { destruct ty as [[kt v]|]; [|now catnil Wt]. destruct (Ht kt v eq_refl) as [Ut Nt]. cat Wt. catnil Wt. apply not_aliased in W; [|exact Ut].
      cbn [GrammarDocs.writes] in W. apply types_written in W; [|exact Nt]. rewrite app_nil_r. subst x. reflexivity. }
    assert (Ql : tl = length_tokens (length_pair len) (length_any len)).
    { destruct len as [[[[kl u] lo] hi]|]; [|now catnil Wl]. specialize (Hl kl u lo hi eq_refl). cat Wl. catnil Wl. apply not_aliased in W; [|exact Hl].
      cbn [GrammarDocs.writes] in W. apply length_written in W. rewrite app_nil_r. subst x. destruct u; [reflexivity|]. destruct lo, hi; reflexivity. }
    subst tt tl. exists (rel_body tn (types_list ty) (length_pair len) (length_any len) tp). split; [unfold rel_body; now rewrite <- !app_assoc|].
    split. { unfold rel_body. repeat apply balanced_app; auto using types_balanced, length_balanced; [now apply (name_part_balanced a)|now apply (props_part_balanced _ _ PP)]. }
    intros h'. pose proof (parses_details h' a tn (types_list ty) (length_pair len) (length_any len) _ tp Na PP) as PD. unfold rel_body in PD.
    eapply parses_weaken; [| |exact PD]; [|auto]. intros c (l & -> & Al). split; [|reflexivity]. cbn [turned]. rewrite length_agrees.
    exact (ag_rel E A k d n ty len ps h a l Hh Aa Al).
Qed.

Lemma chain_hops : forall rels last ts, Forall (fun p => reads_back (fst p) /\ reads_back (snd p)) rels -> reads_back last ->
  Forall (fun p => readable NodeP (fst p) /\ readable DetailsP (snd p)) rels -> readable NodeP last ->
  writes (Cat (flat_map (fun p => [print E (fst p); print E (snd p)]) rels ++ [print E last])) ts ->
  exists tn l (es : list (expr * expr)), ts = tn ++ hops_tokens l
    /\ node_reads (fun c => agrees_node E A c (match rels with [] => last | p :: _ => fst p end)) tn
    /\ Forall2 (fun e p => rel_reads (fun c => agrees_rel E A c (fst e)) (fst p) /\ node_reads (fun c => agrees_node E A c (snd e)) (snd p)) es l
    /\ (match l with [] => false | _ => true end) = (match rels with [] => false | _ => true end)
    /\ forall x vs, agrees_node E A x (match rels with [] => last | p :: _ => fst p end) ->
         Forall2 (fun v e => agrees_rel E A (fst v) (fst e) /\ agrees_node E A (snd v) (snd e)) vs es -> agrees_hops E A x vs rels last.
Proof.
  induction rels as [|[n d] rels IH]; intros last ts B Bl R Rl W; cbn [flat_map app] in W.
  - cat W. catnil W. rewrite app_nil_r. exists x, [], []. split; [cbn; now rewrite app_nil_r|]. split; [exact (Bl NodeP x Rl W0)|]. split; [constructor|]. split; [reflexivity|].
    intros c vs Ac Fv. inversion Fv; subst. now constructor.
  - cat W. cat W. cbn [fst snd] in *. inversion B as [|? ? [Bn Bd] B']; subst. inversion R as [|? ? [Rn Rd] R']; subst. cbn [fst snd] in *.
    destruct (IH last y0 B' Bl R' Rl W) as (tn & l & es & -> & Hn & Hl & _ & HA). exists x, ((x0, tn) :: l), ((d, match rels with [] => last | p :: _ => fst p end) :: es).
    split; [cbn [hops_tokens flat_map fst snd]; now rewrite <- !app_assoc|]. split; [exact (Bn NodeP x Rn W0)|].
    split; [constructor; [|exact Hl]; split; [exact (Bd DetailsP x0 Rd W1)|exact Hn]|]. split; [reflexivity|].
    intros c vs Ac Fv. inversion Fv as [|[y z] e' vs' es' [A1 A2] Fv']; subst. cbn [fst snd] in *. apply ag_hop; auto.
Qed.

Lemma chains_back : forall e ts, Forall deep (children e) -> readable ChainP e -> writes (print E e) ts -> meaning ChainP e ts.
Proof.
  intros e ts IH R W.
  inversion R as [| | | | | | | | | | | | | | | | | | | | | | | | | | | | | | | | | | | | | | | | | | | | | | e' RN HC HE|k l d r U Rl Rd Rr HC HE|k rels last U Rr Rl HC HE| | | | |]; subst.
  - pose proof (nodes_back e ts IH RN W) as N. cbn [meaning] in *.
    pose proof (chain_reads_intro unit (fun _ _ => False) (fun _ _ => False) _ ts [] [] N (Forall2_nil _)) as C. cbn [hops_tokens flat_map] in C. rewrite app_nil_r in C.
    replace (hopping e) with false by (inversion RN; reflexivity). eapply chain_weaken; [|exact C]. intros [n h] [Hn Hh]. cbn [fst snd] in *. inversion Hh; subst. now constructor.
  - cbn [print children] in *. apply children_back in IH. inversion IH as [|? ? Bl IH1]; subst. inversion IH1 as [|? ? Bd IH2]; subst. inversion IH2 as [|? ? Br _]; subst.
    apply not_aliased in W; [|exact U]. cat W. cat W. cat W. catnil W.
    pose proof (chain_reads_intro unit (fun _ c => agrees_rel E A c d) (fun _ c => agrees_node E A c r) _ x [tt] [(x0, x1)] (Bl NodeP x Rl W0)) as C.
    cbn [hops_tokens flat_map fst snd] in C. rewrite <- app_assoc in C. eapply chain_weaken; [|apply C].
    + intros [n h] [Hn Hh]. cbn [fst snd] in *. inversion Hh as [|[y z] ? ? ? [A1 A2] Hh']; subst. inversion Hh'; subst. now constructor.
    + constructor; [|constructor]. split; [exact (Bd DetailsP x0 Rd W1)|exact (Br NodeP x1 Rr W2)].
  - cbn [print children] in *. apply children_back in IH. apply Forall_app in IH. destruct IH as [Br Bl]. cbn [opt_list] in Bl. inversion Bl as [|? ? Bl' _]; subst.
    assert (Br' : Forall (fun p => reads_back (fst p) /\ reads_back (snd p)) rels).
    { clear -Br. induction rels as [|p rels IH]; [constructor|]. cbn [flat_map app] in Br. inversion Br as [|? ? B1 B2]; subst. inversion B2; subst. constructor; auto. }
    apply not_aliased in W; [|exact U]. destruct (chain_hops rels last ts Br' Bl' Rr Rl W) as (tn & l & es & -> & Hn & Hl & Em & HA).
    pose proof (chain_reads_intro _ _ _ _ tn es l Hn Hl) as C. cbn [meaning]. replace (hopping (EChain k rels (Some last))) with (match l with [] => false | _ => true end) by (rewrite Em; destruct rels; reflexivity).
    eapply chain_weaken; [|exact C]. intros [n h] [A1 A2]. cbn [fst snd] in *. apply ag_many. now apply HA.
Qed.

Lemma parts_back : forall e ts, Forall deep (children e) -> readable PartP e -> writes (print E e) ts -> meaning PartP e ts.
Proof.
  intros e ts IH R W. inversion R; subst.
  - pose proof (chains_back e ts IH ltac:(assumption) W) as C. cbn [meaning] in *. destruct (part_reads_chain _ _ _ C) as [B P]. split; [exact B|].
    eapply parses_weaken; [| |exact P]; [|auto]. intros p (c & -> & Ac). now constructor.
  - cbn [print children] in *. apply not_aliased in W; [|assumption]. cat W. cat W. cat W. catnil W. rewrite app_nil_r. apply op_written in W1. vm_compute in W1. injection W1 as W1. subst x1.
    inversion IH as [|? ? _ IH1]; subst. inversion IH1 as [|? ? [Bp _] _]; subst. destruct (sym_written kv x x0 ltac:(assumption) W0) as (a & Wa & _ & Aa).
    pose proof (Bp ChainP x2 ltac:(assumption) W2) as C. cbn [meaning] in C. destruct (part_reads_path _ _ _ a x0 Wa C) as [B P]. split; [exact B|].
    eapply parses_weaken; [| |exact P]; [|auto]. intros q (c & -> & Ac). now constructor.
  - cbn [print children] in *. apply not_aliased in W; [|assumption]. cat W. cat W. cat W. catnil W. apply op_written in W1. vm_compute in W1. injection W1 as W1. subst x1.
    inversion IH as [|? ? _ IH1]; subst. inversion IH1 as [|? ? [_ Bp] _]; subst. cbn [children] in Bp. inversion Bp as [|? ? Bp' _]; subst.
    destruct (sym_written kv x x0 ltac:(assumption) W0) as (a & Wa & _ & Aa). apply not_aliased in W2; [|assumption]. apply cat_inv in W2. destruct W2 as (tf & y1 & -> & Wf & W2).
    apply cat_inv in W2. destruct W2 as (t1 & y2 & -> & V1 & W2). apply cat_inv in W2. destruct W2 as (ta & y3 & -> & W4 & W2). apply cat_inv in W2. destruct W2 as (t2 & y4 & -> & V2 & W2). catnil W2.
    text V1. text V2. cbn [GrammarDocs.writes] in Wf. apply (identifier_written E NS) in Wf; [|assumption]. subst tf. apply not_aliased in W4; [|assumption].
    apply listing_written in W4; [|constructor; [eapply not_silent; eassumption|constructor]]. destruct W4 as (tss & F & ->). inversion F as [|? t ? tss' Wt F']; subst. inversion F'; subst.
    cbn [joined more_of flat_map]. rewrite app_nil_r. pose proof (Bp' ChainP t ltac:(assumption) Wt) as C. cbn [meaning] in C.
    destruct (part_reads_shortest _ _ _ a x0 f Wa ltac:(assumption) C) as [B P]. cbn [app]. rewrite ?app_nil_r. split; [exact B|].
    eapply parses_weaken; [| |exact P]; [|auto]. intros q (c & -> & Ac). now constructor.
Qed.
Lemma patterns_back : forall e ts, Forall deep (children e) -> readable PartsP e -> writes (print E e) ts -> meaning PartsP e ts.
Proof.
  intros e ts IH R W. inversion R; subst. cbn [print children] in *. apply not_aliased in W; [|assumption]. apply listing_written in W; [|eapply all_not_silent; eassumption].
  destruct W as (tss & F & ->). pose proof (all_written _ _ _ (children_back _ IH) ltac:(eassumption) F) as M. cbn [meaning] in *.
  destruct (parts_read_intro _ _ _ _ ltac:(eassumption) M) as [B P]. split; [exact B|]. eapply parses_weaken; [| |exact P]; [|auto]. intros l Fl. eauto.
Qed.
Lemma wheres_back : forall e ts, Forall deep (children e) -> readable WhereP e -> writes (print E e) ts -> meaning WhereP e ts.
Proof.
  intros e ts IH R W. inversion R; subst. cbn [print children] in *. apply not_aliased in W; [|assumption]. cat W. cat W. catnil W. text W0. rewrite app_nil_r. exists x0.
  split; [reflexivity|]. inversion IH as [|? ? [B _] _]; subst. pose proof (B (At 0) x0 ltac:(assumption) W1 ltac:(lia)) as X. eapply reads_weaken; [|exact X].
  intros t At. now constructor.
Qed.
Lemma where_option : forall w ts, Forall reads_back (opt_list w) -> Forall (readable WhereP) (opt_list w) ->
  writes (Cat (maybe (option_map (print E) w))) ts -> after_part "WHERE" (fun o => agrees_where E A o w) ts.
Proof.
  intros [m|] ts B R W; cbn [option_map maybe opt_list] in *.
  - cat W. catnil W. rewrite app_nil_r. inversion B; inversion R; subst. right.
    match goal with H : reads_back m |- _ => destruct (H WhereP x ltac:(assumption) W0) as (y & -> & Hy) end. exists y. auto.
  - catnil W. left. split; [reflexivity|constructor].
Qed.

(** ** Expressions *)

Ltac start W m := eapply alias_read; [eassumption|reflexivity|exact W|]; clear W; intros W; apply (climb _ _ m); [lia|lia|].
Ltac piece W t V := let y := fresh "y" in apply cat_inv in W; destruct W as (t & y & -> & V & W).

Definition at_ (n : nat) (e : expr) (ts : list token) : Prop := reads n (fun t => agrees t e) ts.
Lemma back_at : forall n e ts, reads_back e -> readable (At n) e -> writes (print E e) ts -> n <= 10 -> at_ n e ts.
Proof. intros n e ts B R W L. exact (B (At n) ts R W L). Qed.
Lemma all_at : forall n es tss, n <= 10 -> Forall reads_back es -> Forall (readable (At n)) es -> Forall2 (fun e ts => writes (print E e) ts) es tss ->
  Forall2 (fun e ts => at_ n e ts) es tss.
Proof. intros n es tss L B R W. induction W as [|e ts es tss W Ws IH]; [constructor|]. inversion B; inversion R; subst. constructor; auto. now apply back_at. Qed.

Lemma at_sym : forall n k x ts, n <= 10 -> variable x -> writes (print E (ESym k x)) ts -> at_ n (ESym k x) ts.
Proof.
  intros n k x ts L V W. destruct (sym_written k x ts V W) as (y & Wy & Vy & Ay). apply (climb _ _ 10); [lia|lia|]. eapply reads_weaken; [|exact (reads_var y ts Vy Wy)]. now intros t ->.
Qed.
Lemma at_param : forall n k x ts, n <= 10 -> is_identifier E x = true -> writes (print E (EParam k x)) ts -> at_ n (EParam k x) ts.
Proof.
  intros n k x ts L V W. cbn [print] in W. start W 10. apply (param_written E NS) in W; [|exact V]. subst. eapply reads_weaken; [|apply reads_param]. intros t ->. constructor.
Qed.
Lemma at_star : forall n k ts, n <= 10 -> writes (print E (EAsterisk k)) ts -> at_ n (EAsterisk k) ts.
Proof. intros n k ts L W. cbn [print] in W. start W 10. text W. eapply reads_weaken; [|apply reads_star]. intros t ->. constructor. Qed.
Lemma at_bool : forall n k b ts, n <= 10 -> writes (print E (EBool k b)) ts -> at_ n (EBool k b) ts.
Proof.
  intros n k b ts L W. cbn [print] in W. start W 10. destruct b; text W; eapply reads_weaken.
  2: apply (reads_constant "true" (XBool true)); cbn; tauto. 3: apply (reads_constant "false" (XBool false)); cbn; tauto. all: intros t ->; constructor.
Qed.
Lemma at_null : forall n k ts, n <= 10 -> writes (print E (ENull k)) ts -> at_ n (ENull k) ts.
Proof.
  intros n k ts L W. cbn [print] in W. start W 10. text W. eapply reads_weaken; [|apply (reads_constant "NULL" XNull); cbn; tauto]. intros t ->. constructor.
Qed.
Lemma at_str : forall n k s ts, n <= 10 -> writes (print E (EStr k s)) ts -> at_ n (EStr k s) ts.
Proof. intros n k s ts L W. cbn [print] in W. start W 10. apply literal_written in W. subst. eapply reads_weaken; [|apply reads_literal]. intros t ->. constructor. Qed.
Lemma at_num : forall n k x ts, n <= 10 -> (0 <= n_mant x)%Z -> (n_neg x = true -> n <= 8) -> writes (print E (ENum k x)) ts -> at_ n (ENum k x) ts.
Proof.
  intros n k x ts L P N W. cbn [print] in W. eapply alias_read; [exact L|reflexivity|exact W|]. clear W. intros W. pose proof W as W'. apply number_written in W; [|exact P]. destruct (n_neg x) eqn:Ng; subst.
  - apply (climb _ _ 8); [auto|lia|]. eapply reads_weaken; [|apply reads_negative]. intros t ->. now constructor.
  - apply (climb _ _ 10); [lia|lia|]. eapply reads_weaken; [|apply reads_number]. intros t ->.
    replace (text_g10 (n_mant x) (n_exp x)) with (number_text x) by (unfold number_text; now rewrite Ng). now constructor.
Qed.

Lemma first_read : forall e ts, reads_back e -> readable (first_place e) e -> writes (print E e) ts ->
  at_ 0 e ts /\ forall m r, filter_ahead (ts ++ Mark m :: r) = false.
Proof.
  intros e ts B R W. destruct (match e with ENum _ _ => true | _ => false end) eqn:K.
  - destruct e; try discriminate K. cbn [first_place] in R. pose proof (B _ ts R W ltac:(lia)) as X. split; [now apply (climb _ 0 8); [lia|lia|]|].
    cbn [print] in W. apply alias_or in W. destruct W as [(a & Ak & V & W)|W]; [intros m r; now apply (no_filter _ _ _ _ (reads_var a ts V W))|].
    inversion R; subst; [|discriminate]. apply number_written in W; [|assumption]. intros m r. subst. destruct (n_neg n); reflexivity.
  - replace (first_place e) with (At 10) in R by (destruct e; try reflexivity; discriminate K). pose proof (B _ ts R W ltac:(lia)) as X.
    split; [now apply (climb _ 0 10); [lia|lia|]|]. intros m r. now apply (no_filter _ _ _ _ X).
Qed.
Lemma list_read : forall es tss, Forall reads_back es -> readable_list E A es -> Forall2 (fun e ts => writes (print E e) ts) es tss ->
  reads 10 (fun t => exists vs, t = XList vs /\ Forall2 agrees vs es) (Mark "[" :: joined tss ++ [Mark "]"]).
Proof.
  intros es tss B R F. apply (reads_list (fun e t => agrees t e)).
  - inversion R as [|e es' R1 R2]; subst; inversion F; subst; [constructor|]. inversion B; subst. constructor; [now apply first_read|]. now apply all_at; [lia| | |].
  - inversion R as [|e es' R1 R2]; subst; inversion F; subst; [exact Logic.I|]. inversion B; subst. intros m r. now apply (first_read e).
Qed.
Lemma list_not_silent : forall es, readable_list E A es -> Forall (fun e => silent e = false) es.
Proof. intros es R. inversion R; subst; constructor; [eapply not_silent; eassumption|eapply all_not_silent; eassumption]. Qed.

Lemma at_list : forall n k es ts, n <= 10 -> Forall reads_back es -> readable_list E A es -> writes (print E (EListLit k es)) ts -> at_ n (EListLit k es) ts.
Proof.
  intros n k es ts L B R W. cbn [print] in W. start W 10. piece W t1 W1. piece W t2 W2. piece W t3 W3. catnil W. text W1. text W3.
  apply literals_written in W2. destruct W2 as (tss & F & ->). eapply reads_weaken; [|apply (list_read es tss B R F)]. intros t (vs & -> & H). now constructor.
Qed.
Lemma at_list_expr : forall n k ke es ts, n <= 10 -> unaliased A ke -> Forall reads_back es -> readable_list E A es -> writes (print E (EListExpr k (EExprs ke es))) ts ->
  at_ n (EListExpr k (EExprs ke es)) ts.
Proof.
  intros n k ke es ts L U B R W. cbn [print] in W. start W 10. piece W t1 W1. piece W t2 W2. piece W t3 W3. catnil W. text W1. text W3. apply not_aliased in W2; [|exact U].
  apply listing_written in W2; [|now apply list_not_silent]. destruct W2 as (tss & F & ->). eapply reads_weaken; [|apply (list_read es tss B R F)]. intros t (vs & -> & H). now constructor.
Qed.
Lemma at_map : forall n k es ts, n <= 10 -> Forall reads_back es -> Forall (readable EntryP) es -> writes (print E (EMap k es)) ts -> at_ n (EMap k es) ts.
Proof.
  intros n k es ts L B R W. cbn [print] in W. start W 10. destruct (map_read k es ts B R W) as (b & -> & Bb & P). eapply reads_weaken; [|exact (reads_map b _ Bb P)]. intros t (l & -> & H). now constructor.
Qed.
Lemma at_prop : forall n k c kl x ts, n <= 10 -> reads_back c -> readable (At 10) c -> unaliased A kl -> blank x = false -> x <> "*" ->
  writes (print E (EProp k c (ELookup kl x))) ts -> at_ n (EProp k c (ELookup kl x)) ts.
Proof.
  intros n k c kl x ts L B R U Bl N W. cbn [print] in W. start W 10. piece W t1 W1. piece W t2 W2. catnil W. rewrite app_nil_r. apply not_aliased in W2; [|exact U].
  apply (lookup_written E NS) in W2; [|exact Bl]. destruct W2 as [[_ W2]|[Ex _]]; [|congruence].
  assert (V : exists v, t2 = Mark "." :: v /\ a_word x v) by (destruct W2 as [-> | ->]; eexists; (split; [reflexivity|]); [now left|now right]). destruct V as (v & -> & V).
  eapply reads_weaken; [|exact (reads_prop _ t1 x v (back_at 10 c t1 B R W1 ltac:(lia)) V)]. intros t (a & -> & H). now constructor.
Qed.
Lemma at_operation : forall n k l o r b ts, n <= 10 -> binop_of o = Some b -> (o = Exponentiation -> n <= 7) -> reads_back l -> reads_back r ->
  readable (At (left_of b)) l -> readable (At (right_of b)) r -> writes (print E (EOperation k l o r)) ts -> at_ n (EOperation k l o r) ts.
Proof.
  intros n k l o r b ts L Ob Ex Bl Br Rl Rr W. cbn [print] in W. eapply alias_read; [exact L|reflexivity|exact W|]. clear W. intros W.
  assert (L1 : left_of b <= 10) by (unfold left_of; destruct b; cbn; lia). assert (L2 : right_of b <= 10) by (unfold right_of; destruct b; cbn; lia).
  destruct (in_parens o) eqn:Ip.
  - apply (climb _ _ 10); [lia|lia|]. piece W t1 W1. piece W t2 W2. piece W t3 W3. piece W t4 W4. piece W t5 W5. catnil W. text W1. text W5. apply (binop_written o b) in W3; [|exact Ob]. subst t3.
    eapply reads_weaken; [|exact (reads_operation b _ _ t2 t4 (back_at _ _ _ Bl Rl W2 L1) (back_at _ _ _ Br Rr W4 L2))]. intros t (a & c & -> & Ha & Hc). now constructor.
  - assert (o = Exponentiation) by (destruct o; try discriminate Ip; try discriminate Ob; reflexivity). subst o. injection Ob as <-. apply (climb _ _ 7); [auto|lia|].
    piece W t2 W2. piece W t3 W3. piece W t4 W4. catnil W. rewrite app_nil_r. apply (binop_written _ OPow) in W3; [|reflexivity]. subst t3.
    eapply reads_weaken; [|exact (reads_binary OPow _ _ t2 t4 (back_at _ _ _ Bl Rl W2 L1) (back_at _ _ _ Br Rr W4 L2))]. intros t (a & c & -> & Ha & Hc). now constructor.
Qed.
Lemma at_comparison : forall n k l o r b ts, n <= level_of b -> binop_of o = Some b -> reads_back l -> reads_back r ->
  readable (At (left_of b)) l -> readable (At (right_of b)) r -> writes (print E (EComparison k (Some l) o (Some r))) ts -> at_ n (EComparison k (Some l) o (Some r)) ts.
Proof.
  intros n k l o r b ts L Ob Bl Br Rl Rr W. cbn [print option_map maybe app] in W.
  assert (L1 : left_of b <= 10) by (unfold left_of; destruct b; cbn; lia). assert (L2 : right_of b <= 10) by (unfold right_of; destruct b; cbn; lia).
  assert (L3 : level_of b <= 10) by (destruct b; cbn; lia). assert (L4 : n <= 10) by lia. start W (level_of b).
  piece W t2 W2. piece W t3 W3. piece W t4 W4. catnil W. rewrite app_nil_r. apply (binop_written _ b) in W3; [|exact Ob]. subst t3.
  eapply reads_weaken; [|exact (reads_binary b _ _ t2 t4 (back_at _ _ _ Bl Rl W2 L1) (back_at _ _ _ Br Rr W4 L2))]. intros t (a & c & -> & Ha & Hc). now constructor.
Qed.
Lemma at_not : forall n k r ts, n <= 3 -> reads_back r -> readable (At 3) r -> writes (print E (EComparison k None Not (Some r))) ts -> at_ n (EComparison k None Not (Some r)) ts.
Proof.
  intros n k r ts L B R W. cbn [print option_map maybe app] in W. assert (L4 : n <= 10) by lia. start W 3. piece W t3 W3. piece W t4 W4. catnil W. rewrite app_nil_r.
  apply op_written in W3. vm_compute in W3. injection W3 as <-. eapply reads_weaken; [|exact (reads_not _ t4 (back_at _ _ _ B R W4 ltac:(lia)))]. intros t (a & -> & Ha). now constructor.
Qed.
Lemma at_is_null : forall n k l o ts, n <= 9 -> o = IsNull \/ o = IsNotNull -> reads_back l -> readable (At 9) l -> writes (print E (EComparison k (Some l) o None)) ts ->
  at_ n (EComparison k (Some l) o None) ts.
Proof.
  intros n k l o ts L O B R W. cbn [print option_map maybe app] in W. assert (L4 : n <= 10) by lia. start W 9. piece W t3 W3. piece W t4 W4. catnil W. rewrite app_nil_r. apply op_written in W4.
  destruct O as [-> | ->]; vm_compute in W4; injection W4 as <-.
  - eapply reads_weaken; [|exact (reads_null_test _ t3 true _ eq_refl (back_at _ _ _ B R W3 ltac:(lia)))]. intros t (a & -> & Ha). now constructor.
  - eapply reads_weaken; [|exact (reads_null_test _ t3 false _ eq_refl (back_at _ _ _ B R W3 ltac:(lia)))]. intros t (a & -> & Ha). now constructor.
Qed.
Lemma at_nested : forall n k e ts, n <= 4 -> reads_back e -> readable (At 0) e -> writes (print E (ENested k e)) ts -> at_ n (ENested k e) ts.
Proof.
  intros n k e ts L B R W. cbn [print] in W. assert (L4 : n <= 10) by lia. start W 4. piece W t1 W1. piece W t2 W2. piece W t3 W3. catnil W. text W1. text W3.
  eapply reads_weaken; [|exact (reads_nested _ t2 (back_at _ _ _ B R W2 ltac:(lia)))]. intros t Ha. now constructor.
Qed.
Lemma at_nested_comparison : forall n k kc l o r b ts, n <= 10 -> binop_of o = Some b -> unaliased A kc -> reads_back l -> reads_back r ->
  readable (At (left_of b)) l -> readable (At (right_of b)) r -> writes (print E (ENested k (EComparison kc (Some l) o (Some r)))) ts ->
  at_ n (ENested k (EComparison kc (Some l) o (Some r))) ts.
Proof.
  intros n k kc l o r b ts L Ob U Bl Br Rl Rr W. cbn [print option_map maybe app] in W.
  assert (L1 : left_of b <= 10) by (unfold left_of; destruct b; cbn; lia). assert (L2 : right_of b <= 10) by (unfold right_of; destruct b; cbn; lia).
  start W 10. piece W t1 W1. piece W t2 W2. piece W t3 W3. catnil W. text W1. text W3. apply not_aliased in W2; [|exact U].
  piece W2 u1 V1. piece W2 u2 V2. piece W2 u3 V3. catnil W2. rewrite !app_nil_r. apply (binop_written _ b) in V2; [|exact Ob]. subst u2.
  replace ([Mark "("] ++ (u1 ++ op_tokens b ++ u3) ++ [Mark ")"]) with (Mark "(" :: u1 ++ op_tokens b ++ u3 ++ [Mark ")"]) by (cbn [app]; now rewrite <- !app_assoc).
  eapply reads_weaken; [|exact (reads_operation b _ _ u1 u3 (back_at _ _ _ Bl Rl V1 L1) (back_at _ _ _ Br Rr V3 L2))]. intros t (a & c & -> & Ha & Hc). constructor. now constructor.
Qed.
Lemma at_nested_null : forall n k kc l o ts, n <= 10 -> o = IsNull \/ o = IsNotNull -> unaliased A kc -> reads_back l ->
  readable (At 9) l -> writes (print E (ENested k (EComparison kc (Some l) o None))) ts -> at_ n (ENested k (EComparison kc (Some l) o None)) ts.
Proof.
  intros n k kc l o ts L O U B R W. cbn [print option_map maybe app] in W. start W 10. piece W t1 W1. piece W t2 W2. piece W t3 W3. catnil W. text W1. text W3. apply not_aliased in W2; [|exact U].
  piece W2 u1 V1. piece W2 u2 V2. catnil W2. rewrite !app_nil_r. apply op_written in V2. pose proof (back_at _ _ _ B R V1 ltac:(lia)) as X.
  assert (G : exists (yes : bool) w, u2 = (if yes then [Word "IS"; Word "NULL"] else [Word "IS"; Word "NOT"; Word "NULL"]) /\ u2 = Word "IS" :: w
    /\ forall t, agrees t l -> agrees (XIsNull yes t) (EComparison kc (Some l) o None)).
  { destruct O as [-> | ->]; vm_compute in V2; injection V2 as <-; [exists true|exists false]; eexists; (split; [reflexivity|]; split; [reflexivity|]; now constructor). }
  destruct G as (yes & w & G1 & G2 & G3). pose proof (reads_null_test _ u1 yes u2 G1 X) as Y.
  eapply reads_weaken; [|apply (reads_in_parens anything _ (u1 ++ u2)); [eapply climb; [| |exact Y]; lia|]].
  - intros t (a & -> & Ha). constructor. now apply G3.
  - intros q _. unfold pattern_ahead. rewrite G2, <- app_assoc. cbn [app]. rewrite no_node; [reflexivity|apply X|apply X|reflexivity].
Qed.
Lemma at_nested_call : forall n k kf f ka es ts, n <= 10 -> is_identifier E f = true -> unaliased A kf -> reads_back (EFun kf f ka es) -> readable (At 0) (EFun kf f ka es) ->
  writes (print E (ENested k (EBoolFun (EFun kf f ka es)))) ts -> at_ n (ENested k (EBoolFun (EFun kf f ka es))) ts.
Proof.
  intros n k kf f ka es ts L Id U B R W. cbn [print] in W. start W 10. piece W t1 W1. piece W t2 W2. piece W t3 W3. catnil W. text W1. text W3. rewrite app_nil_r.
  pose proof (back_at 0 (EFun kf f ka es) t2 B R W2 ltac:(lia)) as X.
  eapply reads_weaken; [|apply (reads_in_parens anything _ t2); [exact X|]].
  - intros t Ha. do 2 constructor. exact Ha.
  - intros q _. cbn [print] in W2. apply not_aliased in W2; [|exact U]. piece W2 u1 V1. piece W2 u2 V2. text V2.
    cbn [GrammarDocs.writes] in V1. apply (identifier_written E NS f _ V1) in Id. subst u1. unfold pattern_ahead.
    assert (Z : node_ahead Start (([Word f] ++ [Mark "("] ++ y0) ++ Mark ")" :: q) = node_ahead Dead (y0 ++ Mark ")" :: q)) by reflexivity. now rewrite Z, dead_ahead.
Qed.
Lemma at_const : forall n k e ts, n <= 10 -> reads_back e -> readable (At n) e -> writes (print E (EConst k e)) ts -> at_ n (EConst k e) ts.
Proof.
  intros n k e ts L B R W. cbn [print] in W. eapply alias_read; [eassumption|reflexivity|exact W|]. clear W. intros W.
  eapply reads_weaken; [|exact (back_at _ _ _ B R W L)]. intros t Ha. now constructor.
Qed.
Lemma at_rel_cond : forall n k e ts, n <= 10 -> reads_back e -> readable (At n) e -> writes (print E (ERelCond k e)) ts -> at_ n (ERelCond k e) ts.
Proof.
  intros n k e ts L B R W. cbn [print] in W. eapply alias_read; [eassumption|reflexivity|exact W|]. clear W. intros W.
  eapply reads_weaken; [|exact (back_at _ _ _ B R W L)]. intros t Ha. now constructor.
Qed.
Lemma at_excluded : forall n k r ts, n <= 3 -> reads_back r -> readable (At 3) r -> writes (print E (EExcluded k r)) ts -> at_ n (EExcluded k r) ts.
Proof.
  intros n k r ts L B R W. cbn [print] in W. assert (L4 : n <= 10) by lia. start W 3. piece W t3 W3. piece W t4 W4. catnil W. rewrite app_nil_r.
  apply op_written in W3. vm_compute in W3. injection W3 as <-. eapply reads_weaken; [|exact (reads_not _ t4 (back_at _ _ _ B R W4 ltac:(lia)))]. intros t (a & -> & Ha). now constructor.
Qed.
Lemma rest_written : forall o b cs ts, binop_of o = Some b -> Forall (fun d => match d with ECompound _ o' _ => o' = o | _ => True end) cs ->
  writes (Cat (flat_map (fun d => [print_op E (match d with ECompound _ o' _ => o' | _ => o end); print E d]) cs)) ts ->
  exists ys, ts = flat_map (fun y => op_tokens b ++ y) ys /\ Forall2 (fun e ts => writes (print E e) ts) cs ys.
Proof.
  intros o b cs ts Ob H. revert ts. induction H as [|c cs Hc H IH]; intros ts W; cbn [flat_map app] in W; [catnil W; exists []; split; [reflexivity|constructor]|].
  piece W t1 W1. piece W t2 W2. destruct (IH _ W) as (ys & -> & F). replace (match c with ECompound _ o' _ => o' | _ => o end) with o in W1 by (destruct c; congruence).
  apply (binop_written o b) in W1; [|exact Ob]. subst t1. exists (t2 :: ys). split; [cbn; now rewrite <- app_assoc|now constructor].
Qed.
Lemma at_compound : forall n k o b c cs ts, n <= 10 -> binop_of o = Some b -> connective o = true -> cs <> [] -> Forall reads_back (c :: cs) ->
  readable (At (left_of b)) c -> Forall (readable (At (right_of b))) cs ->
  Forall (fun d => match d with ECompound _ o' _ => o' = o | _ => True end) cs -> writes (print E (ECompound k o (c :: cs))) ts -> at_ n (ECompound k o (c :: cs)) ts.
Proof.
  intros n k o b c cs ts L Ob Co Ne B Rc Rs Same W. destruct cs as [|c2 cs]; [congruence|]. cbn [print] in W. start W 10. piece W t1 W1. piece W t2 W2. piece W t3 W3. piece W t4 W4. catnil W. text W1. text W4.
  apply (rest_written o b) in W3; [|exact Ob|exact Same]. destruct W3 as (ys & -> & F). inversion B as [|? ? Bc Bs]; subst.
  assert (L1 : left_of b <= 10) by (unfold left_of; destruct b; cbn; lia). assert (L2 : right_of b <= 10) by (unfold right_of; destruct b; cbn; lia).
  assert (L3 : level_of b < 4) by (destruct o; try discriminate Co; injection Ob as <-; cbn; lia).
  pose proof (all_at _ _ _ L2 Bs Rs F) as M. change (t2 ++ flat_map (fun y => op_tokens b ++ y) ys ++ [Mark ")"]) with (t2 ++ flat_map (fun y => op_tokens b ++ y) ys ++ [Mark ")"]).
  cbn [app]. eapply reads_weaken; [|apply (reads_compound b _ t2 ys (map (fun d t => agrees t d) (c2 :: cs)) L3 (back_at _ _ _ Bc Rc W2 L1))].
  - intros t (a & vs & -> & Ha & Hv). apply (ag_compound E A k o b c (c2 :: cs)); auto. revert Hv. generalize (c2 :: cs). intros l. revert vs.
    induction l as [|d l IH]; intros vs Hv; inversion Hv; subst; constructor; auto.
  - clear -M. induction M; constructor; auto.
  - inversion F; subst. discriminate.
Qed.
Lemma call_written : forall f ka d ts, function_name E f -> unaliased A ka -> writes (Cat [Txt f; Txt "("; Shared ka d; Txt ")"]) ts ->
  exists w l x, tokens E f = Some (spelling (w :: l)) /\ call_name w l /\ ts = Word w :: dots l ++ Mark "(" :: x ++ [Mark ")"] /\ writes d x.
Proof.
  intros f ka d ts (w & l & T & C) U W. piece W t1 W1. piece W t2 W2. piece W t3 W3. piece W t4 W4. catnil W. text W2. text W4. apply not_aliased in W3; [|exact U].
  cbn [GrammarDocs.writes] in W1. rewrite T in W1. injection W1 as <-. exists w, l, t3. split; [exact T|]. split; [exact C|]. split; [reflexivity|exact W3].
Qed.
Lemma at_fun : forall n k f ka es ts, n <= 10 -> function_name E f -> unaliased A ka -> Forall reads_back es -> Forall (readable (At 0)) es ->
  writes (print E (EFun k f ka es)) ts -> at_ n (EFun k f ka es) ts.
Proof.
  intros n k f ka es ts L Fn U B R W. cbn [print] in W. start W 10. destruct (call_written f ka _ ts Fn U W) as (w & l & x & T & C & -> & Wx).
  apply listing_written in Wx; [|eapply all_not_silent; exact R]. destruct Wx as (tss & F & ->). pose proof (all_at 0 _ _ ltac:(lia) B R F) as M.
  assert (Bj : balanced (joined tss)) by (apply joined_balanced; clear -M; induction M as [|e t es tss H M IH]; constructor; auto; apply H).
  eapply reads_weaken; [|exact (reads_call w l (joined tss) _ C Bj (parses_arguments (fun e t => agrees t e) es tss M))].
  intros t ([d vs] & -> & H1 & H2). cbn [fst snd] in *. subst d. now constructor.
Qed.
Lemma at_fun_distinct : forall n k f ka kd e ts, n <= 10 -> function_name E f -> unaliased A ka -> unaliased A kd -> reads_back e -> readable (At 0) e ->
  writes (print E (EFun k f ka [EDistinct kd e])) ts -> at_ n (EFun k f ka [EDistinct kd e]) ts.
Proof.
  intros n k f ka kd e ts L Fn U Ud B R W. cbn [print] in W. start W 10. destruct (call_written f ka _ ts Fn U W) as (w & l & x & T & C & -> & Wx).
  apply listing_written in Wx; [|constructor; [reflexivity|constructor]]. destruct Wx as (tss & F & ->). inversion F as [|? t ? tss' Wt F']; subst. inversion F'; subst.
  cbn [print] in Wt. apply not_aliased in Wt; [|exact Ud]. piece Wt t1 W1. piece Wt t2 W2. catnil Wt. apply not_aliased in W1; [|apply none_unaliased]. text W1.
  cbn [joined more_of flat_map]. rewrite !app_nil_r. pose proof (back_at 0 e t2 B R W2 ltac:(lia)) as M.
  assert (Bj : balanced (Word "DISTINCT" :: t2)) by (apply balanced_cons; try reflexivity; apply M).
  eapply reads_weaken; [|exact (reads_call w l (Word "DISTINCT" :: t2) _ C Bj (parses_distinct _ t2 M))].
  intros t (a & -> & v & -> & H). now constructor.
Qed.
Lemma filter_written : forall kv x l w ts, variable x -> reads_back l -> reads_back w -> readable (At 0) l -> readable WhereP w ->
  writes (Cat [print E (ESym kv x); print_op E InList; print E l; print E w]) ts ->
  exists y v tl tw, ts = v ++ Word "IN" :: tl ++ tw /\ a_word y v /\ agrees (XVar y) (ESym kv x) /\ at_ 0 l tl
    /\ after_part "WHERE" (fun o => agrees_where E A o (Some w)) tw.
Proof.
  intros kv x l w ts V Bl Bw Rl Rw W. piece W t1 W1. piece W t2 W2. piece W t3 W3. piece W t4 W4. catnil W. destruct (sym_written kv x t1 V W1) as (y & Wy & Vy & Ay).
  apply op_written in W2. vm_compute in W2. injection W2 as <-. exists y, t1, t3, t4. rewrite app_nil_r. split; [reflexivity|]. split; [exact Wy|]. split; [exact Ay|]. split; [exact (back_at 0 l t3 Bl Rl W3 ltac:(lia))|].
  right. exact (Bw WhereP t4 Rw W4).
Qed.
Lemma at_fun_filter : forall n k f ka kp kv x l w ts, n <= 10 -> is_identifier E f = true -> filtering f = true -> unaliased A ka -> unaliased A kp -> variable x ->
  reads_back l -> reads_back w -> readable (At 0) l -> readable WhereP w ->
  writes (print E (EFun k f ka [EListPred kp (ESym kv x) l w])) ts -> at_ n (EFun k f ka [EListPred kp (ESym kv x) l w]) ts.
Proof.
  intros n k f ka kp kv x l w ts L Id Fi U Up V Bl Bw Rl Rw W. cbn [print] in W. start W 10. piece W t1 W1. piece W t2 W2. piece W t3 W3. piece W t4 W4. catnil W. text W2. text W4. apply not_aliased in W3; [|exact U].
  cbn [GrammarDocs.writes] in W1. apply (identifier_written E NS) in W1; [|exact Id]. subst t1. apply listing_written in W3; [|constructor; [reflexivity|constructor]]. destruct W3 as (tss & F & ->).
  inversion F as [|? t ? tss' Wt F']; subst. inversion F'; subst. cbn [joined more_of flat_map]. rewrite !app_nil_r. cbn [print] in Wt. apply not_aliased in Wt; [|exact Up].
  destruct (filter_written kv x l w t V Bl Bw Rl Rw Wt) as (y & v & tl & tw & -> & Wy & Ay & Hl & Hw). cbn [app].
  eapply reads_weaken; [|exact (reads_filtering f y v _ tl _ tw Fi Wy Hl Hw)]. intros t (a & b & -> & Ha & Hb). inversion Hb; subst. now constructor.
Qed.
Lemma at_project : forall n k kx x km es ts, n <= 10 -> variable x -> unaliased A km -> Forall reads_back es -> Forall (readable ProjectionP) es ->
  writes (print E (EMapProj k (ESym kx x) (EMap km es))) ts -> at_ n (EMapProj k (ESym kx x) (EMap km es)) ts.
Proof.
  intros n k kx x km es ts L V U B R W. cbn [print] in W. start W 10. apply cat_inv in W. destruct W as (t1 & y1 & -> & W1 & W). piece W t2 W2. catnil W. rewrite app_nil_r.
  apply not_aliased in W2; [|exact U]. piece W2 t3 W3. piece W2 t4 W4. piece W2 t5 W5. catnil W2. text W3. text W5. destruct (sym_written kx x t1 V W1) as (y & Wy & Vy & Ay).
  apply listing_written in W4; [|eapply all_not_silent; exact R]. destruct W4 as (tss & F & ->). pose proof (all_written _ _ _ B R F) as M. cbn [meaning] in M.
  destruct (until_brace _ _ _ (fun e p => agrees_proj E A p e) _ _ M) as [Bj P]. eapply reads_weaken; [|exact (reads_projection y t1 (joined tss) _ Vy Wy Bj P)]. intros t (l & -> & H). now constructor.
Qed.
Lemma at_index : forall n k t kd i ts, n <= 10 -> unaliased A kd -> reads_back t -> reads_back i -> readable (At 10) t -> readable (At 0) i ->
  writes (print E (EListOp k t kd (Some i) false None)) ts -> at_ n (EListOp k t kd (Some i) false None) ts.
Proof.
  intros n k t kd i ts L U Bt Bi Rt Ri W. cbn [print option_map maybe app] in W. start W 10. piece W t1 W1. piece W t2 W2. catnil W. rewrite app_nil_r. apply not_aliased in W2; [|exact U].
  piece W2 t3 W3. piece W2 t4 W4. piece W2 t5 W5. catnil W2. text W3. text W5. pose proof (back_at 0 i t4 Bi Ri W4 ltac:(lia)) as M.
  eapply reads_weaken; [|exact (reads_subscript _ t1 t4 _ (proj1 M) (back_at 10 t t1 Bt Rt W1 ltac:(lia)) (fun a _ => parses_index _ t4 a M))].
  intros u (a & Ha & b & -> & Hb). now constructor.
Qed.
Lemma maybe_written : forall o ts, Forall reads_back (opt_list o) -> Forall (readable (At 0)) (opt_list o) -> writes (Cat (maybe (option_map (print E) o))) ts ->
  maybe_reads (fun t => agrees_if E A t o) ts.
Proof.
  intros [e|] ts B R W; cbn [option_map maybe opt_list] in *.
  - piece W t W1. catnil W. rewrite app_nil_r. inversion B; inversion R; subst. right. eapply reads_weaken; [|apply (back_at 0 e t); auto; lia]. intros u Hu. now constructor.
  - catnil W. left. split; [reflexivity|constructor].
Qed.
Lemma at_slice : forall n k t kd lo hi ts, n <= 10 -> unaliased A kd -> reads_back t -> Forall reads_back (opt_list lo) -> Forall reads_back (opt_list hi) -> readable (At 10) t ->
  Forall (readable (At 0)) (opt_list lo) -> Forall (readable (At 0)) (opt_list hi) ->
  writes (print E (EListOp k t kd lo true hi)) ts -> at_ n (EListOp k t kd lo true hi) ts.
Proof.
  intros n k t kd lo hi ts L U Bt Bl Bh Rt Rl Rh W. cbn [print] in W. start W 10. piece W t1 W1. piece W t2 W2. catnil W. rewrite app_nil_r. apply not_aliased in W2; [|exact U].
  apply cat_inv in W2. destruct W2 as (t3 & y3 & -> & W3 & W2). text W3. apply writes_app in W2. destruct W2 as (tl & y4 & -> & Wl & W2). cbn [app] in W2. piece W2 t4 W4.
  apply not_aliased in W4; [|apply dot_unaliased]. text W4. apply writes_app in W2. destruct W2 as (th & y6 & -> & Wh & W2). piece W2 t5 W5. catnil W2. text W5.
  pose proof (maybe_written lo tl Bl Rl Wl) as Ml. pose proof (maybe_written hi th Bh Rh Wh) as Mh.
  replace (t1 ++ [Mark "["] ++ tl ++ [Mark ".."] ++ th ++ [Mark "]"] ++ []) with (t1 ++ Mark "[" :: (tl ++ Mark ".." :: th) ++ [Mark "]"]) by (rewrite <- app_assoc; reflexivity).
  eapply reads_weaken; [|refine (reads_subscript _ t1 (tl ++ Mark ".." :: th) _ _ (back_at 10 t t1 Bt Rt W1 ltac:(lia)) (fun a _ => _))].
  3: { rewrite <- app_assoc. cbn [app]. exact (parses_slice _ _ tl th a Ml Mh). }
  - cbv beta. intros u (a & Ha & b & c & -> & Hb & Hc). now constructor.
  - apply balanced_app; [now apply (maybe_reads_balanced _ _ Ml)|]. apply balanced_cons; try reflexivity. now apply (maybe_reads_balanced _ _ Mh).
Qed.
Lemma at_list_comp : forall n k kv x l w d ts, n <= 10 -> variable x -> reads_back l -> Forall reads_back (opt_list w) -> Forall reads_back (opt_list d) -> readable (At 0) l ->
  Forall (readable WhereP) (opt_list w) -> Forall (readable (At 0)) (opt_list d) ->
  writes (print E (EListComp k (ESym kv x) l w d)) ts -> at_ n (EListComp k (ESym kv x) l w d) ts.
Proof.
  intros n k kv x l w d ts L V Bl Bw Bd Rl Rw Rd W. cbn [print] in W. start W 10. cbn [app] in W. piece W t1 W1. text W1. apply cat_inv in W. destruct W as (tv & y2 & -> & W2 & W). piece W t3 W3. piece W t4 W4.
  apply writes_app in W. destruct W as (tw & y5 & -> & Ww & W). apply writes_app in W. destruct W as (td & y6 & -> & Wd & W). piece W t7 W7. catnil W. text W7.
  destruct (sym_written kv x tv V W2) as (y & Wy & Vy & Ay). apply op_written in W3. vm_compute in W3. injection W3 as <-.
  assert (D : bar_part (fun t => agrees_if E A t d) td).
  { destruct d as [d|]; cbn [opt_list] in *; [|catnil Wd; left; split; [reflexivity|constructor]]. piece Wd t8 W8. piece Wd t9 W9. catnil Wd. rewrite app_nil_r.
    apply op_written in W8. vm_compute in W8. injection W8 as <-. right. exists t9. split; [reflexivity|]. inversion Bd; inversion Rd; subst.
    eapply reads_weaken; [|apply (back_at 0 d t9); auto; lia]. intros u Hu. now constructor. }
  pose proof (reads_list_comp y tv _ t4 _ _ tw td Vy Wy (back_at 0 l t4 Bl Rl W4 ltac:(lia)) (where_option w tw Bw Rw Ww) D) as G.
  eapply reads_weaken; [|exact G]. intros t (a & b & c & -> & Ha & Hb & Hc). now constructor.
Qed.
Lemma chain_no_filter : forall P long ts r, chain_reads P long ts -> filter_ahead (ts ++ r) = false.
Proof. intros P long ts r ((b & -> & _) & _). reflexivity. Qed.
Lemma at_pat_comp : forall n k p w d ts, n <= 10 -> hopping p = true -> reads_back p -> Forall reads_back (opt_list w) -> reads_back d -> readable ChainP p ->
  Forall (readable WhereP) (opt_list w) -> readable (At 0) d -> writes (print E (EPatComp k p w d)) ts -> at_ n (EPatComp k p w d) ts.
Proof.
  intros n k p w d ts L Ho Bp Bw Bd Rp Rw Rd W. cbn [print] in W. start W 10. cbn [app] in W. piece W t1 W1. text W1. apply cat_inv in W. destruct W as (tp & y2 & -> & W2 & W).
  apply writes_app in W. destruct W as (tw & y5 & -> & Ww & W). piece W t3 W3. piece W t4 W4. piece W t5 W5. catnil W. text W5. apply op_written in W3. vm_compute in W3. injection W3 as <-.
  pose proof (Bp ChainP tp Rp W2) as C. cbn [meaning] in C. rewrite Ho in C.
  pose proof (reads_pat_comp _ tp (fun o => agrees_where E A o w) tw (fun t => agrees t d) t4 (fun mk => exists a h, mk = XPatComp None a h /\ agrees_chain E A a h p) (climb _ 0 10 _ _ ltac:(lia) ltac:(lia) (reads_pattern_if _ tp C))) as G.
  eapply reads_weaken; [|apply G; [| |exact (where_option w tw Bw Rw Ww)|exact (back_at 0 d t4 Bd Rd W4 ltac:(lia))]].
  - intros t (mk & b & c & -> & (a & h & -> & H) & Hb & Hc). now constructor.
  - intros t (c & -> & H). exists (XPatComp None (fst c) (snd c)). split; [intros [u|] v; reflexivity|eauto].
  - intros r. eapply chain_no_filter; exact C.
Qed.
Lemma at_path_comp : forall n k kp kv x p w d ts, n <= 10 -> unaliased A kp -> variable x -> hopping p = true -> reads_back p -> Forall reads_back (opt_list w) -> reads_back d -> readable ChainP p ->
  Forall (readable WhereP) (opt_list w) -> readable (At 0) d -> writes (print E (EPatComp k (ENamedPath kp (ESym kv x) p) w d)) ts -> at_ n (EPatComp k (ENamedPath kp (ESym kv x) p) w d) ts.
Proof.
  intros n k kp kv x p w d ts L U V Ho Bp Bw Bd Rp Rw Rd W. cbn [print] in W. start W 10. cbn [app] in W. piece W t1 W1. text W1. apply cat_inv in W. destruct W as (tn & y2 & -> & W2 & W).
  apply not_aliased in W2; [|exact U]. apply cat_inv in W2. destruct W2 as (tv & y7 & -> & W7 & W2). piece W2 t8 W8. piece W2 tp W9. catnil W2.
  apply writes_app in W. destruct W as (tw & y5 & -> & Ww & W). piece W t3 W3. piece W t4 W4. piece W t5 W5. catnil W. text W5. apply op_written in W3. vm_compute in W3. injection W3 as <-.
  apply op_written in W8. vm_compute in W8. injection W8 as <-. destruct (sym_written kv x tv V W7) as (y & Wy & Vy & Ay). pose proof (Bp ChainP tp Rp W9) as C. cbn [meaning] in C. rewrite Ho in C.
  pose proof (reads_binary_if _ OEq _ _ tv tp (climb _ 5 10 _ _ ltac:(lia) ltac:(lia) (reads_var y tv Vy Wy)) (climb _ 5 10 _ _ ltac:(lia) ltac:(lia) (reads_pattern_if _ tp C))) as Q.
  pose proof (reads_pat_comp _ _ (fun o => agrees_where E A o w) tw (fun t => agrees t d) t4 (fun mk => exists a h, mk = XPatComp (Some y) a h /\ agrees_chain E A a h p) (climb _ 0 4 _ _ ltac:(lia) ltac:(lia) Q)) as G.
  rewrite app_nil_r. eapply reads_weaken; [|apply G; [| |exact (where_option w tw Bw Rw Ww)|exact (back_at 0 d t4 Bd Rd W4 ltac:(lia))]].
  - intros t (mk & b & c & -> & (a & h & -> & H) & Hb & Hc). now constructor.
  - intros t (a & b & -> & -> & c & -> & H). exists (XPatComp (Some y) (fst c) (snd c)). split; [intros [u|] v; reflexivity|eauto].
  - intros r. destruct Wy as [-> | ->]; cbn; destruct (one_of keywords y); reflexivity.
Qed.
Lemma at_pattern : forall n p ts, n <= 4 -> hopping p = true -> meaning ChainP p ts -> at_ n p ts.
Proof.
  intros n p ts L Ho C. cbn [meaning] in C. rewrite Ho in C. apply (climb _ _ 4); [lia|lia|]. eapply reads_weaken; [|exact (reads_pattern _ ts C)]. intros t (c & -> & H). now constructor.
Qed.
Lemma at_has_label : forall n k x ls ts, n <= 9 -> reads_back x -> readable (At 10) x -> ls <> [] -> labels_ok A ls -> writes (print E (EHasLabel k x ls)) ts -> at_ n (EHasLabel k x ls) ts.
Proof.
  intros n k x ls ts L B R N Ok W. cbn [print] in W. assert (L4 : n <= 10) by lia. start W 9. piece W t1 W1. apply labels_written in W; [|exact Ok]. subst.
  eapply reads_weaken; [|apply (reads_labels (fun t => agrees t x) t1 (map snd ls)); [destruct ls; [congruence|discriminate]|exact (back_at 10 x t1 B R W1 ltac:(lia))]]. intros t (a & -> & H). now constructor.
Qed.
Lemma at_exists : forall n k km o p w ts, n <= 10 -> unaliased A km -> reads_back p -> Forall reads_back (opt_list w) -> readable PartsP p -> Forall (readable WhereP) (opt_list w) ->
  writes (print E (EExists k km o p w)) ts -> at_ n (EExists k km o p w) ts.
Proof.
  intros n k km o p w ts L U Bp Bw Rp Rw W. cbn [print] in W. start W 10. piece W t1 W1. text W1. piece W t2 W2. piece W t3 W3. catnil W. text W3. apply not_aliased in W2; [|exact U].
  cbn [app] in W2. piece W2 t4 W4. piece W2 t5 W5. apply writes_app in W2. destruct W2 as (tw & y6 & -> & Ww & W2). piece W2 t7 W7. catnil W2. text W7.
  assert (T4 : t4 = if o then [Word "OPTIONAL"; Word "MATCH"] else [Word "MATCH"]) by (destruct o; text W4; reflexivity). subst t4. rewrite !app_nil_r.
  pose proof (reads_exists _ _ o t5 tw (Bp PartsP t5 Rp W5) (where_option w tw Bw Rw Ww)) as G. eapply reads_weaken; [|exact G].
  intros t (a & b & -> & (kq & ps & -> & H) & Hb). now constructor.
Qed.
Lemma whens_written : forall (bs : list (key * expr * expr)) ts, Forall (fun b => reads_back (snd (fst b)) /\ reads_back (snd b)) bs ->
  Forall (fun b => unaliased A (fst (fst b)) /\ readable (At 0) (snd (fst b)) /\ readable (At 0) (snd b)) bs ->
  writes (Cat (flat_map (fun b => [Shared (fst (fst b)) (Cat [Txt " WHEN "; print E (snd (fst b)); Txt " THEN "]); print E (snd b)]) bs)) ts ->
  exists l, ts = branches l /\ Forall2 (fun b x => reads 0 (fun t => agrees t (snd (fst b))) (fst x) /\ reads 0 (fun t => agrees t (snd b)) (snd x)) bs l.
Proof.
  induction bs as [|[[kb c] v] bs IH]; intros ts B R W; cbn [flat_map app fst snd] in W; [catnil W; exists []; split; [reflexivity|constructor]|].
  piece W t1 W1. piece W t2 W2. inversion B as [|? ? [Bc Bv] B']; subst. inversion R as [|? ? (U & Rc & Rv) R']; subst. cbn [fst snd] in *. apply not_aliased in W1; [|exact U].
  piece W1 t3 W3. piece W1 t4 W4. piece W1 t5 W5. catnil W1. text W3. text W5. destruct (IH _ B' R' W) as (l & -> & F). exists ((t4, t2) :: l).
  split; [cbn [branches flat_map fst snd app]; rewrite <- !app_assoc; cbn [app]; reflexivity|]. constructor; [|exact F]. split; [exact (back_at 0 c t4 Bc Rc W4 ltac:(lia))|exact (back_at 0 v t2 Bv Rv W2 ltac:(lia))].
Qed.
Lemma at_case : forall n k (g : bool) s bs d ts, n <= 10 -> (g = true -> s = None) -> bs <> [] -> Forall reads_back (opt_list s) ->
  Forall (fun b => reads_back (snd (fst b)) /\ reads_back (snd b)) bs -> (forall kd x, d = Some (kd, x) -> reads_back x) -> Forall (readable (At 0)) (opt_list s) ->
  Forall (fun b => unaliased A (fst (fst b)) /\ readable (At 0) (snd (fst b)) /\ readable (At 0) (snd b)) bs ->
  (forall kd x, d = Some (kd, x) -> unaliased A kd /\ readable (At 0) x) -> writes (print E (ECase k g s bs d)) ts -> at_ n (ECase k g s bs d) ts.
Proof.
  intros n k g s bs d ts L G Ne Bs Bb Bd Rs Rb Rd W. cbn [print] in W. start W 10. apply writes_app in W. destruct W as (t1 & y1 & -> & W1 & W). apply writes_app in W. destruct W as (t2 & y2 & -> & W2 & W).
  apply writes_app in W. destruct W as (t3 & y3 & -> & W3 & W). apply writes_app in W. destruct W as (t4 & y4 & -> & W4 & W). piece W t5 W5. catnil W. text W5.
  piece W1 t6 W6. catnil W1. assert (T6 : t6 = [Word "CASE"]) by (destruct g; text W6; reflexivity). subst t6. destruct (whens_written bs t3 Bb Rb W3) as (l & -> & F).
  assert (D : after_part "ELSE" (fun t => agrees_if E A t (option_map snd d)) t4).
  { destruct d as [[kd x]|]; [|catnil W4; left; split; [reflexivity|constructor]]. destruct (Rd kd x eq_refl) as [U R]. cbn [fst snd] in W4. piece W4 t7 W7. catnil W4. rewrite app_nil_r.
    apply not_aliased in W7; [|exact U]. piece W7 t8 W8. piece W7 t9 W9. catnil W7. text W8. rewrite app_nil_r. right. exists t9. split; [reflexivity|].
    eapply reads_weaken; [|exact (back_at 0 x t9 (Bd kd x eq_refl) R W9 ltac:(lia))]. intros u Hu. now constructor. }
  pose proof (reads_case _ _ (fun b t => agrees t (snd (fst b))) (fun b t => agrees t (snd b)) t2 bs l t4 (maybe_written s t2 Bs Rs W2) F D) as Q.
  eapply reads_weaken; [|apply Q]. 2: { intros ->. inversion F; subst. congruence. }
  intros t (a & vs & o & -> & Ha & Hv & Ho). apply ag_case; auto.
Qed.

Lemma opt_deep : forall o, Forall deep (opt_list o) -> Forall reads_back (opt_list o).
Proof. intros o. apply children_back. Qed.

Ltac kids IH := repeat match type of IH with
  | Forall deep (_ :: _) => let D := fresh "D" in let IH' := fresh "IH" in inversion IH as [|? ? D IH']; clear IH; rename IH' into IH; subst
  | Forall deep (_ ++ _) => let IH' := fresh "IH" in apply Forall_app in IH; destruct IH as [IH' IH]; apply children_back in IH'
  end.
Lemma at_back : forall e n ts, Forall deep (children e) -> readable (At n) e -> writes (print E e) ts -> n <= 10 -> at_ n e ts.
Proof.
  intros e n ts IH R W L. inversion R; subst; cbn [children opt_list app] in IH.
  - now apply at_sym.
  - now apply at_param.
  - now apply at_star.
  - now apply at_bool.
  - now apply at_null.
  - now apply at_str.
  - now apply at_num.
  - apply at_list; auto. now apply children_back.
  - kids IH. apply at_list_expr; auto. apply D.
  - apply at_map; auto. now apply children_back.
  - kids IH. apply at_prop; auto. apply D.
  - kids IH. eapply at_operation; eauto; [apply D|apply D0].
  - kids IH. eapply at_comparison; eauto; [apply D|apply D0].
  - kids IH. apply at_not; auto. apply D.
  - kids IH. apply at_is_null; auto. apply D.
  - kids IH. apply at_nested; auto. apply D.
  - kids IH. destruct D as [_ D]. cbn [children opt_list app] in D. inversion D as [|? ? D1 D']; subst. inversion D'; subst. now apply (at_nested_comparison n k kc l o r b).
  - kids IH. destruct D as [_ D]. cbn [children opt_list app] in D. inversion D as [|? ? D1 D']; subst. now apply at_nested_null.
  - kids IH. destruct D as [_ D]. cbn [children] in D. inversion D as [|? ? D1 D']; subst. now apply at_nested_call.
  - kids IH. apply at_const; auto. apply D.
  - kids IH. cbn [print] in W. eapply reads_weaken; [|apply (back_at n e0 ts (proj1 D)); auto]. intros t H'. now constructor.
  - kids IH. cbn [print] in W. eapply reads_weaken; [|apply (back_at n c ts (proj1 D)); auto]. intros t H'. now constructor.
  - eapply at_compound; eauto. now apply children_back.
  - apply at_fun; auto. now apply children_back.
  - kids IH. destruct D as [_ D]. cbn [children] in D. inversion D; subst. now apply at_fun_distinct.
  - kids IH. destruct D as [_ D]. cbn [children] in D. inversion D as [|? ? _ D']; subst. inversion D' as [|? ? D1 D'']; subst. inversion D'' as [|? ? D2 _]; subst. now apply at_fun_filter.
  - kids IH. destruct D0 as [_ D0]. cbn [children] in D0. now apply at_project.
  - kids IH. apply at_index; auto; [apply D|apply D0].
  - kids IH. apply at_slice; auto; [apply D|now apply children_back].
  - kids IH. apply at_list_comp; auto; [apply D0|now apply children_back].
  - kids IH. apply at_pat_comp; auto; [apply D|now apply children_back|apply D0].
  - kids IH. destruct D as [_ D]. cbn [children] in D. inversion D as [|? ? _ D']; subst. inversion D' as [|? ? D1 _]; subst. apply at_path_comp; auto; [now apply children_back|apply D0].
  - kids IH. apply at_excluded; auto. apply D.
  - kids IH. apply at_rel_cond; auto. apply D.
  - apply at_pattern; auto. now apply chains_back.
  - kids IH. apply at_has_label; auto. apply D.
  - kids IH. apply at_exists; auto; [apply D|now apply children_back].
  - apply children_back in IH. apply Forall_app in IH. destruct IH as [I1 IH]. apply Forall_app in IH. destruct IH as [I2 I3]. apply at_case; auto.
    + clear -I2. induction bs as [|b bs IH]; [constructor|]. cbn [flat_map app] in I2. inversion I2 as [|? ? B1 B2]; subst. inversion B2; subst. constructor; auto.
    + intros kd x ->. cbn in I3. now inversion I3.
Qed.

Theorem deep_back : forall e, deep e.
Proof.
  apply expr_ind'. intros e IH. split; [|now apply children_back]. intros c ts R W. destruct c.
  - intros L. now apply at_back.
  - now apply maps_back.
  - now apply entries_back.
  - now apply projections_back.
  - now apply props_back.
  - now apply nodes_back.
  - now apply details_back.
  - now apply chains_back.
  - now apply parts_back.
  - now apply patterns_back.
  - now apply wheres_back.
Qed.
Theorem written_back : forall e c ts, readable c e -> writes (print E e) ts -> meaning c e ts.
Proof. intros e. apply deep_back. Qed.
End Reading.
