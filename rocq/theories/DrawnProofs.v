(** Patterns built by calls are read as what the calls ask for. *)

From Coq Require Import Ascii String List ZArith Bool Lia.
From Verif Require Import GoStr Escape EscapeProofs Num NumProofs VTree Ast SpecTokens TokenTexts SpecDoc SpecPrint SpecLeaves SpecShape SpecOutline SpecGrammar
  SpecReading GoVal Maps Slices Patterns SpecPattern PatternProofs ChainProofs Exprs Functions SpecCalls ExprProofs FunctionProofs SpecAsked AskedProofs PropertiesTokens SpecDrawn.
Import ListNotations.
Open Scope string_scope.
Open Scope nat_scope.
Open Scope list_scope.

Section Drawn.
Context (A : register) (NK : unaliased A "").
Notation unaliased := (unaliased A).

(** ** What the calls make *)

Definition props_of (fs : option (list (string * cx))) (p : props) : Prop :=
  match fs with
  | None => p = NoProps
  | Some l => exists k km es, p = Props k (MapOk km es) /\ unaliased k /\ unaliased km /\ denotes_fields A l es
  end.
Definition sym_of (x : option string) (s : sym) : Prop :=
  match x with Some y => exists k, s = Sym k y /\ unaliased k | None => s = NoSym end.
Definition node_of (c : cnode) (n : node) : Prop :=
  match c with
  | CNode x ls ps => nd_err n = None /\ nd_not_nil n = true /\ unaliased (nd_key n) /\ sym_of x (nd_sym n)
      /\ map snd (nd_labels n) = ls /\ labels_ok A (nd_labels n) /\ props_of ps (nd_props n)
  end.
Definition length_of (h : SpecPattern.hops) (l : rel_length) : Prop :=
  match h with
  | OneHop => l = None
  | AnyHops => exists k, l = Some (k, true, None, None) /\ unaliased k
  | Between lo hi => exists k, l = Some (k, false, lo, hi) /\ unaliased k /\ (lo <> None \/ hi <> None)
  end.
Definition types_of (ts : list string) (t : rel_types) : Prop :=
  match ts with [] => t = None | _ => exists k, t = Some (k, ts) /\ unaliased k end.
Definition details_of (w : wish) (t : details) : Prop :=
  dt_err t = None /\ heading_of (dt_dir t) = Some (w_heading w) /\ unaliased (dt_key t) /\ sym_of (w_name w) (dt_sym t) /\ types_of (w_types w) (dt_types t)
  /\ length_of (w_hops w) (dt_len t) /\ props_of (w_fields w) (dt_props t).
Definition rel_of (l r : node) (w : wish) (x : rel) : Prop :=
  r_left x = l /\ r_right x = r /\ r_err x = None /\ r_not_nil x = true /\ unaliased (r_key x) /\ details_of w (r_details x).

Lemma map_of : forall fs m, map_asked A fs m -> exists km es, m = MapOk km es /\ unaliased km /\ denotes_fields A fs es.
Proof.
  intros fs m (K & l & g & F & N & Q & R & ->). destruct (map_made A K fs l F N (proj2 (proj2 (asked_made A NK)) fs l Q)) as (es & R' & D).
  assert (g = GOk (EMap (k_self K) es)) as -> by congruence. exists (k_self K), es. split; [reflexivity|]. split; [apply F|]. now inversion D.
Qed.

Lemma made_props : forall k fs m, unaliased k -> map_asked A fs m -> props_of (Some fs) (properties_create k m).
Proof. intros k fs m U M. destruct (map_of fs m M) as (km & es & -> & Um & D). exists k, km, es. auto. Qed.

Lemma sym_fine : forall x s, sym_of x s -> sym_err s = None.
Proof. intros [y|] s; [intros (k & -> & _)|intros ->]; reflexivity. Qed.
Lemma props_fine : forall fs p, props_of fs p -> props_err p = None.
Proof. intros [l|] p; [intros (k & km & es & -> & _)|intros ->]; reflexivity. Qed.

Lemma more_labels : forall ks ls, fresh A ks -> Forall (fun x => x <> "") ls ->
  forall i, map snd (combine (map (fun i => ks (2 + i)) (seq i (length ls))) ls) = ls
         /\ labels_ok A (combine (map (fun i => ks (2 + i)) (seq i (length ls))) ls).
Proof.
  intros ks ls F N. induction N as [|x ls Nx N IH]; intros i; [split; [reflexivity|constructor]|].
  cbn [length seq map combine snd]. destruct (IH (S i)) as [E L]. rewrite E. split; [reflexivity|]. constructor; [split; [apply F|exact Nx]|exact L].
Qed.

Lemma node_made : forall c n, node_asked A c n -> node_of c n.
Proof.
  intros c n H. induction H as [|ks l F N|ks l ls fs m F N Ns M|ks x y ls ps n F N H IH|k x y ls ps n U H IH|ks x ls ps n fs m F M H IH].
  - repeat split; [exact NK|constructor].
  - unfold a_node. destruct (String.eqb_spec l "") as [->|_]; [now destruct N|]. repeat split; [apply F|]. constructor; [|constructor]. split; [apply F|exact N].
  - unfold node_with_properties. destruct (String.eqb_spec l "") as [->|_]; [now destruct N|].
    assert (existsb (fun l => String.eqb l "") ls = false) as ->.
    { clear - Ns. induction Ns as [|x ls Nx Ns IH]; [reflexivity|]. cbn. destruct (String.eqb_spec x "") as [->|_]; [now destruct Nx|exact IH]. }
    destruct (more_labels ks ls F Ns 0) as [E L]. cbn [node_of nd_err nd_not_nil nd_key nd_sym nd_labels nd_props map snd].
    rewrite E. repeat split; [apply F| |now apply made_props]. constructor; [split; [exact NK|exact N]|exact L].
  - cbn [node_of] in *. destruct IH as (E & O & U & S & L & Lo & P). repeat split; auto. unfold node_named_by_string, symbolic_name_create. cbn [nd_sym].
    destruct (String.eqb_spec x "") as [->|_]; [now destruct N|]. exists (ks 0). split; [reflexivity|apply F].
  - cbn [node_of] in *. destruct IH as (E & O & U' & S & L & Lo & P). repeat split; auto. exists k. auto.
  - cbn [node_of] in *. destruct IH as (E & O & U' & S & L & Lo & P). repeat split; auto; [apply F|now apply made_props].
Qed.

Lemma rel_made : forall ks c l d r h ts, fresh A ks -> nd_err l = None -> node_of c r -> heading_of d = Some h ->
  rel_of l r (Wish h None ts OneHop None) (rel_create ks l d r ts).
Proof.
  intros ks [x ls ps] l d r h ts F L (R & _) H. unfold rel_create. rewrite L, R, rel_create3_ok by (auto; destruct ts; reflexivity).
  repeat split; try apply F; [exact H|]. destruct ts; [reflexivity|]. exists (ks 2). split; [reflexivity|apply F].
Qed.

Lemma upper_of : forall h l, length_of h l -> match l with Some (_, _, _, hi) => hi | None => None end = upper h.
Proof. intros [| |lo hi] l; [intros ->|intros (k & -> & _)|intros (k & -> & _)]; reflexivity. Qed.
Lemma lower_of : forall h l, length_of h l -> match l with Some (_, _, lo, _) => lo | None => None end = lower h.
Proof. intros [| |lo hi] l; [intros ->|intros (k & -> & _)|intros (k & -> & _)]; reflexivity. Qed.

Lemma change_made : forall ks c l r w w' x, fresh A ks -> nd_err l = None -> nd_err r = None -> said A c w w' -> rel_of l r w x -> rel_of l r w' (rel_change ks c x).
Proof.
  intros ks c l r w w' x F L R H (Hl & Hr & He & Hn & Hk & D). pose proof D as (D1 & D2 & D3 & D4 & D5 & D6 & D7).
  pose proof (sym_fine _ _ D4) as DS. pose proof (props_fine _ _ D7) as DP.
  assert (K : forall t', details_of w' t' -> rel_of l r w' (rel_create3 (ks 0) (r_left x) t' (r_right x))).
  { intros t' D'. rewrite Hl, Hr, rel_create3_ok by (auto; apply D'). unfold rel_of. cbn. repeat split; try apply D'. apply F. }
  destruct H as [y h y0 ts hs fs N|h y ts hs fs|z h y ts hs fs|z h y ts hs fs|lo hi h y ts hs fs|gs m h y ts hs fs M|h y ts hs fs];
    cbn [rel_change w_heading w_name w_types w_hops w_fields] in *.
  - apply K. unfold details_named. destruct (String.eqb_spec y "") as [->|_]; [now destruct N|]. unfold symbolic_name_create.
    destruct (String.eqb_spec y "") as [->|_]; [now destruct N|]. rewrite details_create_ok by auto.
    repeat split; cbn; auto. exists (ks 1). split; [reflexivity|apply F].
  - apply K. unfold details_unbounded. rewrite details_create_ok by auto. repeat split; cbn; auto. exists (ks 1). split; [reflexivity|apply F].
  - apply K. unfold details_min. rewrite details_create_ok by auto. repeat split; cbn; auto. exists (ks 1). rewrite (upper_of _ _ D6).
    split; [reflexivity|]. split; [apply F|left; discriminate].
  - apply K. unfold details_max. rewrite details_create_ok by auto. repeat split; cbn; auto. exists (ks 1). rewrite (lower_of _ _ D6).
    split; [reflexivity|]. split; [apply F|right; discriminate].
  - apply K. unfold details_max, details_min. rewrite (details_create_ok (dt_dir (r_details x))) by auto. cbn. rewrite details_create_ok by auto.
    repeat split; cbn; auto. exists (ks 1). split; [reflexivity|]. split; [apply F|left; discriminate].
  - destruct (map_of gs m M) as (km & es & -> & Um & De). cbn [map_not_nil negb andb]. apply K. unfold details_with, properties_create. cbn [map_err].
    rewrite details_create_ok by auto. repeat split; cbn; auto. exists (ks 1), km, es. split; [reflexivity|]. split; [apply F|auto].
  - cbn [map_not_nil negb andb]. destruct (props_not_nil (dt_props (r_details x))) eqn:Ep; cbn [negb].
    + apply K. unfold details_with. rewrite details_create_ok by auto. repeat split; cbn; auto.
    + unfold rel_of. repeat split; auto. cbn. destruct fs as [gs|]; [destruct D7 as (k & km & es & X & _); rewrite X in Ep; discriminate|exact D7].
Qed.

Lemma changes_of : forall cs l r w w' x, nd_err l = None -> nd_err r = None -> all_said A cs w w' -> rel_of l r w x ->
  rel_of l r w' (fold_left (fun r (c : (nat -> key) * change) => rel_change (fst c) (snd c) r) cs x).
Proof.
  intros cs l r w w' x L R H. revert x. induction H as [w|ks c cs w w' w'' F S H IH]; intros x M; [exact M|]. cbn [fold_left fst snd].
  apply IH. now apply (change_made ks c l r w).
Qed.

(** A relationship, what was said about it, and the nodes. *)
Lemma leg_of : forall s l left, nd_err left = None -> leg_asked A s l ->
  exists w, fst s = wished w /\ rel_of left (l_node l) w (leg_rel left l) /\ node_of (snd s) (l_node l).
Proof.
  intros [y z] l left L (h & w & F & H & S & Q & N). exists w. cbn [fst snd] in *. apply node_made in N. split; [exact Q|]. split; [|exact N].
  assert (R : nd_err (l_node l) = None) by (destruct z; apply N).
  unfold leg_rel. apply (changes_of _ _ _ (Wish h None (l_types l) OneHop None)); auto. now apply (rel_made _ z).
Qed.

(** The relationships of a chain. *)
Inductive linked : node -> list (crel * cnode) -> list rel -> Prop :=
| lk_nil : forall n, linked n [] []
| lk_cons : forall n w c ss r rs, rel_of n (r_right r) w r -> node_of c (r_right r) -> linked (r_right r) ss rs ->
    linked n ((wished w, c) :: ss) (r :: rs).

Lemma legs_linked : forall ss ls first, nd_err first = None -> Forall2 (leg_asked A) ss ls -> linked first ss (leg_rels first ls).
Proof.
  intros ss ls first L H. revert first L. induction H as [|[y z] l ss ls Hl H IH]; intros first L; [constructor|]. cbn [leg_rels].
  destruct (leg_of _ _ first L Hl) as (w & Q & R & N). cbn [fst snd] in *. subst y. assert (X : r_right (leg_rel first l) = l_node l) by apply R.
  constructor; rewrite ?X; auto. apply IH. destruct z; apply N.
Qed.

(** ** What agrees with it *)

Context (E : env) (NS : no_space_in_names E).
Notation readable := (SpecReading.readable E A).
Notation K := (fun k => exists a, A k a).

Lemma map_only : forall fs es km l, denotes_fields A fs es -> (agrees_map E A l (EMap km es) <-> l = fs).
Proof.
  intros fs es km l D. split.
  - intros H. inversion H; subst. now apply (proj1 (proj2 (proj2 (denotes_only A E NS))) fs es D).
  - intros ->. constructor. now apply (proj1 (proj2 (proj2 (denotes_only A E NS))) fs es D).
Qed.

Lemma props_only : forall fs p t, props_of fs p -> (agrees_props E A t (props_part p) <-> t = fs).
Proof.
  intros [l|] p t.
  - intros (k & km & es & -> & U & Um & D). cbn [props_part map_expr]. split.
    + intros H. inversion H; subst. f_equal. now apply (map_only l es km).
    + intros ->. constructor. now apply (map_only l es km).
  - intros ->. cbn. split; [intros H; now inversion H|intros ->; constructor].
Qed.

(** What happens to the named nodes that are written again. *)
Definition noted (P : Prop) (n : node) : Prop := nd_sym n <> NoSym -> again A (nd_key n) -> P.

Lemma node_only : forall c n, node_of c n -> agrees_node E A c (node_expr n)
  /\ forall P t, noted P n -> agrees_node E A t (node_expr n) -> near_node P t c.
Proof.
  intros [x ls ps] n (Er & O & U & S & L & Lo & P). unfold node_expr.
  assert (B : forall x', SpecReading.named A x' (sym_part (nd_sym n)) <-> x' = x).
  { intros x'. destruct x as [y|]; [destruct S as (k & -> & Uk)|rewrite S]; cbn.
    - split; [intros H; inversion H; subst; [reflexivity|]; match goal with G : aliases A k _ |- _ => destruct (Uk _ G) end|intros ->; constructor].
    - split; [intros H; now inversion H|intros ->; constructor]. }
  split.
  - rewrite <- L. constructor; [now apply B|now apply (props_only ps)].
  - intros R t Nt H. inversion H as [k n0 ls0 ps0 x' l Nm Ap|k kn x' ls0 ps0 Ag]; subst.
    + apply B in Nm. subst x'. apply (props_only ps) in Ap; [|exact P]. subst l. constructor.
    + assert (X : Some x' = x) by (apply B; match goal with G : _ = sym_part _ |- _ => rewrite <- G end; constructor). subst x. constructor.
      apply Nt; [|assumption]. intros Q. match goal with G : _ = sym_part _ |- _ => rewrite Q in G; discriminate end.
Qed.

Lemma length_only : forall h l, length_of h l -> length_as l = length_said h.
Proof.
  intros [| |lo hi] l; [intros ->|intros (k & -> & _)|intros (k & -> & _ & N)]; try reflexivity. cbn. destruct lo, hi; try reflexivity. destruct N; congruence.
Qed.

Lemma details_only : forall w d t, details_of w d -> (agrees_rel E A t (details_expr d) <-> t = wished w).
Proof.
  intros w d t (D1 & D2 & D3 & D4 & D5 & D6 & D7). unfold details_expr, wished.
  assert (T : match dt_types d with Some (_, v) => v | None => [] end = w_types w).
  { unfold types_of in D5. destruct (w_types w); [now rewrite D5|destruct D5 as (k & -> & _); reflexivity]. }
  assert (B : forall x, agrees_if E A (option_map XVar x) (option_map (fun x => ESym (fst x) (snd x)) (sym_part (dt_sym d))) <-> x = w_name w).
  { intros x. unfold sym_of in D4. destruct (w_name w) as [y|]; [destruct D4 as (k & -> & Uk)|rewrite D4]; cbn.
    - split.
      + intros H. inversion H; subst. destruct x as [z|]; [|discriminate]. cbn in *. match goal with G : Some _ = Some _ |- _ => injection G as -> end.
        match goal with G : SpecReading.agrees _ _ _ _ |- _ => apply (only_sym A E k y Uk) in G; injection G as ->; reflexivity end.
      + intros ->. constructor. now apply (only_sym A E k y Uk).
    - split; [intros H; inversion H; subst; now destruct x|intros ->; constructor]. }
  split.
  - intros H. inversion H as [k d0 n ts len ps h x l Hd Hn Hp]; subst. apply B in Hn. apply (props_only (w_fields w)) in Hp; [|exact D7]. subst.
    rewrite D2 in Hd. injection Hd as <-. now rewrite T, (length_only _ _ D6).
  - intros ->. rewrite <- T, <- (length_only _ _ D6). constructor; [exact D2|now apply B|now apply (props_only (w_fields w))].
Qed.

Lemma hops_only : forall ss n rs c, linked n ss rs -> node_of c n ->
  let steps := map (fun r => (node_expr (r_left r), details_expr (r_details r))) rs in
  let final := node_expr (last (map r_right rs) n) in
  agrees_hops E A c ss steps final
  /\ forall P t h, Forall (noted P) (n :: map r_right rs) -> agrees_hops E A t h steps final -> near_node P t c /\ Forall2 (near_step P) h ss.
Proof.
  intros ss n rs c L. revert c. induction L as [n|n w c0 ss r rs R N L IH]; intros c Nc.
  - cbn [map last]. split; [constructor; now apply (node_only c n)|].
    intros P t h Nt H. inversion Nt; subst. inversion H; subst. split; [|constructor]. now apply (node_only c n Nc).
  - assert (X : r_left r = n) by apply R. assert (D : details_of w (r_details r)) by apply R. cbn zeta.
    replace (last (map r_right (r :: rs)) n) with (last (map r_right rs) (r_right r)).
    2:{ cbn [map]. destruct rs as [|r1 rs]; [reflexivity|]. cbn [map]. change (last (r_right r :: r_right r1 :: map r_right rs) n) with (last (r_right r1 :: map r_right rs) n).
        apply last_any. }
    cbn [map]. rewrite X. destruct (IH c0 N) as [IH1 IH2]. split.
    + constructor; [now apply (node_only c)|now apply (details_only w)|exact IH1].
    + intros P t h Nt H. inversion Nt; subst. inversion H as [|n0 d l last0 x y z h' Hn Hd Hh]; subst. apply (details_only w) in Hd; [|exact D]. subst y.
      destruct (IH2 P z h') as [Hz F]; auto. split; [now apply (node_only c _ Nc)|]. constructor; [|exact F]. split; [reflexivity|exact Hz].
Qed.

(** ** What is read back *)

Lemma props_back : forall fs p, props_of fs p -> drawable_fields E fs -> Forall (readable PropsP) (opt_list (props_part p)).
Proof.
  intros [l|] p; [intros (k & km & es & -> & U & Um & D) W|intros -> _; constructor]. constructor; [|constructor]. apply rd_props; [exact U|].
  apply rd_entries; [exact Um|]. exact (proj1 (proj2 (proj2 (denotes_back A NK E NS))) l es D W).
Qed.

Lemma node_back : forall c n, node_of c n -> drawable_node E c -> readable NodeP (node_expr n).
Proof.
  intros [x ls ps] n (Er & O & U & S & L & Lo & P) [W1 W2]. apply rd_node; auto; [|now apply (props_back ps)].
  intros kx y Q. destruct x as [z|]; [destruct S as (k & S & _)|]; rewrite S in Q; [|discriminate]. now injection Q as <- <-.
Qed.

Definition drawable_wish (w : wish) : Prop :=
  match w_name w with Some n => variable n | None => True end /\ Forall (fun t => t <> "") (w_types w) /\ drawable_fields E (w_fields w).

Lemma details_back : forall w d, details_of w d -> drawable_wish w -> readable DetailsP (details_expr d).
Proof.
  intros w d (D1 & D2 & D3 & D4 & D5 & D6 & D7) (W1 & W2 & W3). apply rd_details; auto.
  - intros Q. rewrite Q in D2. discriminate.
  - unfold sym_of in D4. destruct (w_name w) as [y|]; [destruct D4 as (k & -> & _)|rewrite D4]; cbn; [|constructor]. constructor; [|constructor]. eauto.
  - intros kt v Q. unfold types_of in D5. destruct (w_types w); [congruence|]. destruct D5 as (k & T & Uk). rewrite T in Q. injection Q as <- <-. auto.
  - intros kl u lo hi Q. destruct (w_hops w); [congruence| |]; [destruct D6 as (k & T & Uk)|destruct D6 as (k & T & Uk & _)]; rewrite T in Q; injection Q as <- <- <- <-; exact Uk.
  - now apply (props_back (w_fields w)).
Qed.

Lemma linked_back : forall ss n rs c, linked n ss rs -> node_of c n -> drawable_node E c -> Forall (drawable_step E) ss ->
  Forall (fun p => readable NodeP (fst p) /\ readable DetailsP (snd p)) (map (fun r => (node_expr (r_left r), details_expr (r_details r))) rs)
  /\ readable NodeP (node_expr (last (map r_right rs) n)).
Proof.
  intros ss n rs c L. revert c. induction L as [n|n w c0 ss r rs R N L IH]; intros c Nc W F; [split; [constructor|now apply (node_back c)]|].
  inversion F as [|? ? [F1 F2] F3]; subst. cbn [fst snd wished] in *. destruct (IH c0 N F2 F3) as [H1 H2].
  assert (X : r_left r = n) by apply R. assert (D : details_of w (r_details r)) by apply R. split.
  - cbn [map]. constructor; [|exact H1]. cbn [fst snd]. rewrite X. split; [now apply (node_back c)|]. now apply (details_back w).
  - cbn [map]. destruct rs as [|r1 rs]; [exact H2|]. cbn [map] in *. change (last (r_right r :: r_right r1 :: map r_right rs) n) with (last (r_right r1 :: map r_right rs) n).
    now rewrite (last_any _ (map r_right rs) (r_right r1) n (r_right r)).
Qed.

(** ** Where the elements stand *)


Lemma props_shaped : forall fs p, props_of fs p -> drawable_fields E fs -> all_attached K (props_part p) /\ Forall (shaped E K) (opt_list (props_part p)).
Proof.
  intros [l|] p; [intros (k & km & es & -> & U & Um & D) W|intros -> _; split; constructor]. cbn. split.
  - constructor; [now apply free_key|constructor].
  - constructor; [|constructor]. constructor; [exact Logic.I|]. constructor; [|constructor]. constructor; [exact Logic.I|].
    exact (proj1 (proj2 (proj2 (denotes_shaped A E NS))) l es D W).
Qed.

Lemma node_shaped : forall c n, node_of c n -> drawable_node E c -> attached K (node_expr n) /\ shaped E K (node_expr n).
Proof.
  intros [x ls ps] n (Er & O & U & S & L & Lo & P) [W1 W2]. destruct (props_shaped ps _ P W2) as [A1 A2]. split; [now apply free_key|].
  constructor; [|exact A2]. split; [|split; [|exact A1]].
  - intros kx y Q. destruct x as [z|]; [destruct S as (k & S & _)|]; rewrite S in Q; [|discriminate]. injection Q as <- <-. now apply word_contained.
  - eapply Forall_impl; [|exact Lo]. intros l [H _]. now apply free_key.
Qed.

Lemma details_shaped : forall w d, details_of w d -> drawable_wish w -> attached K (details_expr d) /\ shaped E K (details_expr d).
Proof.
  intros w d (D1 & D2 & D3 & D4 & D5 & D6 & D7) (W1 & W2 & W3). destruct (props_shaped _ _ D7 W3) as [A1 A2]. split; [now apply free_key|].
  constructor; [split; [|split; [|exact A1]]|].
  - intros kt v Q. apply free_key. unfold types_of in D5. destruct (w_types w); [congruence|]. destruct D5 as (k & T & Uk). rewrite T in Q. now injection Q as <- <-.
  - intros kl u lo hi Q. apply free_key. destruct (w_hops w); [congruence| |]; [destruct D6 as (k & T & Uk)|destruct D6 as (k & T & Uk & _)]; rewrite T in Q; injection Q as <- <- <- <-; exact Uk.
  - cbn [children]. apply Forall_app. split; [|exact A2]. unfold sym_of in D4. destruct (w_name w) as [y|]; [destruct D4 as (k & -> & _)|rewrite D4]; cbn; [|constructor].
    constructor; [|constructor]. now apply shaped_leaf.
Qed.

(** ** Whole patterns *)

Inductive chain_of : cnode -> list (crel * cnode) -> expr -> Prop :=
| co_node : forall c n, node_of c n -> chain_of c [] (node_expr n)
| co_rel : forall c n w d r, node_of c n -> rel_of n (r_right r) w r -> node_of d (r_right r) -> chain_of c [(wished w, d)] (rel_expr r)
| co_chain : forall c n ss rs, node_of c n -> linked n ss rs -> ss <> [] -> chain_of c ss (chain_expr rs).

Lemma node_fine : forall c n, node_of c n -> nd_err n = None /\ nd_not_nil n = true.
Proof. intros [x ls ps] n (Er & O & _). auto. Qed.

Lemma chain_made : forall c ss g, chain_asked A c ss g -> exists e, g = GOk e /\ chain_of c ss e.
Proof.
  intros c ss g H. destruct H as [c n N|c n [y z] l N L|grow c n s1 s2 ss l1 l2 ls h cs N L1 L2 L R].
  - apply node_made in N. exists (node_expr n). unfold node_value. rewrite (proj1 (node_fine c n N)). split; [reflexivity|now constructor].
  - apply node_made in N. destruct (leg_of _ _ n (proj1 (node_fine c n N)) L) as (w & Q & X & Nz). cbn [fst snd] in *. subst y.
    exists (rel_expr (leg_rel n l)). unfold rel_value. assert (Er : r_err (leg_rel n l) = None) by apply X. rewrite Er. split; [reflexivity|].
    assert (Rr : r_right (leg_rel n l) = l_node l) by apply X. apply (co_rel c n w z); rewrite ?Rr; auto.
  - apply node_made in N. destruct (fluent_chain grow n l1 l2 ls) as (h' & cs' & R' & Rd). rewrite R' in R. injection R as <- <-.
    unfold chain_value. rewrite Rd. eexists. split; [reflexivity|]. apply (co_chain c n); [exact N| |discriminate].
    apply legs_linked; [apply (node_fine c n N)|]. repeat constructor; auto.
Qed.

Lemma chain_form : forall n ss rs, linked n ss rs -> ss <> [] ->
  chain_expr rs = EChain "" (map (fun r => (node_expr (r_left r), details_expr (r_details r))) rs) (Some (node_expr (last (map r_right rs) n))).
Proof.
  intros n ss rs L H. unfold chain_expr. f_equal.
  assert (X : exists r rs', rev rs = r :: rs' /\ r_right r = last (map r_right rs) n /\ nd_not_nil (r_right r) = true).
  { induction L as [n|n w c0 ss r rs R N L IH]; [now destruct H|]. destruct rs as [|r' rs'].
    - exists r, []. split; [reflexivity|]. split; [reflexivity|apply (node_fine _ _ N)].
    - destruct IH as (q & qs & Q1 & Q2 & Q3); [inversion L; discriminate|]. exists q, (qs ++ [r]). change (rev (r :: r' :: rs')) with (rev (r' :: rs') ++ [r]). rewrite Q1.
      split; [reflexivity|]. split; [|exact Q3]. rewrite Q2. cbn [map]. symmetry. apply (last_any _ (map r_right rs') (r_right r') n). }
  destruct X as (r & rs' & -> & -> & X). now rewrite X.
Qed.

Lemma node_noted : forall n, nd_sym n <> NoSym -> forall c, node_of c n -> List.In (nd_key n) (node_mentions (print E (node_expr n))).
Proof.
  intros n N [x ls ps] (Er & O & U & S & _). unfold node_expr. destruct x as [y|]; [destruct S as (k & -> & _)|now rewrite S in N]. cbn. now left.
Qed.

Definition noting (e : expr) : Prop := node_again E (again A) e.

Lemma noted_in : forall e d, incl (node_mentions (print E d)) (node_mentions (print E e)) ->
  forall c n, node_of c n -> d = node_expr n -> noted (noting e) n.
Proof. intros e d I c n N -> S G. exists (nd_key n). split; [|exact G]. apply I. now apply (node_noted n S c). Qed.

Lemma linked_in : forall n ss rs k c, linked n ss rs -> node_of c n ->
  Forall (noted (noting (EChain k (map (fun r => (node_expr (r_left r), details_expr (r_details r))) rs) (Some (node_expr (last (map r_right rs) n))))))
    (n :: map r_right rs).
Proof.
  intros n ss rs k c L N.
  assert (H : forall m, List.In m (n :: map r_right rs) -> (exists c, node_of c m)
    /\ (List.In (node_expr m) (map (fun r => node_expr (r_left r)) rs) \/ m = last (map r_right rs) n)).
  { clear k. revert c N. induction L as [n|n w c0 ss r rs R N' L IH]; intros c N m [<-|H].
    - split; [eauto|now right].
    - destruct H.
    - split; [eauto|]. left. left. now rewrite (proj1 R).
    - cbn [map] in H. destruct (IH c0 N' m H) as [H1 [H2|H2]]; (split; [exact H1|]); [left; now right|right]. rewrite H2. cbn [map].
      destruct rs as [|r1 rs]; [reflexivity|]. cbn [map]. change (last (r_right r :: r_right r1 :: map r_right rs) n) with (last (r_right r1 :: map r_right rs) n).
      apply last_any. }
  apply Forall_forall. intros m Hm. destruct (H m Hm) as [[d Nd] [I|I]].
  - eapply (noted_in _ (node_expr m)); [|exact Nd|reflexivity]. intros x Hx. cbn [print node_mentions option_map maybe]. rewrite flat_map_app. apply in_or_app. left.
    apply in_flat_map. exists (print E (node_expr m)). split; [|exact Hx]. apply in_flat_map.
    apply in_map_iff in I as (r & Q & Ir). exists (node_expr (r_left r), details_expr (r_details r)). split; [|left; now rewrite <- Q].
    apply in_map_iff. now exists r.
  - eapply (noted_in _ (node_expr m)); [|exact Nd|reflexivity]. intros x Hx. cbn [print node_mentions option_map maybe]. rewrite flat_map_app. apply in_or_app. right.
    cbn [flat_map]. rewrite app_nil_r. now rewrite <- I.
Qed.

Lemma chain_only : forall c ss e, chain_of c ss e -> agrees_chain E A c ss e
  /\ forall t h, agrees_chain E A t h e -> near_node (noting e) t c /\ Forall2 (near_step (noting e)) h ss.
Proof.
  intros c ss e H. destruct H as [c n N|c n w d r N R D|c n ss rs N L Ne].
  - split; [constructor; now apply (node_only c n)|]. intros t h H. inversion H; subst. split; [|constructor]. apply (node_only c n N); [|assumption].
    now apply (noted_in _ (node_expr n) (fun x Hx => Hx) c).
  - assert (X : r_left r = n) by apply R. assert (Dr : details_of w (r_details r)) by apply R. split.
    + unfold rel_expr. rewrite X. constructor; [now apply (node_only c n)|now apply (details_only w)|now apply (node_only d)].
    + intros t h H. unfold rel_expr in H. inversion H as [e0 n0 Hn|k l d0 r0 x y z Hx Hy Hz|]; subst; [inversion Hn|]. apply (details_only w) in Hy; [|exact Dr]. subst y.
      split; [apply (node_only c _ N); [|assumption]|constructor; [|constructor]; split; [reflexivity|]; apply (node_only d _ D); [|assumption]].
      * apply (noted_in _ (node_expr (r_left r))) with (c := c); auto. intros x Hx'. unfold rel_expr. cbn [print node_mentions flat_map]. apply in_or_app. now left.
      * apply (noted_in _ (node_expr (r_right r))) with (c := d); auto. intros x Hx'. unfold rel_expr. cbn [print node_mentions flat_map].
        rewrite app_nil_r. apply in_or_app. right. apply in_or_app. now right.
  - rewrite (chain_form n ss rs L Ne). destruct (hops_only ss n rs c L N) as [H1 H2]. split; [now constructor|].
    intros t h H. inversion H as [e0 n0 Hn| |k rels la n0 h0 Hh]; subst; [inversion Hn|]. apply H2; [|assumption]. now apply (linked_in n ss rs "" c).
Qed.

Lemma step_wish : forall w d, drawable_step E (wished w, d) -> drawable_wish w /\ drawable_node E d.
Proof. intros w d [H1 H2]. split; [exact H1|exact H2]. Qed.

Lemma chain_back : forall c ss e, chain_of c ss e -> drawable_node E c -> Forall (drawable_step E) ss -> readable ChainP e.
Proof.
  intros c ss e H W F. destruct H as [c n N|c n w d r N R D|c n ss rs N L Ne].
  - apply rd_alone. now apply (node_back c).
  - assert (X : r_left r = n) by apply R. assert (Dr : details_of w (r_details r)) by apply R. inversion F as [|? ? F1 F2]; subst.
    destruct (step_wish w d F1) as [W1 W2]. apply rd_rel; [apply R|now apply (node_back c)|now apply (details_back w)|now apply (node_back d)].
  - rewrite (chain_form n ss rs L Ne). destruct (linked_back ss n rs c L N W F) as [H1 H2]. now apply rd_chain.
Qed.

Lemma linked_shaped : forall ss n rs c, linked n ss rs -> node_of c n -> drawable_node E c -> Forall (drawable_step E) ss ->
  Forall (fun p => (attached K (fst p) /\ shaped E K (fst p)) /\ (attached K (snd p) /\ shaped E K (snd p)))
    (map (fun r => (node_expr (r_left r), details_expr (r_details r))) rs)
  /\ attached K (node_expr (last (map r_right rs) n)) /\ shaped E K (node_expr (last (map r_right rs) n)).
Proof.
  intros ss n rs c L. revert c. induction L as [n|n w c0 ss r rs R N L IH]; intros c Nc W F; [split; [constructor|now apply (node_shaped c)]|].
  inversion F as [|? ? F1 F3]; subst. destruct (step_wish w c0 F1) as [W1 W2]. destruct (IH c0 N W2 F3) as [H1 H2].
  assert (X : r_left r = n) by apply R. assert (D : details_of w (r_details r)) by apply R. split.
  - cbn [map]. constructor; [|exact H1]. cbn [fst snd]. rewrite X. split; [now apply (node_shaped c)|]. now apply (details_shaped w).
  - cbn [map]. destruct rs as [|r1 rs]; [exact H2|]. cbn [map] in *. change (last (r_right r :: r_right r1 :: map r_right rs) n) with (last (r_right r1 :: map r_right rs) n).
    now rewrite (last_any _ (map r_right rs) (r_right r1) n (r_right r)).
Qed.

Lemma chain_shaped : forall c ss e, chain_of c ss e -> drawable_node E c -> Forall (drawable_step E) ss -> shaped E K e.
Proof.
  intros c ss e H W F. destruct H as [c n N|c n w d r N R D|c n ss rs N L Ne].
  - now apply (node_shaped c).
  - assert (X : r_left r = n) by apply R. assert (Dr : details_of w (r_details r)) by apply R. inversion F as [|? ? F1 F2]; subst.
    destruct (step_wish w d F1) as [W1 W2]. destruct (node_shaped c _ N W), (details_shaped w _ Dr W1), (node_shaped d _ D W2).
    constructor; [split; assumption|]. repeat (constructor; [assumption|]). constructor.
  - rewrite (chain_form n ss rs L Ne). destruct (linked_shaped ss n rs c L N W F) as (H1 & H2 & H3). constructor.
    + split; [|constructor; [exact H2|constructor]]. eapply Forall_impl; [|exact H1]. intros p [[Q1 _] [Q2 _]]. auto.
    + cbn [children opt_list]. apply Forall_app. split; [|constructor; [exact H3|constructor]]. clear - H1.
      induction H1 as [|p l [[_ Q1] [_ Q2]] H1 IH]; [constructor|]. cbn [flat_map app]. constructor; [exact Q1|constructor; [exact Q2|exact IH]].
Qed.

Lemma near_more : forall (P Q : Prop) n h c ss, (P -> Q) -> near_node P n c /\ Forall2 (near_step P) h ss -> near_node Q n c /\ Forall2 (near_step Q) h ss.
Proof.
  intros P Q n h c ss I [H1 H2]. assert (G : forall a b, near_node P a b -> near_node Q a b) by (intros a b [x|x ls ps p]; constructor; auto).
  split; [auto|]. clear H1. induction H2 as [|x y l l' [E1 E2] H IH]; constructor; auto. split; auto.
Qed.

(** The calls make an element, and what is read of it is what was asked for. *)
Theorem part_read : forall c g, part_asked A c g -> exists e, g = GOk e
  /\ agrees_part E A c e
  /\ (forall t, agrees_part E A t e -> near_part (noting e) t c)
  /\ (drawable E c -> readable PartP e /\ shaped E K e).
Proof.
  intros c g H. destruct H as [c ss g H|c ss e k kx x i H Uk Ukx N|c s n l ks x N L F Nx].
  - destruct (chain_made c ss g H) as (e & -> & C). exists e. split; [reflexivity|]. split; [constructor; now apply chain_only|]. split.
    + intros t Q. inversion Q as [n h e0 Qc|k v p x n h Qv Qc|k v kf f ka p x n h Qv Qc]; subst.
      * apply (chain_only c ss e C) in Qc as [Q1 Q2]. repeat split; auto.
      * exfalso. inversion C; subst; unfold node_expr, rel_expr, chain_expr in *; discriminate.
      * exfalso. inversion C; subst; unfold node_expr, rel_expr, chain_expr in *; discriminate.
    + intros (_ & W & F). split; [apply rd_part; now apply (chain_back c ss)|now apply (chain_shaped c ss)].
  - destruct (chain_made c ss _ H) as (e' & Q & C). injection Q as <-. unfold a_path. destruct (String.eqb_spec x "") as [->|_]; [now destruct N|].
    cbn [path_create sym_err value_err path_value pt_err pt_ok pt_name pt_pattern pt_key shown sym_value given].
    eexists. split; [reflexivity|]. split; [constructor; [now apply (only_sym A E kx x Ukx)|now apply chain_only]|]. split.
    + intros t Q. inversion Q as [n h e0 Qc|k0 v p x0 n h Qv Qc|k0 v kf f ka p x0 n h Qv Qc]; subst.
      * exfalso. inversion Qc; subst. match goal with G : agrees_node _ _ _ _ |- _ => inversion G end.
      * apply (chain_only c ss e C) in Qc. apply (only_sym A E kx x Ukx) in Qv. injection Qv as ->.
        split; [reflexivity|]. split; [reflexivity|]. revert Qc. apply near_more. intros (k1 & I1 & G1). exists k1. split; [|exact G1].
        cbn [print node_mentions flat_map]. rewrite app_nil_r. apply in_or_app. right. apply in_or_app. right. exact I1.
      * exfalso. inversion C; subst; unfold node_expr, rel_expr, chain_expr in *; discriminate.
    + intros (Wx & W & F). split; [apply rd_path; auto; now apply (chain_back c ss)|]. constructor; [exact Logic.I|].
      constructor; [now apply shaped_leaf|]. constructor; [now apply (chain_shaped c ss)|constructor].
  - apply node_made in N. destruct s as [y z]. destruct (leg_of _ _ n (proj1 (node_fine c n N)) L) as (w & Q & X & Nz). cbn [fst snd] in *. subst y.
    assert (Er : r_err (leg_rel n l) = None) by apply X. assert (Rn : r_not_nil (leg_rel n l) = true) by apply X. assert (Rr : r_right (leg_rel n l) = l_node l) by apply X.
    assert (C : chain_of c [(wished w, z)] (rel_expr (leg_rel n l))) by (apply (co_rel c n w z); rewrite ?Rr; auto).
    unfold a_shortest_path, rel_as_value. rewrite Er, Rn. destruct (String.eqb_spec x "") as [->|_]; [now destruct Nx|].
    cbn [create_with_element value_err value_ok invocation path_create sym_err path_value pt_err pt_ok pt_name pt_pattern pt_key shown sym_value given Exprs.made].
    eexists. split; [reflexivity|].
    split; [apply (ag_shortest E A (ks 0) (ESym (ks 1) x) _ "shortestPath"); [now apply (only_sym A E (ks 1) x (F 1))|now apply chain_only]|]. split.
    + intros t Q. inversion Q as [n0 h e0 Qc|k0 v p x0 n0 h Qv Qc|k0 v kf f ka p x0 n0 h Qv Qc]; subst.
      * exfalso. inversion Qc; subst. match goal with G : agrees_node _ _ _ _ |- _ => inversion G end.
      * exfalso. inversion Qc; subst. match goal with G : agrees_node _ _ _ _ |- _ => inversion G end.
      * apply (chain_only c _ _ C) in Qc. apply (only_sym A E (ks 1) x (F 1)) in Qv. injection Qv as ->.
        split; [reflexivity|]. split; [reflexivity|]. revert Qc. apply near_more. intros (k1 & I1 & G1). exists k1. split; [|exact G1].
        cbn [print node_mentions flat_map app]. apply in_or_app. right. rewrite !app_nil_r. unfold listing. cbn [map node_mentions flat_map]. apply in_flat_map. exists (print E (rel_expr (leg_rel n l))). split; [now left|exact I1].
    + assert (I : is_identifier E "shortestPath" = true) by reflexivity.
      intros (Wx & W & Fs). split; [apply rd_shortest; try apply F; auto; now apply (chain_back c [(wished w, z)])|]. constructor; [exact Logic.I|].
      constructor; [now apply shaped_leaf|]. constructor; [|constructor]. constructor; [now apply word_contained|]. constructor; [now apply (chain_shaped c [(wished w, z)])|constructor].
Qed.
End Drawn.
