(** Proofs: clauses that say what the same phrase says have the same text. *)

From Coq Require Import Ascii String List ZArith Bool Lia.
From Verif Require Import SpecCond GoStr Escape Num VTree Ast SpecDoc SpecPrint DocProofs GoVal Cond CondProofs Queries Builder BuilderText
  SpecBuilder AgainProofs SpecExtend.
Import ListNotations.
Open Scope string_scope.
Open Scope list_scope.

(** ** Conditions put together twice *)

Inductive csim : cnd -> cnd -> Prop :=
| cs_refl : forall c, csim c c
| cs_comp : forall k k' o l l' n n', Forall2 csim l l' -> csim (Comp k o l n) (Comp k' o l' n')
| cs_err : forall e l l', Forall2 csim l l' -> csim (CompErr e l) (CompErr e l').

Lemma csim_refls : forall l, Forall2 csim l l.
Proof. induction l; constructor; auto using cs_refl. Qed.
Lemma csim_error : forall c c', csim c c' -> get_error c = get_error c'.
Proof. now intros c c' []. Qed.
Lemma csim_conditions : forall c c', csim c c' ->
  match compound_conditions c, compound_conditions c' with
  | Some l, Some l' => Forall2 csim l l'
  | None, None => True
  | _, _ => False
  end.
Proof. intros c c' []; cbn; auto. destruct (compound_conditions c0); auto using csim_refls. Qed.
Lemma csim_op : forall o c c', csim c c' -> has_op o c = has_op o c'.
Proof. now intros o c c' []. Qed.
Lemma csim_flat : forall o l l', Forall2 csim l l' -> can_be_flattened o l = can_be_flattened o l'.
Proof.
  intros o l l' F. induction F as [|c c' l l' S F IH]; [reflexivity|]. unfold can_be_flattened in *. cbn [forallb]. rewrite IH, (csim_op o _ _ S).
  pose proof (csim_conditions _ _ S) as C. destruct (compound_conditions c), (compound_conditions c'); try contradiction; reflexivity.
Qed.
Lemma csim_adds : forall k k' b cs cs' ch x x', Forall2 csim cs cs' -> csim x x' ->
  match add_conditions k b cs ch x, add_conditions k' b cs' ch x' with
  | Some l, Some l' => Forall2 csim l l'
  | None, None => True
  | _, _ => False
  end.
Proof.
  intros k k' b cs cs' ch x x' F S. unfold add_conditions. pose proof (csim_conditions _ _ S) as C. rewrite <- (csim_op ch _ _ S).
  destruct (compound_conditions x) as [inner|], (compound_conditions x') as [inner'|]; try contradiction.
  - destruct C as [|c c' l l' SC C]; [exact F|].
    destruct (b && has_op ch x)%bool.
    + rewrite (csim_flat ch (c :: l) (c' :: l')) by now constructor. destruct (can_be_flattened ch (c' :: l')); apply Forall2_app; auto.
    + apply Forall2_app; [exact F|]. constructor; [|constructor]. apply cs_comp. now constructor.
  - destruct b; [|exact Logic.I]. apply Forall2_app; auto.
Qed.
Lemma csim_added : forall k k' cs cs' ch x x', Forall2 csim cs cs' -> csim x x' -> Forall2 csim (added k cs ch x) (added k' cs' ch x').
Proof.
  intros k k' cs cs' ch x x' F S. unfold added. pose proof (csim_adds k k' true cs cs' ch x x' F S) as A.
  destruct (add_conditions k true cs ch x), (add_conditions k' true cs' ch x'); try contradiction; auto.
Qed.
Lemma csim_nil : forall c c', csim c c' -> c = Nil <-> c' = Nil.
Proof. intros c c' []; split; congruence. Qed.
Lemma create_eq : forall ks l o r, create ks l o r =
  match get_error l, get_error r with
  | Some e, _ | None, Some e => CompErr e []
  | None, None =>
      match l with
      | Nil => CompErr "left hand side condition is required" []
      | _ => match r with
             | Nil => CompErr "right hand side condition is required" []
             | _ => Comp (ks 0) o (added (ks 2) (added (ks 1) [] o l) o r) (length (added (ks 2) (added (ks 1) [] o l) o r))
             end
      end
  end.
Proof. intros ks l o r. destruct l, r; reflexivity. Qed.
Lemma csim_create : forall ks ks' l l' o r r', csim l l' -> csim r r' -> csim (create ks l o r) (create ks' l' o r').
Proof.
  intros ks ks' l l' o r r' L R. rewrite !create_eq, <- (csim_error _ _ L), <- (csim_error _ _ R).
  destruct (get_error l); [apply cs_refl|]. destruct (get_error r); [apply cs_refl|].
  assert (A : csim (Comp (ks 0) o (added (ks 2) (added (ks 1) [] o l) o r) (length (added (ks 2) (added (ks 1) [] o l) o r)))
                   (Comp (ks' 0) o (added (ks' 2) (added (ks' 1) [] o l') o r') (length (added (ks' 2) (added (ks' 1) [] o l') o r')))).
  { apply cs_comp. apply csim_added; [|exact R]. apply csim_added; [constructor|exact L]. }
  destruct L as [c|k k' p cs cs' n n' FL|e cs cs' FL], R as [d|j j' q ds ds' m m' FR|f ds ds' FR];
    try (destruct c); try (destruct d); try apply cs_refl; try exact A.
Qed.
Lemma csim_add : forall ks ks' c c' ch x x', csim c c' -> csim x x' -> csim (add ks c ch x) (add ks' c' ch x').
Proof.
  intros ks ks' c c' ch x x' C X. pose proof (csim_create ks ks' _ _ ch _ _ C X) as CR. destruct C as [c|k k' o l l' n n' F|e l l' F].
  - destruct c as [|e|k kn c|e| |k o l n|e l]; cbn [add]; try (apply cs_comp; apply csim_added; [constructor|exact X]).
    + pose proof (csim_adds (ks 3) (ks' 3) (bop_eqb o ch) l l ch x x' (csim_refls l) X) as A.
      destruct (add_conditions (ks 3) (bop_eqb o ch) l ch x), (add_conditions (ks' 3) (bop_eqb o ch) l ch x'); try contradiction; [now apply cs_comp|exact CR].
    + pose proof (csim_adds (ks 3) (ks' 3) false l l ch x x' (csim_refls l) X) as A.
      destruct (add_conditions (ks 3) false l ch x), (add_conditions (ks' 3) false l ch x'); try contradiction; [now apply cs_err|exact CR].
  - cbn [add]. pose proof (csim_adds (ks 3) (ks' 3) (bop_eqb o ch) l l' ch x x' F X) as A.
    destruct (add_conditions (ks 3) (bop_eqb o ch) l ch x), (add_conditions (ks' 3) (bop_eqb o ch) l' ch x'); try contradiction; [now apply cs_comp|exact CR].
  - cbn [add]. pose proof (csim_adds (ks 3) (ks' 3) false l l' ch x x' F X) as A.
    destruct (add_conditions (ks 3) false l ch x), (add_conditions (ks' 3) false l' ch x'); try contradiction; [now apply cs_err|exact CR].
Qed.
Lemma csim_chain : forall ks ks' ch c c' x z z', csim c c' ->
  condition_chain ks ch c x = Val z -> condition_chain ks' ch c' x = Val z' -> csim z z'.
Proof.
  intros ks ks' ch c c' x z z' C H H'. pose proof (cs_refl x) as X. destruct C as [c|k k' o l l' n n' F|e l l' F].
  - destruct c as [|e|k kn c|e| |k o l n|e l]; try discriminate;
      apply (f_equal (fun r => match r with Val v => v | Panic => Nil end)) in H; apply (f_equal (fun r => match r with Val v => v | Panic => Nil end)) in H'; cbv beta iota in H, H'; subst;
      first [exact (csim_add ks ks' _ _ ch x x (cs_refl _) X)|exact (csim_create ks ks' _ _ ch x x (cs_refl _) X)].
  - cbn [condition_chain] in H, H'. injection H as <-. injection H' as <-. exact (csim_add ks ks' _ _ ch x x (cs_comp k k' o l l' n n' F) X).
  - cbn [condition_chain] in H, H'. injection H as <-. injection H' as <-. exact (csim_add ks ks' _ _ ch x x (cs_err e l l' F) X).
Qed.
Lemma csim_chained : forall l x x' z z', csim x x' -> chained x l z -> chained x' l z' -> csim z z'.
Proof.
  induction l as [|[o y] l IH]; intros x x' z z' S C C'.
  - inversion C; inversion C'; subst; exact S.
  - inversion C as [|ks o1 x1 y1 v l1 Ha z1 Ca]; subst. inversion C' as [|ks' o2 x2 y2 v' l2 Hb z2 Cb]; subst.
    apply (IH v v'); [eapply csim_chain; eassumption|assumption|assumption].
Qed.
Lemma csim_none : forall z z', csim z z' -> no_condition z -> no_condition z'.
Proof.
  intros z z' S H. destruct S as [c|k k' o l l' n n' F|e l l' F]; [exact H| |destruct H as [H|(? & ? & ? & H)]; discriminate H].
  destruct H as [H|(? & ? & ? & H)]; [discriminate H|]. injection H as -> -> -> ->. inversion F; subst. right. eauto.
Qed.
Lemma csim_sym : forall z z', csim z z' -> csim z' z.
Proof.
  fix IH 3. intros z z' [c|k k' o l l' n n' F|e l l' F]; [apply cs_refl|apply cs_comp|apply cs_err];
    (induction F; constructor; [now apply IH|assumption]).
Qed.

Section Extend.
Context (N : string -> Prop) (E : env).

Notation same := (same N).

Definition new (l : list key) : Prop := forall k, In k l -> N k.
Lemma new_cons : forall k l, new (k :: l) -> N k /\ new l.
Proof. intros k l H. split; [apply H; now left|]. intros j J. apply H. now right. Qed.
Lemma new_app : forall a b, new (a ++ b) -> new a /\ new b.
Proof. intros a b H. split; intros j J; apply H; apply in_or_app; auto. Qed.

Lemma same_commas : forall l l', Forall2 same l l' -> same (Commas l) (Commas l').
Proof.
  intros l l' F. pose proof (same_cats N l l' F) as (A & I & _). split; [|split].
  - now rewrite !aliased_Commas.
  - intros m. rewrite !intro_Commas. apply I.
  - intros U m FM. unfold unaliased in U. setoid_rewrite aliased_Commas in U. destruct F as [|d d' l l' (A1 & I1 & W1) F]; [reflexivity|]. rewrite !write_Commas.
    cbn [flat_map] in U.
    assert (U1 : unaliased N d) by (intros k Hk X; apply (U k Hk); apply in_or_app; now left).
    assert (U2 : forall k, N k -> ~ In k (flat_map aliased_keys l)) by (intros k Hk X; apply (U k Hk); apply in_or_app; now right).
    assert (F1 : fresh_in N (snd (write d m))) by (intros k Hk; apply free_write; auto).
    rewrite <- (W1 U1 m FM). destruct (write d m) as [x m1]. cbn [snd] in F1.
    assert (R : wrest l m1 = wrest l' m1).
    { clear - F U2 F1. revert m1 F1. induction F as [|d d' l l' (A1 & I1 & W1) F IH]; intros m F1; [reflexivity|]. cbn [flat_map wrest] in *.
      assert (U1 : unaliased N d) by (intros k Hk X; apply (U2 k Hk); apply in_or_app; now left).
      assert (F2 : fresh_in N (snd (write d m))) by (intros k Hk; apply free_write; auto).
      rewrite <- (W1 U1 m F1). destruct (write d m) as [x m1]. cbn [snd] in F2.
      rewrite IH; [reflexivity| |exact F2]. intros k Hk X. apply (U2 k Hk). apply in_or_app. now right. }
    now rewrite R.
Qed.

Lemma same_listing : forall l l', Forall2 (fun a b => silent a = silent b /\ same (print E a) (print E b)) l l' ->
  same (listing (print E) l) (listing (print E) l').
Proof.
  intros l l' F. unfold listing. apply same_commas. induction F as [|a b l l' [S P] F IH]; [constructor|]. cbn [flat_map]. rewrite S.
  destruct (silent b); [exact IH|]. now constructor.
Qed.

Ltac one := repeat match goal with |- Forall2 _ [] [] => apply Forall2_nil | |- Forall2 _ (_ :: _) (_ :: _) => apply Forall2_cons end;
  try apply same_refl.

(** ** Conditions *)
Definition joiner (o : op) (e : expr) : op := match e with ECompound _ o' _ => o' | _ => o end.
Lemma csim_joiner : forall o c c', csim c c' -> joiner o (cond_expr c) = joiner o (cond_expr c').
Proof. now intros o c c' []. Qed.
Lemma same_cnd : forall z z', csim z z' -> new (joined_keys (cond_expr z)) -> new (joined_keys (cond_expr z')) ->
  same (print E (cond_expr z)) (print E (cond_expr z')).
Proof.
  intros z. induction z as [|e|k kn c IH|e| |k o cs n IH|e cs IH] using cnd_ind'; intros z' S K K'; inversion S; subst; try apply same_refl.
  cbn [cond_expr joined_keys] in *. apply new_cons in K as [Kk K]. apply new_cons in K' as [Kk' K'].
  match goal with H : Forall2 csim _ _ |- _ => rename H into F end.
  assert (L : Forall2 (fun a b => same (print E a) (print E b) /\ forall p, joiner p a = joiner p b) (map cond_expr cs) (map cond_expr l')).
  { clear - IH K K' F. induction F as [|c c' cs cs' S F G]; cbn [map flat_map] in *; constructor; apply new_app in K as [K1 K2]; apply new_app in K' as [K1' K2']; inversion IH; subst.
    - split; [auto|]. intros p. now apply csim_joiner.
    - apply G; auto. }
  clear - L Kk Kk'. cbn [print]. destruct L as [|a b u v [P1 _] L]; [apply same_refl|].
  assert (T : same (Shared k (Cat [Txt "("; print E a; Cat (flat_map (fun d => [print_op E (joiner (op_of o) d); print E d]) u); Txt ")"]))
                   (Shared k' (Cat [Txt "("; print E b; Cat (flat_map (fun d => [print_op E (joiner (op_of o) d); print E d]) v); Txt ")"]))).
  { apply same_new; auto. apply same_cat. one; [exact P1|]. apply same_cat.
    induction L as [|c d u v [P J] L G]; [constructor|]. cbn [flat_map]. apply same_app; [|exact G]. rewrite J. one. exact P. }
  destruct L; [exact P1|exact T].
Qed.

Lemma same_where : forall c w w', says_where c w -> says_where c w' -> new (made_part w) -> new (made_part w') ->
  Forall2 same (maybe (option_map (print E) w)) (maybe (option_map (print E) w')).
Proof.
  intros [[x l]|] w w' S S' K K'; cbn [says_where] in S, S'; [|subst; constructor].
  destruct S as (z & C & S), S' as (z' & C' & S'). pose proof (csim_chained l x x z z' (cs_refl x) C C') as Z.
  destruct S as [[D ->]|[D (k & ->)]], S' as [[D' ->]|[D' (k' & ->)]].
  - constructor.
  - destruct D'. eapply csim_none; eassumption.
  - destruct D. eapply csim_none; [apply csim_sym|]; eassumption.
  - cbn [made_part made_keys] in K, K'. apply new_cons in K as [Kk K]. apply new_cons in K' as [Kk' K'].
    cbn [option_map maybe print]. one. apply same_new; auto. apply same_cat. one. now apply same_cnd.
Qed.

(** ** Items *)
Lemma same_labels : forall ls ls', new (map fst ls) -> new (map fst ls') -> map snd ls = map snd ls' ->
  Forall2 same (map print_label ls) (map print_label ls').
Proof.
  induction ls as [|[k x] ls IH]; intros [|[k' x'] ls'] K K' H; try discriminate H; [constructor|]. cbn [map fst snd] in *. injection H as -> H.
  apply new_cons in K as [Kk K]. apply new_cons in K' as [Kk' K']. constructor; [|now apply IH]. unfold print_label. cbn [fst snd]. apply same_new; auto. apply same_refl.
Qed.
Lemma item_cases : forall e, (exists k a b, e = EOperation k a SetProp b /\ item_of e = Assign a b)
  \/ (exists k kn n o kl ls, e = EOperation k (ESym kn n) o (ELabels kl ls) /\ (o = SetLabel \/ o = RemoveLabel) /\ item_of e = Labels n (map snd ls))
  \/ item_of e = Plain e.
Proof.
  intros e. destruct e; try (right; right; reflexivity).
  match goal with |- context [item_of (EOperation ?k ?l ?o ?r)] => destruct o;
    lazymatch goal with
    | |- context [item_of (EOperation _ _ SetProp _)] => left; exists k, l, r; (split; [reflexivity|]); destruct l; reflexivity
    | |- context [item_of (EOperation _ _ SetLabel _)] => destruct l; try (right; right; reflexivity); destruct r; try (right; right; reflexivity)
    | |- context [item_of (EOperation _ _ RemoveLabel _)] => destruct l; try (right; right; reflexivity); destruct r; try (right; right; reflexivity)
    | _ => right; right; destruct l; reflexivity
    end end;
    match goal with |- context [item_of (EOperation ?k (ESym ?kn ?n) ?o (ELabels ?kl ?ls))] => right; left; exists k, kn, n, o, kl, ls; split; [reflexivity|split; [auto|reflexivity]] end.
Qed.
Lemma same_item : N (op_key E SetLabel) -> N (op_key E RemoveLabel) -> forall e e', item_of e = item_of e' -> new (assigned_keys e) -> new (assigned_keys e') ->
  silent e = silent e' /\ same (print E e) (print E e').
Proof.
  intros NS NR e e' H K K'.
  destruct (item_cases e) as [(k & a & b & -> & I1)|[(k & kn & n & o & kl & ls & -> & O & I1)|I1]];
    destruct (item_cases e') as [(k' & a' & b' & -> & I2)|[(k' & kn' & n' & o' & kl' & ls' & -> & O' & I2)|I2]]; rewrite I1, I2 in H; try discriminate H.
  - injection H as -> ->. split; [reflexivity|]. cbn [print in_parens]. apply same_new; [apply K|apply K'|apply same_refl]; destruct a'; destruct b'; now left.
  - injection H as -> H. split; [reflexivity|]. cbn [assigned_keys] in K, K'.
    assert (A : new (k :: kn :: kl :: map fst ls)) by (destruct O as [-> | ->]; exact K).
    assert (A' : new (k' :: kn' :: kl' :: map fst ls')) by (destruct O' as [-> | ->]; exact K').
    apply new_cons in A as [B1 A]. apply new_cons in A as [B2 A]. apply new_cons in A as [B3 A].
    apply new_cons in A' as [C1 A']. apply new_cons in A' as [C2 A']. apply new_cons in A' as [C3 A'].
    assert (G : same (Cat [print E (ESym kn n'); print_op E o; print E (ELabels kl ls)]) (Cat [print E (ESym kn' n'); print_op E o'; print E (ELabels kl' ls')])).
    { apply same_cat. one; cbn [print].
      - apply same_new; auto. apply same_refl.
      - unfold print_op. destruct O as [-> | ->], O' as [-> | ->]; (apply same_new; auto; apply same_refl).
      - apply same_new; auto. apply same_cat. now apply same_labels. }
    destruct O as [-> | ->], O' as [-> | ->]; cbn [print in_parens] in *; (apply same_new; auto).
  - injection H as ->. split; [reflexivity|apply same_refl].
Qed.
Lemma same_items : N (op_key E SetLabel) -> N (op_key E RemoveLabel) -> forall l e e', says_items l e -> says_items l e' -> new (made_keys e) -> new (made_keys e') ->
  same (print E e) (print E e').
Proof.
  intros NS NR l e e' (k & es & -> & H) (k' & es' & -> & H') K K'. cbn [made_keys] in K, K'. apply new_cons in K as [Kk K]. apply new_cons in K' as [Kk' K'].
  cbn [print]. apply same_new; auto. apply same_listing. rewrite <- H in H'. clear H. revert es' H' K'. induction es as [|e es IH]; intros [|e' es'] H' K'; try discriminate H'; [constructor|].
  cbn [map flat_map] in *. injection H' as H1 H2. apply new_app in K as [K1 K]. apply new_app in K' as [K1' K']. constructor; [now apply same_item|]. now apply IH.
Qed.

(** ** The other parts *)
Lemma same_sorting : forall s b b', says_sorting s b -> says_sorting s b' ->
  new (made_part (b_order b) ++ made_part (b_skip b) ++ made_part (b_limit b)) -> new (made_part (b_order b') ++ made_part (b_skip b') ++ made_part (b_limit b')) ->
  Forall2 same (maybe (option_map (print E) (b_order b)) ++ maybe (option_map (print E) (b_skip b)) ++ maybe (option_map (print E) (b_limit b)))
               (maybe (option_map (print E) (b_order b')) ++ maybe (option_map (print E) (b_skip b')) ++ maybe (option_map (print E) (b_limit b'))).
Proof.
  intros s b b' (O & S & L) (O' & S' & L') K K'. apply new_app in K as [K1 K]. apply new_app in K as [K2 K3]. apply new_app in K' as [K1' K']. apply new_app in K' as [K2' K3'].
  apply same_app; [|apply same_app].
  - destruct (s_items s) as [|i l]; [rewrite O, O'; constructor|]. destruct O as (k & es & O & F), O' as (k' & es' & O' & F'). rewrite O in *. rewrite O' in *.
    cbn [made_part made_keys] in K1, K1'. apply new_cons in K1 as [Kk K1]. apply new_cons in K1' as [Kk' K1']. cbn [option_map maybe print]. one. apply same_new; auto.
    apply same_cat. one. apply same_listing. clear - F F' K1 K1'. revert F F'. generalize (i :: l) as items. intros items F F'. revert es' F' K1'. induction F as [|i1 e items es (k & ->) F IH]; intros es' F' K1'; inversion F' as [|j e' l2 es2 (k' & ->) F2]; subst; [constructor|].
    cbn [flat_map] in *. apply new_app in K1 as [A K1]. apply new_app in K1' as [A' K1']. constructor; [|now apply IH]. split; [reflexivity|]. cbn [print]. apply same_new; [apply A; now left|apply A'; now left|apply same_refl].
  - destruct (s_skip s) as [z|]; [|rewrite S, S'; constructor]. destruct S as (k & j & S), S' as (k' & j' & S'). rewrite S in *. rewrite S' in *.
    cbn [made_part made_keys] in K2, K2'. cbn [option_map maybe print]. one. apply same_new; [apply K2; now left|apply K2'; now left|]. apply same_cat. one.
    apply same_new; [apply K2; right; now left|apply K2'; right; now left|apply same_refl].
  - destruct (s_limit s) as [z|]; [|rewrite L, L'; constructor]. destruct L as (k & j & L), L' as (k' & j' & L'). rewrite L in *. rewrite L' in *.
    cbn [made_part made_keys] in K3, K3'. cbn [option_map maybe print]. one. apply same_new; [apply K3; now left|apply K3'; now left|]. apply same_cat. one.
    apply same_new; [apply K3; right; now left|apply K3'; right; now left|apply same_refl].
Qed.
Lemma same_body : forall d l s b b', says_body l s b -> says_body l s b' -> new (made_body b) -> new (made_body b') -> same (print_body E d b) (print_body E d b').
Proof.
  intros d l s b b' ((k & B) & S) ((k' & B') & S') K K'. unfold made_body, print_body in *. rewrite B in *. rewrite B' in *.
  apply new_app in K as [K1 K]. apply new_app in K' as [K1' K']. apply same_cat. apply same_app; [apply same_refls|]. apply same_app.
  - cbn [print]. one. apply same_new; [apply K1; now left|apply K1'; now left|apply same_refl].
  - eapply same_sorting; eassumption.
Qed.
Lemma same_pattern : forall k k' ps, new (made_keys (EPattern k ps)) -> new (made_keys (EPattern k' ps)) -> same (print E (EPattern k ps)) (print E (EPattern k' ps)).
Proof. intros k k' ps K K'. cbn [print]. apply same_new; [apply K; now left|apply K'; now left|apply same_refl]. Qed.
Lemma same_list : forall k k' ps, new (made_keys (EExprs k ps)) -> new (made_keys (EExprs k' ps)) -> same (print E (EExprs k ps)) (print E (EExprs k' ps)).
Proof. intros k k' ps K K'. cbn [print]. apply same_new; [apply K; now left|apply K'; now left|apply same_refl]. Qed.

(** One name per procedure. *)
Definition one_name (p : phrase) : Prop := match p with PCall n _ _ _ => length n = 1 | _ => True end.

Lemma same_clause : N (op_key E SetLabel) -> N (op_key E RemoveLabel) -> forall p c c', says p c -> says p c' -> one_name p -> new (made_clause c) -> new (made_clause c') ->
  same (print_query E c) (print_query E c').
Proof.
  intros NS NR p c c' S S' ON K K'. destruct p, c; cbn [says] in S; try contradiction; destruct c'; cbn [says] in S'; try contradiction;
    cbn [made_clause] in K, K'; apply new_cons in K as [Kk K]; apply new_cons in K' as [Kk' K']; cbn [print_query]; (apply same_new; [exact Kk|exact Kk'|]); apply same_cat.
  - destruct S as (-> & (k2 & ->) & S), S' as (-> & (k2' & ->) & S'). apply new_app in K as [K1 K]. apply new_app in K' as [K1' K'].
    apply same_app; [one; now apply same_pattern|]. apply same_app; [|one]. eapply same_where; eassumption.
  - destruct S as (k2 & ->), S' as (k2' & ->). one. now apply same_pattern.
  - destruct S as ((k2 & ->) & kb & evs' & -> & S), S' as ((k2' & ->) & kb' & evs2 & -> & S'). apply new_app in K as [K1 K]. apply new_app in K' as [K1' K'].
    cbn [flat_map made_clause app] in K, K'. apply new_cons in K as [Kb K]. apply new_cons in K' as [Kb' K'].
    apply same_app; [one; now apply same_pattern|]. apply same_app; [|constructor]. cbn [map print_query]. constructor; [apply same_new; auto; apply same_refl|].
    clear - NS NR S S' K K'. revert evs2 S' K'. induction S as [|a q l qs (k & ks & e & -> & SI) S IH]; intros evs2 S' K'; inversion S' as [|a' q' l' qs' (k' & ks' & e' & -> & SI') S2]; subst; [constructor|].
    cbn [flat_map made_clause app] in K, K'. apply new_cons in K as [Ka K]. apply new_cons in K as [Kb K]. apply new_app in K as [Kc K].
    apply new_cons in K' as [Ka' K']. apply new_cons in K' as [Kb' K']. apply new_app in K' as [Kc' K']. cbn [map]. constructor; [|now apply IH].
    cbn [print_query]. apply same_new; auto. apply same_cat. one. apply same_new; auto. apply same_cat. one. eapply same_items; eassumption.
  - destruct S as (-> & k2 & ->), S' as (-> & k2' & ->). one. now apply same_list.
  - one. eapply same_items; eassumption.
  - one. eapply same_items; eassumption.
  - destruct S as (-> & S), S' as (-> & S'). one. destruct e; try (subst; apply same_refl). destruct S as (k2 & ->), S' as (k2' & ->).
    cbn [print]. apply same_new; [apply K; now left|apply K'; now left|apply same_refl].
  - subst. one.
  - destruct S as (Q & P & (ka & ->) & Y & S), S' as (Q' & P' & (ka' & ->) & Y' & S'). cbn [one_name] in ON. rewrite (P ON) in *. rewrite (P' ON) in *.
    cbn [qualified] in Q, Q'. subst. apply new_cons in K as [Kn K]. apply new_cons in K' as [Kn' K']. apply new_app in K as [K1 K]. apply new_app in K' as [K1' K'].
    apply new_app in K as [K2 K3]. apply new_app in K' as [K2' K3'].
    apply same_app; [one; apply same_new; auto; apply same_refl|]. apply same_app; [|apply same_app; [|apply same_app; [eapply same_where; eassumption|one]]].
    + cbn [option_map maybe print]. one. apply same_new; [apply K1; now left|apply K1'; now left|apply same_refl].
    + destruct yields as [|y ys]; [subst; constructor|]. destruct Y as (ky & ->), Y' as (ky' & ->). cbn [option_map maybe print]. one.
      apply same_new; [apply K2; now left|apply K2'; now left|apply same_refl].
  - destruct S as (-> & B & W), S' as (-> & B' & W'). apply new_app in K as [K1 K]. apply new_app in K' as [K1' K'].
    apply same_app; [one; eapply same_body; eassumption|]. apply same_app; [|one]. eapply same_where; eassumption.
  - destruct S as (-> & B), S' as (-> & B'). one. eapply same_body; eassumption.
Qed.

Lemma same_clauses : N (op_key E SetLabel) -> N (op_key E RemoveLabel) -> forall ps cs cs', Forall2 says ps cs -> Forall2 says ps cs' -> Forall one_name ps ->
  new (flat_map made_clause cs) -> new (flat_map made_clause cs') -> Forall2 same (map (print_query E) cs) (map (print_query E) cs').
Proof.
  intros NS NR ps cs cs' F. revert cs'. induction F as [|p c ps cs S F IH]; intros cs' F' O K K'; inversion F' as [|p' c' ps' cs2 S' F2]; subst; [constructor|].
  cbn [map flat_map] in *. apply new_app in K as [K1 K]. apply new_app in K' as [K1' K']. inversion O; subst. constructor; [eapply same_clause; eassumption|]. now apply IH.
Qed.

End Extend.

(** ** Phrases *)

Lemma complete_after : forall a l c, l <> [] -> complete_last (a ++ l) c = a ++ complete_last l c.
Proof.
  intros a l c N. unfold complete_last. rewrite rev_app_distr. destruct (rev l) as [|p r] eqn:R.
  - destruct N. apply (f_equal (@rev _)) in R. now rewrite rev_involutive in R.
  - cbn [app]. now rewrite rev_app_distr, rev_involutive, app_assoc.
Qed.
Lemma write_after : forall p a l, l <> [] -> fold_left write_call p (a ++ l) = a ++ fold_left write_call p l.
Proof.
  induction p as [|c p IH]; intros a l N; [reflexivity|]. cbn [fold_left].
  assert (W : write_call (a ++ l) c = a ++ write_call l c) by (unfold write_call; destruct (starts c); [now rewrite app_assoc|now apply complete_after]).
  rewrite W. apply IH. unfold write_call. destruct (starts c); [now destruct l|]. unfold complete_last. destruct (rev l) as [|p0 r] eqn:R.
  - destruct N. apply (f_equal (@rev _)) in R. now rewrite rev_involutive in R.
  - now destruct (rev r).
Qed.
Lemma written_more : forall p c p', starts c <> None -> exists more, more <> [] /\ written (p ++ c :: p') = written p ++ more.
Proof.
  intros p c p' S. unfold written. rewrite fold_left_app. cbn [fold_left]. unfold write_call at 2. destruct (starts c) as [ph|]; [|now destruct S].
  rewrite write_after by discriminate. exists (fold_left write_call p' [ph]). split; [|reflexivity].
  assert (Z : forall p l, l <> [] -> fold_left write_call p l <> []).
  { clear. induction p as [|c p IH]; intros l N; [exact N|]. cbn [fold_left]. apply IH. unfold write_call. destruct (starts c); [now destruct l|].
    unfold complete_last. destruct (rev l) as [|p0 r] eqn:R; [|now destruct (rev r)]. destruct N. apply (f_equal (@rev _)) in R. now rewrite rev_involutive in R. }
  apply Z. discriminate.
Qed.

Lemma starts_one : forall c p, starts c = Some p -> sound_args c = true -> one_name p.
Proof.
  intros c p H A. destruct c; cbn [starts] in H; try discriminate; try (injection H as <-; exact Logic.I).
  - destruct e; [|discriminate]. injection H as <-. exact Logic.I.
  - destruct s; try discriminate. injection H as <-. exact Logic.I.
  - injection H as <-. cbn in *. now apply Nat.eqb_eq.
Qed.
Lemma completed_one : forall p c, one_name p -> one_name (completed p c).
Proof. intros p c P. destruct p; cbn [completed]; try exact P; destruct c; try exact P. destruct l; exact P. Qed.
Lemma orderly_one : forall p ph, orderly_from ph p = true -> Forall one_name ph -> Forall one_name (fold_left write_call p ph).
Proof.
  induction p as [|c p IH]; intros ph O F; [exact F|]. cbn [orderly_from fold_left] in *. apply andb_prop in O as [O1 O2]. apply andb_prop in O1 as [A _].
  apply IH; [exact O2|]. unfold write_call. destruct (starts c) as [x|] eqn:H.
  - apply Forall_app. split; [exact F|]. constructor; [eapply starts_one; eassumption|constructor].
  - unfold complete_last. apply Forall_rev in F. destruct (rev ph) as [|x l]; [constructor|]. inversion F; subst. apply Forall_app. split; [now apply Forall_rev|]. constructor; [now apply completed_one|constructor].
Qed.
Lemma orderly_prefix : forall p p' ph, orderly_from ph (p ++ p') = true -> orderly_from ph p = true.
Proof.
  induction p as [|c p IH]; intros p' ph H; [reflexivity|]. cbn [app orderly_from] in *. apply andb_prop in H as [H1 H2]. now rewrite H1, (IH _ _ H2).
Qed.
