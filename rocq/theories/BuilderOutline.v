(** Proofs: statements made by a builder from fine arguments have the shape that
    C59 and C60 ask for, and the outline of their phrases. *)

From Coq Require Import Ascii String List ZArith Bool Lia.
From Verif Require Import GoStr Num VTree Ast SpecDoc SpecPrint SpecTokens SpecShape SpecOutline SpecClauses GoVal SpecCond Cond Builder
  BuilderText SpecBuilder SpecPhrases BuilderProofs PrintProofs.
Import ListNotations.
Open Scope string_scope.
Open Scope list_scope.

Section Fine.
Context (E : env) (K : key -> Prop).

Notation fine := (fine E K).

(** ** Conditions *)

Lemma calm_down : forall e, calm E true e -> forall top, calm E top e.
Proof.
  apply (expr_ind' (fun e => calm E true e -> forall top, calm E top e)). intros e IH C top. inversion C as [t e' Q T Ck]. subst t e'. constructor.
  - destruct e; cbn [own_calm calm_at] in *; auto; destruct top; auto; cbn [calm_at]; try discriminate;
      try (destruct Q as (ts & X & Y); exists ts; split; [exact X|intros d r; apply Y]).
  - auto.
  - cbn [andb] in Ck. rewrite Forall_forall in *. intros x I. specialize (IH x I). specialize (Ck x I). destruct (bracketed e); cbn [negb] in *.
    + now rewrite andb_false_r.
    + rewrite andb_true_r. now apply IH.
Qed.

Definition calm_list (cs : list cnd) : Prop :=
  Forall (calm E (match cs with _ :: _ :: _ => false | _ => true end)) (map cond_expr cs).
Definition shaped_list (cs : list cnd) : Prop := Forall (shaped E K) (map cond_expr cs).

Lemma op_of_infix : forall o, infix (op_of o) = true.
Proof. now intros []. Qed.

Lemma fine_comp : forall k o cs n, fine (cond_expr (Comp k o cs n)) <-> shaped_list cs /\ calm_list cs.
Proof.
  intros k o cs n. unfold SpecPhrases.fine, shaped_list, calm_list. cbn [cond_expr].
  replace (match cs with _ :: _ :: _ => false | _ => true end) with (true && negb (bracketed (ECompound k (op_of o) (map cond_expr cs))))%bool
    by (destruct cs as [|? [|? ?]]; reflexivity).
  split.
  - intros [S C]. inversion S; subst. inversion C; subst. split; assumption.
  - intros [S C]. split; constructor; cbn [own_shape own_calm open_part children]; auto using op_of_infix.
Qed.
Lemma calm_all : forall cs, calm_list cs -> Forall (calm E false) (map cond_expr cs).
Proof.
  intros cs C. unfold calm_list in C. destruct cs as [|a [|b cs]]; [constructor| |exact C]. cbn [map] in *. inversion C; subst. constructor; [|constructor].
  now apply calm_down.
Qed.

Lemma calm_join : forall a b, calm_list a -> calm_list b -> calm_list (a ++ b).
Proof.
  intros a b A B. pose proof (calm_all _ A) as A'. pose proof (calm_all _ B) as B'.
  destruct a as [|x [|y a]]; [exact B| |].
  - destruct b as [|y b]; [exact A|]. unfold calm_list. cbn [app]. change (x :: y :: b) with ([x] ++ y :: b). rewrite map_app.
    apply Forall_app; auto.
  - unfold calm_list. cbn [app]. change (x :: y :: a ++ b) with ((x :: y :: a) ++ b). rewrite map_app. apply Forall_app; auto.
Qed.
Lemma shaped_join : forall a b, shaped_list a -> shaped_list b -> shaped_list (a ++ b).
Proof. intros a b A B. unfold shaped_list. rewrite map_app. apply Forall_app; auto. Qed.
Lemma fine_one : forall c, fine (cond_expr c) -> shaped_list [c] /\ calm_list [c].
Proof. intros c [S C]. unfold shaped_list, calm_list. cbn [map]. auto. Qed.

Lemma fine_added : forall ki b cs ch x cs', shaped_list cs -> calm_list cs -> sound_cnd x = true -> fine (cond_expr x) ->
  add_conditions ki b cs ch x = Some cs' -> shaped_list cs' /\ calm_list cs'.
Proof.
  intros ki b cs ch x cs' S C So F H. unfold add_conditions in H.
  destruct (compound_conditions x) as [inner|] eqn:Ex.
  - destruct inner as [|i inner]; [inversion H; subst; auto|].
    destruct x as [| | | | |k o l n|]; try discriminate. cbn in Ex. inversion Ex; subst l. clear Ex.
    assert (F' := F). apply fine_comp in F' as [Si Ci].
    destruct (b && has_op ch (Comp k o (i :: inner) n))%bool.
    + destruct (can_be_flattened ch (i :: inner)); inversion H; subst.
      * split; [now apply shaped_join|now apply calm_join].
      * destruct (fine_one _ F). split; [now apply shaped_join|now apply calm_join].
    + inversion H; subst. assert (G : fine (cond_expr (Comp ki ch [Comp k o (i :: inner) n] 0))) by (apply fine_comp; now apply fine_one).
      destruct (fine_one _ G). split; [now apply shaped_join|now apply calm_join].
  - destruct b; [|discriminate]. inversion H; subst. destruct (fine_one _ F). split; [now apply shaped_join|now apply calm_join].
Qed.
Lemma fine_added' : forall ki cs ch x, shaped_list cs -> calm_list cs -> sound_cnd x = true -> fine (cond_expr x) ->
  shaped_list (added ki cs ch x) /\ calm_list (added ki cs ch x).
Proof.
  intros ki cs ch x S C So F. unfold added. destruct (add_conditions ki true cs ch x) as [cs'|] eqn:H; [|auto].
  eapply fine_added; eassumption.
Qed.
Lemma nil_fine : shaped_list [] /\ calm_list [].
Proof. unfold shaped_list, calm_list. cbn. auto. Qed.

Lemma fine_create : forall ks l o r, sound_cnd l = true -> sound_cnd r = true -> fine (cond_expr l) -> fine (cond_expr r) ->
  fine (cond_expr (create ks l o r)).
Proof.
  intros ks l o r Sl Sr Fl Fr. unfold create. rewrite (sound_no_err _ Sl), (sound_no_err _ Sr).
  assert (G : fine (cond_expr (Comp (ks 0) o (added (ks 2) (added (ks 1) [] o l) o r) (length (added (ks 2) (added (ks 1) [] o l) o r))))).
  { apply fine_comp. destruct nil_fine. destruct (fine_added' (ks 1) [] o l); auto. now apply fine_added'. }
  destruct l; try discriminate; destruct r; try discriminate; exact G.
Qed.

Lemma fine_chain : forall ks o x y z, sound_cnd x = true -> sound_cnd y = true -> fine (cond_expr x) -> fine (cond_expr y) ->
  condition_chain ks o x y = Val z -> fine (cond_expr z).
Proof.
  intros ks o x y z Sx Sy Fx Fy H. destruct x; try discriminate; cbn [condition_chain container_chain embedded add] in H; inversion H; subst; clear H.
  - now apply fine_create.
  - now apply fine_create.
  - apply fine_comp. destruct nil_fine. now apply fine_added'.
  - apply fine_comp in Fx as [S C]. destruct (add_conditions (ks 3) (bop_eqb o0 o) cs o y) as [cs'|] eqn:H.
    + apply fine_comp. eapply fine_added; eassumption.
    + apply fine_create; auto. now apply fine_comp.
Qed.

(** Which chains constrain nothing. *)
Lemma vacuous_ok : forall c, vacuous c = true <-> no_condition c.
Proof.
  intros c. split.
  - destruct c; try discriminate; [now left|]. destruct cs; [|discriminate]. right. eauto.
  - intros [-> |(k & o & n & ->)]; reflexivity.
Qed.

Lemma vacuous_added : forall ki b cs ch x cs', sound_cnd x = true -> add_conditions ki b cs ch x = Some cs' ->
  (cs' = [] <-> cs = [] /\ vacuous x = true).
Proof.
  intros ki b cs ch x cs' So H. unfold add_conditions in H.
  assert (N : forall (l : list cnd) i l', l ++ i :: l' <> []) by (intros [|? ?] ? ? X; discriminate X).
  destruct x as [| | | | |k o l n|]; try discriminate; cbn [compound_conditions] in H.
  - destruct b; [|discriminate]. inversion H; subst. cbn [vacuous]. split; [intros X; now apply N in X|intros [_ X]; discriminate X].
  - destruct b; [|discriminate]. inversion H; subst. cbn [vacuous]. split; [intros X; now apply N in X|intros [_ X]; discriminate X].
  - inversion H; subst. cbn [vacuous]. tauto.
  - destruct l as [|i l]; [inversion H; subst; cbn [vacuous]; tauto|]. cbn [vacuous].
    destruct (b && has_op ch (Comp k o (i :: l) n))%bool; [destruct (can_be_flattened ch (i :: l))|]; inversion H; subst;
      (split; [intros X; now apply N in X|intros [_ X]; discriminate X]).
Qed.
Lemma vacuous_added' : forall ki cs ch x, sound_cnd x = true ->
  (added ki cs ch x = [] <-> cs = [] /\ vacuous x = true).
Proof.
  intros ki cs ch x So. unfold added. destruct (add_conditions ki true cs ch x) as [cs'|] eqn:H; [eapply vacuous_added; eassumption|].
  unfold add_conditions in H. destruct (compound_conditions x) as [[|]|]; try discriminate.
  destruct (true && has_op ch x)%bool; [destruct (can_be_flattened ch (c :: l))|]; discriminate.
Qed.

Lemma vacuous_create : forall ks l o r, sound_cnd l = true -> sound_cnd r = true ->
  vacuous (create ks l o r) = (vacuous l && vacuous r)%bool.
Proof.
  intros ks l o r Sl Sr. unfold create. rewrite (sound_no_err _ Sl), (sound_no_err _ Sr).
  assert (G : vacuous (Comp (ks 0) o (added (ks 2) (added (ks 1) [] o l) o r) (length (added (ks 2) (added (ks 1) [] o l) o r)))
              = (vacuous l && vacuous r)%bool).
  { pose proof (vacuous_added' (ks 1) [] o l Sl) as A. pose proof (vacuous_added' (ks 2) (added (ks 1) [] o l) o r Sr) as B.
    apply eq_true_iff_eq. rewrite andb_true_iff. rewrite A in B. cbn [vacuous].
    destruct (added (ks 2) (added (ks 1) [] o l) o r); intuition (try discriminate; auto). }
  destruct l; try discriminate; destruct r; try discriminate; exact G.
Qed.

Lemma vacuous_chain : forall ks o x y z, sound_cnd x = true -> sound_cnd y = true ->
  condition_chain ks o x y = Val z -> vacuous z = (vacuous x && vacuous y)%bool.
Proof.
  intros ks o x y z Sx Sy H. destruct x; try discriminate; cbn [condition_chain container_chain embedded add] in H; inversion H; subst; clear H.
  - now rewrite vacuous_create.
  - now rewrite vacuous_create.
  - pose proof (vacuous_added' (ks 3) [] o y Sy) as A. apply eq_true_iff_eq. rewrite andb_true_iff. cbn [vacuous].
    destruct (added (ks 3) [] o y); intuition (try discriminate; auto).
  - destruct (add_conditions (ks 3) (bop_eqb o0 o) cs o y) as [cs'|] eqn:H; [|now rewrite vacuous_create].
    pose proof (vacuous_added _ _ _ _ _ _ Sy H) as A. apply eq_true_iff_eq. rewrite andb_true_iff. cbn [vacuous].
    destruct cs', cs; intuition (try discriminate; auto).
Qed.

Lemma sound_chain : forall ks o x y z, sound_cnd x = true -> sound_cnd y = true -> condition_chain ks o x y = Val z -> sound_cnd z = true.
Proof. intros ks o x y z Sx Sy H. destruct (condition_chain_sound ks o x y Sx Sy) as (z' & Z & S). congruence. Qed.

Lemma chained_fine : forall x l z, chained x l z -> fine_condition E K x -> Forall (fine_condition E K) (map snd l) ->
  fine (cond_expr z) /\ vacuous z = forallb vacuous (x :: map snd l).
Proof.
  intros x l z H. induction H as [x|ks o x y z l H z' _ IH]; intros F Fl.
  - split; [apply F|]. cbn. now rewrite andb_true_r.
  - cbn [map snd] in Fl. inversion Fl as [|? ? Fy Fl']; subst. destruct F as [Sx Fx], Fy as [Sy Fy].
    pose proof (fine_chain ks _ x y z Sx Sy Fx Fy H) as Fz. pose proof (sound_chain ks _ x y z Sx Sy H) as Sz.
    destruct (IH (conj Sz Fz) Fl') as [A B]. split; [exact A|]. rewrite B. cbn [forallb map snd].
    rewrite (vacuous_chain ks _ x y z Sx Sy H). now rewrite andb_assoc.
Qed.

(** ** Parts of clauses *)

Definition apart_from (l : list key) : Prop := forall k, In k l -> ~ K k.
Lemma apart_app : forall a b, apart_from (a ++ b) -> apart_from a /\ apart_from b.
Proof. intros a b H. split; intros k I; apply H, in_or_app; auto. Qed.
Lemma apart_cons : forall k b, apart_from (k :: b) -> ~ K k /\ apart_from b.
Proof. intros k b H. split; [apply H; now left|intros x I; apply H; now right]. Qed.

Lemma fine_shaped : forall l, Forall fine l -> Forall (shaped E K) l.
Proof. intros l. apply Forall_impl. now intros e []. Qed.
Lemma fine_calm : forall l, Forall fine l -> Forall (calm E true) l.
Proof. intros l. apply Forall_impl. now intros e []. Qed.

(** What is asked of a part behind a clause, and the outline it has. *)
Definition part_ok (w : option expr) (l : list string) : Prop :=
  shaped_behind E K w /\ calm_parts E w /\ parts_outline w = l.

Lemma none_ok : part_ok None [].
Proof. unfold part_ok, shaped_behind, calm_parts, parts_outline. cbn. auto. Qed.
Lemma some_ok : forall e l, attached K e -> shaped E K e -> calm_part E e -> part_outline e = l -> part_ok (Some e) l.
Proof. intros e l A S C O. unfold part_ok, shaped_behind, calm_parts, parts_outline. cbn. rewrite app_nil_r. auto. Qed.

Lemma where_ok : forall c w, says_where c w -> fine_conditions E K c -> apart_from (part_keys_of w) -> part_ok w (where_outline c).
Proof.
  intros [[x l]|] w H F A; cbn [says_where] in H; [|subst w; apply none_ok].
  cbn [fine_conditions map] in F. inversion F as [|? ? Fx Fl]; subst.
  destruct H as (z & C & H). destruct (chained_fine x l z C Fx Fl) as [[S Q] V]. unfold where_outline. rewrite <- V.
  destruct H as [[N ->]|[N [k ->]]].
  - apply vacuous_ok in N. rewrite N. apply none_ok.
  - replace (vacuous z) with false by (destruct (vacuous z) eqn:X; [exfalso; apply N; now apply vacuous_ok|reflexivity]).
    apply some_ok; auto; [apply A; now left|]. constructor; [exact Logic.I|]. cbn. auto.
Qed.

Definition items_ok (e : expr) (l : list string) : Prop := shaped E K e /\ calm_items E K e /\ items_outline e = l.
Lemma pattern_ok : forall k ps, Forall fine ps -> apart_from (list_keys (EPattern k ps)) -> items_ok (EPattern k ps) (commas ps).
Proof.
  intros k ps F A. split; [|split; [|reflexivity]].
  - constructor; [exact Logic.I|]. now apply fine_shaped.
  - split; [apply A; now left|now apply fine_calm].
Qed.
Lemma exprs_ok : forall k ps, Forall fine ps -> apart_from (list_keys (EExprs k ps)) -> items_ok (EExprs k ps) (commas ps).
Proof.
  intros k ps F A. split; [|split; [|reflexivity]].
  - constructor; [exact Logic.I|]. now apply fine_shaped.
  - split; [apply A; now left|now apply fine_calm].
Qed.

Lemma item_fine : forall e, fine_item E K (item_of e) -> apart_from (item_keys e) -> fine e /\ silent e = item_silent (item_of e).
Proof.
  intros e. destruct e; try (intros F A; split; [exact F|reflexivity]). rename e1 into a, e2 into b.
  assert (As : fine a /\ fine b -> o = SetProp -> fine (EOperation k a o b)).
  { intros [[Sa Ca] [Sb Cb]] ->. split; constructor; cbn; auto. discriminate. }
  assert (Pl : fine (EOperation k a o b) -> fine (EOperation k a o b) /\ silent (EOperation k a o b) = false) by auto.
  assert (Lb : forall ks n kl ls, a = ESym ks n -> b = ELabels kl ls -> o = SetLabel \/ o = RemoveLabel -> n = "" \/ reserved n = false ->
               apart_from (kl :: map fst ls) -> fine (EOperation k a o b)).
  { intros ks n kl ls -> -> O R A. apply apart_cons in A as [N A].
    assert (NL : no_label_aliased K ls).
    { unfold no_label_aliased. rewrite Forall_forall. intros l I. apply A. now apply in_map. }
    split.
    - apply sh; [right; split; [exact O|exact N]|]. constructor; [|constructor; [|constructor]]; (apply sh; [|constructor]); [exact Logic.I|exact NL].
    - apply cm; [intros _; destruct O as [-> | ->]; discriminate|reflexivity|].
      replace (true && negb (bracketed (EOperation k (ESym ks n) o (ELabels kl ls))))%bool with true by (destruct O as [-> | ->]; reflexivity).
      constructor; [|constructor; [|constructor]]; (apply cm; [|reflexivity|constructor]); cbn; auto. }
  destruct o; try (intros F A; destruct a; apply Pl; exact F).
  - (* SetProp *) intros F A. assert (H : item_of (EOperation k a SetProp b) = Assign a b) by (destruct a; reflexivity).
    rewrite H in *. split; [now apply As|reflexivity].
  - destruct a; try (intros F A; apply Pl; exact F). destruct b; try (intros F A; apply Pl; exact F).
    cbn. intros F A. split; [|reflexivity]. eapply Lb; eauto.
  - destruct a; try (intros F A; apply Pl; exact F). destruct b; try (intros F A; apply Pl; exact F).
    cbn. intros F A. split; [|reflexivity]. eapply Lb; eauto.
Qed.

Lemma set_ok : forall l e, says_items l e -> Forall (fine_item E K) l -> apart_from (list_keys e) -> items_ok e (set_outline l).
Proof.
  intros l e (k & es & -> & <-) F A.
  assert (G : Forall fine es /\ length (filter (fun e => negb (silent e)) es) = length (filter (fun i => negb (item_silent i)) (map item_of es))).
  { cbn [list_keys] in A. apply apart_cons in A as [_ A]. clear k. induction es as [|x es IH]; [auto|]. cbn [map flat_map filter] in *.
    inversion F; subst. apply apart_app in A as [A1 A2]. destruct (IH ltac:(assumption) A2) as [I1 I2].
    destruct (item_fine x ltac:(assumption) A1) as [Fx Sx]. split; [auto|]. rewrite Sx. destruct (negb (item_silent (item_of x))); cbn [length]; auto. }
  destruct G as [G L]. destruct (exprs_ok k es G A) as (S & C & O). split; [exact S|]. split; [exact C|]. rewrite O. unfold commas, set_outline. now rewrite L.
Qed.

Lemma num_fine : forall z, (0 <= n_mant (num_of_Z z))%Z.
Proof. intros z. cbn. lia. Qed.

Lemma skip_ok : forall o (w : option expr), (match o with None => w = None | Some z => exists k k', w = Some (ESkip k (ENum k' (num_of_Z z))) end) ->
  apart_from (part_keys_of w) -> part_ok w (match o with Some _ => ["SKIP"] | None => [] end).
Proof.
  intros [z|] w H A; [|subst w; apply none_ok]. destruct H as (k & k' & ->). apply some_ok; auto.
  - apply A. now left.
  - repeat constructor; cbn; try lia.
  - cbn. repeat constructor; discriminate.
Qed.
Lemma limit_ok : forall o (w : option expr), (match o with None => w = None | Some z => exists k k', w = Some (ELimit k (ENum k' (num_of_Z z))) end) ->
  apart_from (part_keys_of w) -> part_ok w (match o with Some _ => ["LIMIT"] | None => [] end).
Proof.
  intros [z|] w H A; [|subst w; apply none_ok]. destruct H as (k & k' & ->). apply some_ok; auto.
  - apply A. now left.
  - repeat constructor; cbn; try lia.
  - cbn. repeat constructor; discriminate.
Qed.
Lemma order_ok : forall (l : list (expr * option bool)) (w : option expr),
  (match l with [] => w = None | i :: r => exists k es, w = Some (EOrder k es) /\ Forall2 says_sort (i :: r) es end) ->
  Forall (fun i => fine (fst i)) l -> apart_from (part_keys_of w) ->
  part_ok w (match l with [] => [] | _ => "ORDER" :: repeat "," (length l - 1) end).
Proof.
  intros l w H F A. destruct l as [|i l]; [subst w; apply none_ok|]. destruct H as (k & es & -> & H). 
  assert (G : Forall fine es /\ filter (fun e => negb (silent e)) es = es /\ length es = length (i :: l)).
  { revert H F. generalize (i :: l). clear. induction 1 as [|x e l es [k ->] _ IH]; intros F; [auto|]. inversion F as [|? ? [S C] F']; subst.
    destruct (IH F') as (G & Fl & L). cbn [filter silent negb length]. rewrite Fl, L. split; [|auto]. constructor; [|exact G].
    split; constructor; cbn; auto. }
  destruct G as (G & Fl & L). apply some_ok.
  - apply A. now left.
  - constructor; [exact Logic.I|]. now apply fine_shaped.
  - cbn. now apply fine_calm.
  - cbn [part_outline]. unfold commas. now rewrite Fl, L.
Qed.

Lemma body_ok : forall l s b, says_body l s b -> Forall fine l -> fine_sorting E K s -> apart_from (body_keys b) ->
  shaped_body E K b /\ calm_body E K b /\ body_outline b = commas l ++ sort_outline s.
Proof.
  intros l s b [[k I] (O & Sk & Li)] F Fs A. unfold body_keys in A. apply apart_app in A as [A1 A]. apply apart_app in A as [A2 A]. apply apart_app in A as [A3 A4].
  rewrite I in A1. destruct (exprs_ok k l F A1) as (S & C & Oi).
  destruct (order_ok _ _ O Fs A2) as (S1 & C1 & O1). destruct (skip_ok _ _ Sk A3) as (S2 & C2 & O2). destruct (limit_ok _ _ Li A4) as (S3 & C3 & O3).
  unfold shaped_body, calm_body, body_outline, sort_outline. rewrite I, Oi, O1, O2, O3. split; [|split; [|destruct (s_items s); reflexivity]].
  - split; [exact S|]. apply Forall_app. split; [exact S1|]. apply Forall_app. now split.
  - auto.
Qed.

Lemma says_ok : forall p q, SpecBuilder.says p q -> fine_phrase E K p -> apart_from (clause_keys q) ->
  shaped_q E K q /\ calm_q E K q /\ clause_outline q = phrase_outline p /\ (match p with PReturn _ _ _ => True | _ => clause K q end).
Proof.
  intros p q H F A. destruct p, q; try contradiction; cbn [SpecBuilder.says fine_phrase clause_keys phrase_outline clause_outline] in *.
  - destruct H as (-> & (k' & ->) & W), F as [F Fc]. apply apart_cons in A as [N A]. apply apart_app in A as [A1 A2].
    destruct (pattern_ok k' _ F A1) as (S & C & O). destruct (where_ok _ _ W Fc A2) as (Sw & Cw & Ow).
    rewrite O, Ow. repeat split; auto; now constructor.
  - destruct H as (k' & ->). apply apart_cons in A as [N A]. destruct (pattern_ok k' _ F A) as (S & C & O). rewrite O. repeat split; auto; now constructor.
  - destruct H as ((k' & ->) & kb & evs' & -> & H), F as [F Fa]. apply apart_cons in A as [N A]. apply apart_app in A as [A1 A2].
    destruct (pattern_ok k' _ F A1) as (S & C & O). rewrite O. cbn [flat_map clause_keys app] in A2. apply apart_cons in A2 as [Nb A2].
    assert (G : Forall (clause K) evs' /\ Forall (shaped_q E K) evs' /\ Forall (calm_q E K) evs'
                /\ flat_map clause_outline evs' = flat_map (fun a : bool * list item => "ON" :: (if fst a then "CREATE" else "MATCH") :: "SET" :: set_outline (snd a)) actions).
    { clear - H Fa A2. induction H as [|a q l l' (k & ks & e & -> & I) _ IH]; [auto|]. cbn [flat_map] in A2. apply apart_app in A2 as [B1 B2].
      inversion Fa as [|? ? Fi Fl]; subst. destruct (IH Fl B2) as (G1 & G2 & G3 & G4). cbn [clause_keys] in B1. apply apart_cons in B1 as [N B1]. apply apart_cons in B1 as [Ns B1].
      destruct (set_ok _ _ I Fi B1) as (S & C & O). cbn [flat_map clause_outline]. rewrite G4, O. 
      repeat split; try (constructor; auto); cbn; auto; repeat (constructor; auto). }
    destruct G as (G1 & G2 & G3 & G4). cbn [flat_map clause_outline app]. rewrite G4. repeat split; auto; constructor; auto. constructor; auto. now constructor.
  - destruct H as (-> & k' & ->). apply apart_cons in A as [N A]. destruct (exprs_ok k' _ F A) as (S & C & O). rewrite O. repeat split; auto; now constructor.
  - apply apart_cons in A as [N A]. destruct (set_ok _ _ H F A) as (S & C & O). rewrite O. repeat split; auto; now constructor.
  - apply apart_cons in A as [N A]. destruct (set_ok _ _ H F A) as (S & C & O). rewrite O. repeat split; auto; now constructor.
  - destruct H as [-> H], F as ([S C] & Sv & Cv). apply apart_cons in A as [N _].
    assert (G : fine e0).
    { destruct e; try (subst; split; assumption). destruct H as [k' ->]. inversion C as [? ? Q _ _]; subst. cbn in Q. split; constructor; cbn; auto. }
    destruct G as [S' C']. repeat split; auto; now constructor.
  - subst. destruct F as [S C]. apply apart_cons in A as [N _]. repeat split; auto; now constructor.
  - destruct H as (Q & Sp & (k' & ->) & Y & W), F as ((x & -> & Sx & Cx) & Fa & Fy & Fc).
    rewrite (Sp eq_refl) in *. cbn in Q. match type of Q with ?a = _ => subst a end. apply apart_cons in A as [N A]. apply apart_app in A as [A1 A]. apply apart_app in A as [A2 A3].
    destruct (where_ok _ _ W Fc A3) as (Sw & Cw & Ow).
    assert (Pa : part_ok (Some (EArgs k' args)) []).
    { apply some_ok; [apply A1; now left| | |reflexivity].
      - constructor; [exact Logic.I|now apply fine_shaped].
      - cbn [calm_part]. constructor; cbn [own_calm open_part bracketed negb andb children]; auto.
        apply fine_calm in Fa. revert Fa. apply Forall_impl. intros e Ce. now apply calm_down. }
    assert (Py : part_ok yield (match yields with [] => [] | _ => "YIELD" :: commas yields end)).
    { destruct yields as [|y ys]; [subst yield; apply none_ok|]. destruct Y as [ky ->]. apply some_ok; [apply A2; now left| | |reflexivity].
      - constructor; [exact Logic.I|now apply fine_shaped].
      - cbn. now apply fine_calm. }
    destruct Pa as (Sa & Ca & Oa). destruct Py as (Sy & Cy & Oy). rewrite Oa, Oy, Ow. repeat split; auto; constructor; auto. intros ? ? X. discriminate X.
  - destruct H as (-> & B & W), F as (F & Fs & Fc). apply apart_cons in A as [N A]. apply apart_app in A as [A1 A2].
    destruct (body_ok _ _ _ B F Fs A1) as (S & C & O). destruct (where_ok _ _ W Fc A2) as (Sw & Cw & Ow).
    rewrite O, Ow, <- app_assoc. repeat split; auto; now constructor.
  - destruct H as (-> & B), F as (F & Fs). apply apart_cons in A as [N A]. 
    destruct (body_ok _ _ _ B F Fs A) as (S & C & O). rewrite O. repeat split; auto; now constructor.
Qed.
End Fine.

(** ** RETURN is the last phrase *)

Definition is_return (p : phrase) : bool := match p with PReturn _ _ _ => true | _ => false end.
Definition returning (i : iface) : bool :=
  match i with IReadingAndReturn | IReturnWithOrder | ITerminalOrder | ITerminalLimit | IBuildable => true | _ => false end.

Lemma completed_return : forall p c, is_return (completed p c) = is_return p.
Proof. intros p x. destruct p; cbn; try reflexivity; destruct x; try reflexivity. now destruct l. Qed.
Lemma offers_returning : forall i c i', offers i c = Some i' ->
  (returning i = true -> returning i' = true /\ starts c = None)
  /\ match starts c with Some p => is_return p = returning i' | None => returning i' = false -> returning i = false end.
Proof.
  intros i c i' H. destruct i, c; cbn in H; try discriminate H; inversion H; subst; clear H; cbn; (split; [intros X; try discriminate X; auto|]);
    try reflexivity; try (intros X; discriminate X); auto;
    try (match goal with |- match match ?g with GOk _ => _ | GErr _ _ => _ end with _ => _ end => destruct g; cbn; auto end);
    try (match goal with |- match match ?g with Queries.StOk _ => _ | _ => _ end with _ => _ end => destruct g; cbn; auto end).
Qed.

Definition only_last (ph : list phrase) : Prop := exists l o, ph = l ++ opt_list o /\ Forall (fun p => is_return p = false) l.

Lemma write_last : forall i c i' l o, offers i c = Some i' ->
  Forall (fun p => is_return p = false) l -> (returning i = false -> Forall (fun p => is_return p = false) (opt_list o)) ->
  exists l' o', write_call (l ++ opt_list o) c = l' ++ opt_list o' /\ Forall (fun p => is_return p = false) l'
    /\ (returning i' = false -> Forall (fun p => is_return p = false) (opt_list o')).
Proof.
  intros i c i' l o H L O. destruct (offers_returning i c i' H) as [R S]. unfold write_call. destruct (starts c) as [p|].
  - exists (l ++ opt_list o), (Some p). split; [reflexivity|]. split.
    + apply Forall_app. split; [exact L|]. apply O. destruct (returning i); [destruct (R eq_refl); discriminate|reflexivity].
    + intros X. constructor; [congruence|constructor].
  - unfold complete_last. destruct o as [p|]; cbn [opt_list] in *.
    + rewrite rev_app_distr. cbn [rev app]. rewrite rev_involutive. exists l, (Some (completed p c)). split; [reflexivity|]. split; [exact L|].
      intros X. specialize (O (S X)). inversion O; subst. constructor; [now rewrite completed_return|constructor].
    + rewrite app_nil_r. destruct (rev l) as [|p r] eqn:Q; [exists [], None; repeat split; auto|].
      apply (f_equal (@rev phrase)) in Q. rewrite rev_involutive in Q. cbn [rev] in Q. subst l. apply Forall_app in L as [L1 L2].
      exists (rev r), (Some (completed p c)). split; [reflexivity|]. split; [exact L1|]. intros _. inversion L2; subst.
      constructor; [now rewrite completed_return|constructor].
Qed.

Lemma return_last : forall p i i' l o, compiles i p = Some i' ->
  Forall (fun p => is_return p = false) l -> (returning i = false -> Forall (fun p => is_return p = false) (opt_list o)) ->
  only_last (fold_left write_call p (l ++ opt_list o)).
Proof.
  induction p as [|c p IH]; intros i i' l o H L O; cbn [fold_left compiles] in *; [exists l, o; auto|].
  destruct (offers i c) as [j|] eqn:Q; [|discriminate]. destruct (write_last i c j l o Q L O) as (l' & o' & W & L' & O'). rewrite W.
  now apply (IH j i').
Qed.
Lemma written_last : forall p i, compiles IStart p = Some i -> only_last (written p).
Proof. intros p i H. unfold written. apply (return_last p IStart i [] None H); [constructor|intros _; constructor]. Qed.

(** ** Statements *)

Lemma Forall2_split : forall A B (R : A -> B -> Prop) l1 l2 l', Forall2 R (l1 ++ l2) l' ->
  exists a b, l' = a ++ b /\ Forall2 R l1 a /\ Forall2 R l2 b.
Proof. intros A B R l1 l2 l' H. apply Forall2_app_inv_l in H as (a & b & ? & ? & ?). eauto. Qed.

Section Statement.
Context (E : env) (K : key -> Prop).

Lemma all_ok : forall ph qs, Forall2 SpecBuilder.says ph qs -> Forall (fine_phrase E K) ph -> (forall k, In k (flat_map clause_keys qs) -> ~ K k) ->
  Forall (shaped_q E K) qs /\ Forall (calm_q E K) qs /\ flat_map clause_outline qs = flat_map phrase_outline ph
  /\ (Forall (fun p => is_return p = false) ph -> Forall (clause K) qs).
Proof.
  induction 1 as [|p q ph qs S _ IH]; intros F A; [auto|]. inversion F as [|? ? Fp Fr]; subst. cbn [flat_map] in A.
  destruct (says_ok E K p q S Fp) as (Sh & Cm & O & C); [intros k I; apply A, in_or_app; now left|].
  destruct (IH Fr) as (Sh' & Cm' & O' & C'); [intros k I; apply A, in_or_app; now right|].
  cbn [flat_map]. rewrite O, O'. repeat split; auto. intros R. inversion R; subst. constructor; auto. destruct p; auto. discriminate.
Qed.

(** One part holding all the clauses. *)
Lemma flattened : forall ph q, only_last ph -> Forall2 SpecBuilder.says ph (clauses q) -> Forall (fine_phrase E K) ph -> apart E K q ->
  exists q', shaped_q E K q' /\ calm_q E K q' /\ clause_outline q' = flat_map phrase_outline ph
             /\ text (print_query E q') = text (print_query E q)
             /\ exists a r, q' = QSingle a r /\ clauses q = a ++ opt_list r.
Proof.
  intros ph q (l & o & -> & R) S F [A A']. apply Forall2_split in S as (a & b & Q & Sa & Sb). apply Forall_app in F as [Fl Fo].
  rewrite Q, flat_map_app in A. destruct (all_ok l a Sa Fl) as (S1 & C1 & O1 & K1); [intros k I; apply A, in_or_app; now left|].
  destruct (all_ok (opt_list o) b Sb Fo) as (S2 & C2 & O2 & _); [intros k I; apply A, in_or_app; now right|].
  assert (B : b = opt_list (match b with [] => None | x :: _ => Some x end)).
  { destruct o; cbn in Sb; inversion Sb as [|? ? ? ? ? X]; subst; [inversion X; subst|]; reflexivity. }
  set (r := match b with [] => None | x :: _ => Some x end) in *. clearbody r. subst b. exists (QSingle a r). split; [|split; [|split; [|split]]].
  - constructor; auto.
  - constructor; auto.
  - cbn [clause_outline]. rewrite flat_map_app, <- O1, <- O2. destruct r; cbn; now rewrite ?app_nil_r.
  - unfold text. rewrite (clauses_text E q) by (intros k Ik; split; [reflexivity|now apply A']). rewrite Q. cbn [print_query]. rewrite map_app.
    destruct r; reflexivity.
  - exists a, r. auto.
Qed.
End Statement.
