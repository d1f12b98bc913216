(** Statements made of phrases whose elements stand where they may. *)

From Coq Require Import Ascii String List ZArith Bool Lia.
From Verif Require Import GoStr Escape Num VTree Ast SpecDoc SpecPrint SpecTokens SpecShape SpecOutline SpecGrammar SpecReading GoVal SpecCond Cond
  Builder BuilderText SpecBuilder SpecClauses SpecPhrases BuilderProofs PrintProofs BuilderOutline SpecCalled.
Import ListNotations.
Open Scope string_scope.
Open Scope list_scope.

Section Placed.
Context (E : env) (A : key -> string -> Prop).
Notation K := (aliased A).
Notation in_place := (in_place E A).

(** ** Conditions *)

Definition listed (cs : list cnd) : Prop := Forall in_place (map cond_expr cs).
Lemma placed_comp : forall k o cs n, in_place (cond_expr (Comp k o cs n)) <-> listed cs.
Proof.
  intros k o cs n. unfold SpecCalled.in_place, listed. cbn [cond_expr]. split.
  - intros S. now inversion S.
  - intros S. constructor; [apply op_of_infix|exact S].
Qed.
Lemma placed_join : forall a b, listed a -> listed b -> listed (a ++ b).
Proof. intros a b Ha Hb. unfold listed. rewrite map_app. apply Forall_app; auto. Qed.
Lemma placed_one : forall c, in_place (cond_expr c) -> listed [c].
Proof. intros c H. constructor; [exact H|constructor]. Qed.

Lemma placed_added : forall ki b cs ch x cs', listed cs -> sound_cnd x = true -> in_place (cond_expr x) -> add_conditions ki b cs ch x = Some cs' -> listed cs'.
Proof.
  intros ki b cs ch x cs' S So F H. unfold add_conditions in H. destruct (compound_conditions x) as [inner|] eqn:Ex.
  - destruct inner as [|i inner]; [inversion H; now subst|]. destruct x as [| | | | |k o l n|]; try discriminate. cbn in Ex. inversion Ex; subst l. clear Ex.
    pose proof (proj1 (placed_comp k o _ n) F) as Si. destruct (b && has_op ch (Comp k o (i :: inner) n))%bool.
    + destruct (can_be_flattened ch (i :: inner)); inversion H; subst; [now apply placed_join|]. apply placed_join; [assumption|now apply placed_one].
    + inversion H; subst. apply placed_join; [assumption|]. apply placed_one. apply placed_comp. now apply placed_one.
  - destruct b; [|discriminate]. inversion H; subst. apply placed_join; [assumption|now apply placed_one].
Qed.
Lemma placed_added' : forall ki cs ch x, listed cs -> sound_cnd x = true -> in_place (cond_expr x) -> listed (added ki cs ch x).
Proof. intros ki cs ch x S So F. unfold added. destruct (add_conditions ki true cs ch x) as [cs'|] eqn:H; [|auto]. eapply placed_added; eassumption. Qed.
Lemma placed_create : forall ks l o r, sound_cnd l = true -> sound_cnd r = true -> in_place (cond_expr l) -> in_place (cond_expr r) -> in_place (cond_expr (create ks l o r)).
Proof.
  intros ks l o r Sl Sr Fl Fr. unfold create. rewrite (sound_no_err _ Sl), (sound_no_err _ Sr).
  assert (G : in_place (cond_expr (Comp (ks 0) o (added (ks 2) (added (ks 1) [] o l) o r) (length (added (ks 2) (added (ks 1) [] o l) o r))))).
  { apply placed_comp. apply placed_added'; auto. apply placed_added'; auto; constructor. }
  destruct l; try discriminate; destruct r; try discriminate; exact G.
Qed.
Lemma placed_chain : forall ks o x y z, sound_cnd x = true -> sound_cnd y = true -> in_place (cond_expr x) -> in_place (cond_expr y) ->
  condition_chain ks o x y = Val z -> in_place (cond_expr z).
Proof.
  intros ks o x y z Sx Sy Fx Fy H. destruct x; try discriminate; cbn [condition_chain container_chain embedded add] in H; inversion H; subst; clear H.
  - now apply placed_create.
  - now apply placed_create.
  - apply placed_comp. apply placed_added'; auto; constructor.
  - pose proof (proj1 (placed_comp k o0 cs snap) Fx) as S. destruct (add_conditions (ks 3) (bop_eqb o0 o) cs o y) as [cs'|] eqn:H.
    + apply placed_comp. eapply placed_added; eassumption.
    + apply placed_create; auto.
Qed.
Lemma chained_placed : forall x l z, chained x l z -> in_place_condition E A x -> Forall (in_place_condition E A) (map snd l) -> in_place (cond_expr z).
Proof.
  intros x l z H. induction H as [x|ks o x y z l C z' H IH]; intros [Sx Fx] Fl; [exact Fx|]. cbn [map snd] in *. inversion Fl as [|? ? [Sy Fy] Fl']; subst.
  apply IH; auto. split; [eapply sound_chain; [| |exact C]; assumption|eapply (placed_chain ks _ x y z); eassumption].
Qed.

(** ** Parts of clauses *)

Notation apart_from := (apart_from K).

Lemma where_placed : forall c w, says_where c w -> in_place_conditions E A c -> apart_from (part_keys_of w) -> shaped_behind E K w.
Proof.
  intros [[x l]|] w H F N; cbn [says_where] in H; [|subst w; constructor]. cbn [in_place_conditions map] in F. inversion F as [|? ? Fx Fl]; subst.
  destruct H as (z & C & [[_ ->]|[_ [k ->]]]); [constructor|]. constructor; [|constructor]. split; [apply N; now left|].
  constructor; [exact Logic.I|]. constructor; [|constructor]. now apply (chained_placed x l).
Qed.
Lemma pattern_placed : forall k ps, Forall in_place ps -> shaped E K (EPattern k ps).
Proof. intros k ps F. constructor; [exact Logic.I|exact F]. Qed.
Lemma exprs_placed : forall k ps, Forall in_place ps -> shaped E K (EExprs k ps).
Proof. intros k ps F. constructor; [exact Logic.I|exact F]. Qed.

Lemma item_placed : forall e, in_place_item E A (item_of e) -> apart_from (item_keys e) -> in_place e.
Proof.
  intros e. destruct e; try (intros F N; exact F). rename e1 into a, e2 into b.
  assert (Lb : forall ks n kl ls, a = ESym ks n -> b = ELabels kl ls -> o = SetLabel \/ o = RemoveLabel ->
               apart_from (kl :: map fst ls) -> in_place (EOperation k a o b)).
  { intros ks n kl ls -> -> O N. apply apart_cons in N as [N1 N2].
    apply sh; [right; split; [exact O|exact N1]|]. constructor; [|constructor; [|constructor]]; (apply sh; [|constructor]); [exact Logic.I|].
    cbn. unfold no_label_aliased. rewrite Forall_forall. intros l I. apply N2. now apply in_map. }
  destruct o; try (intros F N; destruct a; exact F).
  - intros F N. assert (H : item_of (EOperation k a SetProp b) = Assign a b) by (destruct a; reflexivity).
    rewrite H in *. destruct F as [Fa Fb]. constructor; [now left|]. constructor; [exact Fa|constructor; [exact Fb|constructor]].
  - destruct a; try (intros F N; exact F). destruct b; try (intros F N; exact F). cbn. intros F N. eapply Lb; eauto.
  - destruct a; try (intros F N; exact F). destruct b; try (intros F N; exact F). cbn. intros F N. eapply Lb; eauto.
Qed.
Lemma set_placed : forall l e, says_items l e -> Forall (in_place_item E A) l -> apart_from (list_keys e) -> shaped E K e.
Proof.
  intros l e (k & es & -> & <-) F N. apply exprs_placed. cbn [list_keys] in N. apply apart_cons in N as [_ N]. clear k.
  induction es as [|x es IH]; [constructor|]. cbn [map flat_map] in *. inversion F; subst. apply apart_app in N as [N1 N2]. constructor; [now apply item_placed|now apply IH].
Qed.

Lemma skip_placed : forall o (w : option expr), (match o with None => w = None | Some z => exists k k', w = Some (ESkip k (ENum k' (num_of_Z z))) end) ->
  apart_from (part_keys_of w) -> shaped_behind E K w.
Proof.
  intros [z|] w H N; [|subst w; constructor]. destruct H as (k & k' & ->). constructor; [|constructor]. split; [apply N; now left|].
  constructor; [exact Logic.I|]. constructor; [|constructor]. constructor; [apply num_fine|constructor].
Qed.
Lemma limit_placed : forall o (w : option expr), (match o with None => w = None | Some z => exists k k', w = Some (ELimit k (ENum k' (num_of_Z z))) end) ->
  apart_from (part_keys_of w) -> shaped_behind E K w.
Proof.
  intros [z|] w H N; [|subst w; constructor]. destruct H as (k & k' & ->). constructor; [|constructor]. split; [apply N; now left|].
  constructor; [exact Logic.I|]. constructor; [|constructor]. constructor; [apply num_fine|constructor].
Qed.
Lemma order_placed : forall (l : list (expr * option bool)) (w : option expr),
  (match l with [] => w = None | i :: r => exists k es, w = Some (EOrder k es) /\ Forall2 says_sort (i :: r) es end) ->
  Forall (fun i => in_place (fst i)) l -> apart_from (part_keys_of w) -> shaped_behind E K w.
Proof.
  intros l w H F N. destruct l as [|i l]; [subst w; constructor|]. destruct H as (k & es & -> & H). constructor; [|constructor]. split; [apply N; now left|].
  constructor; [exact Logic.I|]. cbn [children]. revert H F. generalize (i :: l). clear. induction 1 as [|x e l es [k ->] _ IH]; intros F; [constructor|].
  inversion F; subst. constructor; [|auto]. constructor; [exact Logic.I|]. constructor; [assumption|constructor].
Qed.
Lemma body_placed : forall l s b, says_body l s b -> Forall in_place l -> Forall (fun i => in_place (fst i)) (s_items s) -> apart_from (body_keys b) -> shaped_body E K b.
Proof.
  intros l s b [[k I] (O & Sk & Li)] F Fs N. unfold body_keys in N. apply apart_app in N as [N1 N]. apply apart_app in N as [N2 N]. apply apart_app in N as [N3 N4].
  unfold shaped_body. rewrite I. split; [now apply exprs_placed|]. apply Forall_app. split; [now apply (order_placed _ _ O Fs)|].
  apply Forall_app. split; [now apply (skip_placed _ _ Sk)|now apply (limit_placed _ _ Li)].
Qed.

Lemma says_placed : forall p q, SpecBuilder.says p q -> in_place_phrase E A p -> apart_from (clause_keys q) ->
  shaped_q E K q /\ (match p with PReturn _ _ _ => True | _ => clause K q end).
Proof.
  intros p q H F N. destruct p, q; try contradiction; cbn [SpecBuilder.says in_place_phrase clause_keys] in *.
  - destruct H as (-> & (k' & ->) & W), F as [F Fc]. apply apart_cons in N as [N1 N]. apply apart_app in N as [N2 N3].
    split; [|exact N1]. constructor; [now apply pattern_placed|now apply (where_placed c)].
  - destruct H as (k' & ->). apply apart_cons in N as [N1 N]. split; [|exact N1]. constructor. now apply pattern_placed.
  - destruct H as ((k' & ->) & kb & evs' & -> & H), F as [F Fa]. apply apart_cons in N as [N1 N]. apply apart_app in N as [N2 N3].
    split; [|exact N1]. cbn [flat_map clause_keys app] in N3. apply apart_cons in N3 as [Nb N3].
    assert (G : Forall (clause K) evs' /\ Forall (shaped_q E K) evs').
    { clear - H Fa N3. induction H as [|a q l l' (k & ks & e & -> & I) _ IH]; [auto|]. cbn [flat_map] in N3. apply apart_app in N3 as [B1 B2].
      inversion Fa as [|? ? Fi Fl]; subst. destruct (IH Fl B2) as (G1 & G2). cbn [clause_keys] in B1. apply apart_cons in B1 as [N B1]. apply apart_cons in B1 as [Ns B1].
      pose proof (set_placed _ _ I Fi B1) as S. split; constructor; auto; cbn; auto. constructor; auto. now constructor. }
    destruct G as (G1 & G2). constructor; auto. now apply pattern_placed.
  - destruct H as (-> & k' & ->). apply apart_cons in N as [N1 N]. split; [|exact N1]. constructor. now apply exprs_placed.
  - apply apart_cons in N as [N1 N]. split; [|exact N1]. constructor. now apply (set_placed items).
  - apply apart_cons in N as [N1 N]. split; [|exact N1]. constructor. now apply (set_placed items).
  - destruct H as [-> H], F as (S & Sv). apply apart_cons in N as [N1 _]. split; [|exact N1]. constructor; [|exact Sv].
    destruct e; try (subst; exact S). destruct H as [k' ->]. constructor; [exact Logic.I|constructor].
  - subst. apply apart_cons in N as [N1 _]. split; [|exact N1]. now constructor.
  - destruct H as (Q & Sp & (k' & ->) & Y & W), F as ((x & -> & Sx) & Fa & Fy & Fc).
    rewrite (Sp eq_refl) in *. cbn in Q. match type of Q with ?a = _ => subst a end. apply apart_cons in N as [N1 N]. apply apart_app in N as [N2 N]. apply apart_app in N as [N3 N4].
    split; [|exact N1]. constructor; [exact Sx| | |].
    + constructor; [|constructor]. split; [apply N2; now left|]. constructor; [exact Logic.I|exact Fa].
    + destruct yields as [|y ys]; [subst yield; constructor|]. destruct Y as [ky ->]. constructor; [|constructor]. split; [apply N3; now left|]. constructor; [exact Logic.I|exact Fy].
    + now apply (where_placed c).
  - destruct H as (-> & B & W), F as (F & Fs & Fc). apply apart_cons in N as [N1 N]. apply apart_app in N as [N2 N3].
    split; [|exact N1]. constructor; [now apply (body_placed items s)|now apply (where_placed c)].
  - destruct H as (-> & B), F as (F & Fs). apply apart_cons in N as [N1 N]. split; [|exact Logic.I]. constructor. now apply (body_placed items s).
Qed.

(** ** Statements *)

Lemma all_placed : forall ph qs, Forall2 SpecBuilder.says ph qs -> Forall (in_place_phrase E A) ph -> apart_from (flat_map clause_keys qs) ->
  Forall (shaped_q E K) qs /\ (Forall (fun p => is_return p = false) ph -> Forall (clause K) qs).
Proof.
  induction 1 as [|p q ph qs S _ IH]; intros F N; [auto|]. inversion F as [|? ? Fp Fr]; subst. cbn [flat_map] in N. apply apart_app in N as [N1 N2].
  destruct (says_placed p q S Fp N1) as (Sh & C). destruct (IH Fr N2) as (Sh' & C'). split; [now constructor|].
  intros R. inversion R; subst. constructor; auto. destruct p; auto. discriminate.
Qed.

(** One part holding all the clauses. *)
Lemma flattened_placed : forall ph q, only_last ph -> Forall2 SpecBuilder.says ph (SpecBuilder.clauses q) -> Forall (in_place_phrase E A) ph -> apart E K q ->
  exists a r, shaped_q E K (QSingle a r) /\ text (print_query E (QSingle a r)) = text (print_query E q) /\ SpecBuilder.clauses q = a ++ opt_list r.
Proof.
  intros ph q (l & o & -> & R) S F [N N']. apply Forall2_split in S as (a & b & Q & Sa & Sb). apply Forall_app in F as [Fl Fo].
  rewrite Q, flat_map_app in N. apply apart_app in N as [N1 N2]. destruct (all_placed l a Sa Fl N1) as (S1 & K1). destruct (all_placed (opt_list o) b Sb Fo N2) as (S2 & _).
  assert (B : b = opt_list (match b with [] => None | x :: _ => Some x end)).
  { destruct o; cbn in Sb; inversion Sb as [|? ? ? ? ? X]; subst; [inversion X; subst|]; reflexivity. }
  set (r := match b with [] => None | x :: _ => Some x end) in *. clearbody r. subst b. exists a, r. split; [|split; [|exact Q]].
  - constructor; auto.
  - unfold text. rewrite (clauses_text E q) by (intros k Ik; split; [reflexivity|now apply N']). rewrite Q. cbn [print_query]. rewrite map_app. destruct r; reflexivity.
Qed.

(** What is fine stands where it may. *)
Lemma fine_placed : forall p, fine_phrase E K p -> in_place_phrase E A p.
Proof.
  assert (Fl : forall l, Forall (fine E K) l -> Forall in_place l) by (intros l; apply Forall_impl; now intros e []).
  assert (Fc : forall c, fine_conditions E K c -> in_place_conditions E A c).
  { intros [[x l]|] H; [|exact Logic.I]. revert H. apply Forall_impl. intros c [S [F _]]. now split. }
  assert (Fi : forall l, Forall (fine_item E K) l -> Forall (in_place_item E A) l).
  { intros l. apply Forall_impl. intros [a b|n ls|e]; [intros [[H1 _] [H2 _]]; now split|exact (fun _ => Logic.I)|now intros []]. }
  assert (Fs : forall s, fine_sorting E K s -> Forall (fun i => in_place (fst i)) (s_items s)) by (intros s; apply Forall_impl; now intros i []).
  intros p H. destruct p; cbn [fine_phrase in_place_phrase] in *; auto.
  - destruct H. auto.
  - destruct H as [H1 H2]. split; [auto|]. revert H2. apply Forall_impl. auto.
  - destruct H as ([S _] & V & _). split; [destruct e; auto|exact V].
  - apply H.
  - destruct H as ((x & X & Y & _) & H1 & H2 & H3). split; [eauto|]. auto.
  - destruct H as (H1 & H2 & H3). auto.
  - destruct H as (H1 & H2). auto.
Qed.
End Placed.
