(** Proofs: Build called again on the same state gives the same text.

    The statements differ in the keys of the elements that Build makes; these are
    not keys of expressions with an alias. *)

From Coq Require Import Ascii String List ZArith Bool Lia.
From Verif Require Import GoStr Escape Num VTree Ast SpecDoc SpecPrint DocProofs GoVal Cond Queries Builder BuilderText.
Import ListNotations.
Open Scope string_scope.
Open Scope list_scope.

Section Again.
Context (N : string -> Prop).

Definition fresh_in (m : memory) : Prop := forall k, N k -> free k m.
Definition unaliased (d : doc) : Prop := forall k, N k -> ~ In k (aliased_keys d).

(** Documents with the same text where the keys in N have no alias. *)
Definition same (a b : doc) : Prop :=
  aliased_keys a = aliased_keys b
  /\ (forall m, introduce_all a m = introduce_all b m)
  /\ (unaliased a -> forall m, fresh_in m -> write a m = write b m).

Lemma same_refl : forall d, same d d.
Proof. intros. repeat split; auto. Qed.

Lemma same_shared : forall k a b, same a b -> same (Shared k a) (Shared k b).
Proof.
  intros k a b (A & I & W). repeat split; [exact A|exact I|]. intros U m F. rewrite !write_Shared, I.
  destruct (alias_of k (introduced m)); [reflexivity|]. now apply W.
Qed.

Lemma same_new : forall k k' a b, N k -> N k' -> same a b -> same (Shared k a) (Shared k' b).
Proof.
  intros k k' a b Hk Hk' (A & I & W). repeat split; [exact A|exact I|]. intros U m F. rewrite !write_Shared.
  pose proof (F k Hk) as X. pose proof (F k' Hk') as Y. unfold free in *. rewrite X, Y. now apply W.
Qed.

Lemma same_cats : forall l l', Forall2 same l l' ->
  flat_map aliased_keys l = flat_map aliased_keys l' /\ (forall m, intros_l l m = intros_l l' m)
  /\ ((forall k, N k -> ~ In k (flat_map aliased_keys l)) -> forall m, fresh_in m ->
      wcat l m = wcat l' m).
Proof.
  induction 1 as [|a b l l' (A & I & W) H (A2 & I2 & W2)]; [repeat split; auto|].
  split; [|split].
  - cbn [flat_map]. now rewrite A, A2.
  - intros m. cbn [intros_l]. now rewrite I, I2.
  - intros U m F. cbn [flat_map wcat] in *.
    assert (U1 : unaliased a) by (intros k Hk X; apply (U k Hk); apply in_or_app; now left).
    assert (F1 : fresh_in (snd (write a m))) by (intros k Hk; apply free_write; auto).
    rewrite <- (W U1 m F). destruct (write a m) as [x m1]. cbn [snd] in F1.
    rewrite (W2 (fun k Hk X => U k Hk (in_or_app _ _ _ (or_intror X))) m1 F1). reflexivity.
Qed.

Lemma same_cat : forall l l', Forall2 same l l' -> same (Cat l) (Cat l').
Proof.
  intros l l' H. destruct (same_cats l l' H) as (A & I & W). repeat split.
  - rewrite !aliased_Cat. exact A.
  - intros m. rewrite !intro_Cat. apply I.
  - intros U m F. rewrite !write_Cat. apply W; [|assumption]. intros k Hk. specialize (U k Hk). now rewrite aliased_Cat in U.
Qed.

Lemma same_refls : forall l, Forall2 same l l.
Proof. induction l; constructor; auto using same_refl. Qed.

Lemma same_app : forall a a' b b', Forall2 same a a' -> Forall2 same b b' -> Forall2 same (a ++ b) (a' ++ b').
Proof. intros a a' b b' H. induction H; cbn; auto. Qed.

Lemma same_text : forall a b, same a b -> unaliased a -> text a = text b.
Proof. intros a b (A & I & W) U. unfold text. rewrite (W U); [reflexivity|]. intros k Hk. reflexivity. Qed.

(** ** Clauses *)
Ltac one := repeat match goal with |- Forall2 _ [] [] => apply Forall2_nil | |- Forall2 _ (_ :: _) (_ :: _) => apply Forall2_cons end.
Context (E : env).

Definition qsame (q q' : query) : Prop := same (print_query E q) (print_query E q').
Definition is_match_query (q : query) : bool := is_match_clause (COk q).
Definition csame (c c' : clause) : Prop :=
  match c, c' with
  | COk q, COk q' => qsame q q' /\ is_match_query q = is_match_query q'
  | CErr b m, CErr b' m' => b = b' /\ m = m'
  | CBroken b, CBroken b' => b = b'
  | _, _ => False
  end.
Definition rsame (r r' : returning) : Prop :=
  match r, r' with
  | NoReturn, NoReturn | BrokenReturn, BrokenReturn => True
  | Return q, Return q' => qsame q q'
  | _, _ => False
  end.
Definition stsame (s s' : statement) : Prop :=
  match s, s' with
  | StOk q, StOk q' => qsame q q'
  | StErr b m, StErr b' m' => b = b' /\ m = m'
  | StBroken b, StBroken b' => b = b'
  | StNil, StNil => True
  | _, _ => False
  end.
Definition osame (o o' : outcome statement) : Prop :=
  match o, o' with
  | Returns s, Returns s' => stsame s s'
  | Panics, Panics | Diverges, Diverges => True
  | _, _ => False
  end.

Lemma csame_refl : forall c, csame c c.
Proof. destruct c; cbn; auto. split; [apply same_refl|reflexivity]. Qed.
Lemma csame_refls : forall l, Forall2 csame l l.
Proof. induction l; constructor; auto using csame_refl. Qed.

Lemma last_same : forall l l', Forall2 csame l l' ->
  match last_clause l, last_clause l' with
  | Some c, Some c' => csame c c'
  | None, None => True
  | _, _ => False
  end.
Proof.
  induction 1 as [|c c' l l' Hc H IH]; [exact Logic.I|]. cbn [last_clause].
  destruct H as [|d d' l l' Hd H]; [exact Hc|]. exact IH.
Qed.

Lemma match_same : forall c c', csame c c' -> is_match_clause c = is_match_clause c'.
Proof. intros [q|b m|b] [q'|b' m'|b']; cbn; tauto. Qed.

Lemma error_same : forall l l', Forall2 csame l l' -> first_clause_error l = first_clause_error l'.
Proof. induction 1 as [|c c' l l' Hc H IH]; [reflexivity|]. destruct c, c'; cbn in *; try tauto. now destruct Hc as [_ ->]. Qed.

Lemma broken_same : forall l l', Forall2 csame l l' -> has_broken l = has_broken l'.
Proof. induction 1 as [|c c' l l' Hc H IH]; [reflexivity|]. unfold has_broken in *. destruct c, c'; cbn in *; tauto. Qed.

Lemma sound_same : forall l l', Forall2 csame l l' -> Forall2 same (map (print_query E) (sound_clauses l)) (map (print_query E) (sound_clauses l')).
Proof.
  induction 1 as [|c c' l l' Hc H IH]; [constructor|]. unfold sound_clauses in *.
  destruct c, c'; cbn in *; try tauto. constructor; tauto.
Qed.

Lemma single_same : forall l l' r r', Forall2 csame l l' -> rsame r r' ->
  stsame (single_part_create l r) (single_part_create l' r').
Proof.
  intros l l' r r' H Hr. unfold single_part_create.
  assert (X : match last_clause l with Some c => is_match_clause c | None => true end
              = match last_clause l' with Some c => is_match_clause c | None => true end).
  { pose proof (last_same l l' H) as L. destruct (last_clause l), (last_clause l'); try tauto. now apply match_same. }
  assert (Y : return_not_nil r = return_not_nil r') by (destruct r, r'; cbn in *; tauto).
  rewrite X, Y, (error_same l l' H), (broken_same l l' H).
  destruct (_ && _)%bool; [cbn; auto|]. destruct (first_clause_error l'); [cbn; auto|].
  destruct (has_broken l'); [reflexivity|].
  assert (Hs := sound_same l l' H).
  destruct r as [|q|], r' as [|q'|]; cbn in Hr; try contradiction.
  - change (same (Cat (map (print_query E) (sound_clauses l) ++ [])) (Cat (map (print_query E) (sound_clauses l') ++ []))).
    apply same_cat, same_app; [exact Hs|apply Forall2_nil].
  - change (same (Cat (map (print_query E) (sound_clauses l) ++ [print_query E q]))
                 (Cat (map (print_query E) (sound_clauses l') ++ [print_query E q']))).
    apply same_cat, same_app; [exact Hs|apply Forall2_cons; [exact Hr|apply Forall2_nil]].
  - reflexivity.
Qed.

Lemma multi_same : forall ps s s', stsame s s' -> osame (multi_part_query_create ps s) (multi_part_query_create ps s').
Proof.
  intros ps s s' H. unfold multi_part_query_create. destruct (first_part_error ps); [exact Logic.I|].
  destruct s, s'; cbn in H; try tauto; cbn; try reflexivity.
  - destruct (has_broken_part ps); cbn; [reflexivity|]. unfold qsame. cbn [print_query]. apply same_cat.
    apply same_app; [apply same_refls|]. one. exact H.
Qed.

(** ** What Build makes *)
Definition all_new (ks : nat -> key) : Prop := forall n, N (ks n).

Lemma new_block : forall ks i, all_new ks -> all_new (block ks i).
Proof. intros ks i H n. apply H. Qed.

Lemma where_same : forall ks ks' n c, all_new ks -> all_new ks' ->
  where_broken (build_where (ks n) c) = where_broken (build_where (ks' n) c)
  /\ Forall2 same (maybe (option_map (print E) (where_expr (build_where (ks n) c))))
                  (maybe (option_map (print E) (where_expr (build_where (ks' n) c)))).
Proof.
  intros ks ks' n c H H'. unfold build_where. destruct (build_condition c) as [c0|]; [|split; [reflexivity|constructor]].
  destruct (sound_cnd c0); split; try reflexivity; cbn; one.
  apply same_new; auto. apply same_refl.
Qed.

Ltac new := apply same_new; [solve [auto]|solve [auto]|].

Lemma match_again : forall ks ks' m, all_new ks -> all_new ks' -> csame (build_match ks m) (build_match ks' m).
Proof.
  intros ks ks' m H H'. unfold build_match. destruct (where_same ks ks' 1 (m_cond m) H H') as [B W]. cbv zeta. rewrite B. clear B.
  destruct (where_broken _); [apply csame_refl|]. cbn. split; [|reflexivity]. unfold qsame. cbn [print_query]. new.
  apply same_cat. constructor; [apply same_refl|]. constructor; [apply same_refl|].
  apply same_app; [exact W|apply same_refls].
Qed.

Lemma update_again : forall ks ks' u, all_new ks -> all_new ks' -> csame (build_update ks u) (build_update ks' u).
Proof.
  intros ks ks' u H H'. destruct u as [[p|]|[p|]|c]; cbn; auto using csame_refl; (split; [|reflexivity]);
    unfold qsame; cbn [print_query print]; new; apply same_cat.
  - constructor; [apply same_refl|]. constructor; [|apply same_refls]. new. apply same_refl.
  - constructor; [apply same_refl|]. cbn [app map print_query]. constructor; [new; apply same_refl|].
    constructor; [new; apply same_refl|]. apply same_refls.
Qed.

Lemma call_again : forall ks ks' p, all_new ks -> all_new ks' ->
  match build_call ks p, build_call ks' p with
  | inl c, inl c' => csame c c'
  | inr m, inr m' => m = m'
  | _, _ => False
  end.
Proof.
  intros ks ks' p H H'. unfold build_call. destruct (where_same ks ks' 3 (p_cond p) H H') as [B W]. cbv zeta. rewrite B. clear B.
  assert (Made : forall a a', Forall2 same (maybe (option_map (print E) a)) (maybe (option_map (print E) a')) ->
    qsame (QCall (ks 0) (ks 1) (fst (p_name p)) (snd (p_name p)) a (p_yield p) (where_expr (build_where (ks 3) (p_cond p))))
          (QCall (ks' 0) (ks' 1) (fst (p_name p)) (snd (p_name p)) a' (p_yield p) (where_expr (build_where (ks' 3) (p_cond p))))).
  { intros a a' A. unfold qsame. cbn [print_query]. new. apply same_cat. cbn [app]. constructor; [apply same_refl|].
    constructor; [new; apply same_refl|]. apply same_app; [exact A|]. apply same_app; [apply same_refls|].
    apply same_app; [exact W|apply same_refls]. }
  assert (Args : forall l, Forall2 same (maybe (option_map (print E) (Some (EArgs (ks 2) l)))) (maybe (option_map (print E) (Some (EArgs (ks' 2) l))))).
  { intros l. cbn. constructor; [|constructor]. new. apply same_refl. }
  destruct (p_args p) as [[|g l]|].
  - destruct (where_broken _); cbn; [reflexivity|]. split; [|reflexivity]. apply Made. constructor.
  - destruct (first_error (g :: l)).
    + destruct (p_standalone p); cbn; auto.
    + destruct (where_broken _); cbn; [reflexivity|]. split; [|reflexivity]. apply Made. apply Args.
  - destruct (where_broken _); cbn; [reflexivity|]. split; [|reflexivity]. apply Made. apply Args.
Qed.

Lemma list_again : forall ks ks' d, all_new ks -> all_new ks' ->
  match build_list ks d, build_list ks' d with
  | inl l, inl l' => Forall2 csame l l'
  | inr m, inr m' => m = m'
  | _, _ => False
  end.
Proof.
  intros ks ks' d H H'. unfold build_list.
  assert (L : forall x y, Forall2 csame x y -> forall z w, Forall2 csame z w -> Forall2 csame (x ++ z) (y ++ w)).
  { intros x y Hxy. induction Hxy; cbn; auto. }
  assert (A : Forall2 csame
     (d_elements d ++ (if m_not_nil (d_match d) then [build_match (block ks 0) (d_match d)] else [])
      ++ match d_update d with Some u => [build_update (block ks 1) u] | None => [] end)
     (d_elements d ++ (if m_not_nil (d_match d) then [build_match (block ks' 0) (d_match d)] else [])
      ++ match d_update d with Some u => [build_update (block ks' 1) u] | None => [] end)).
  { apply L; [apply csame_refls|]. apply L.
    - destruct (m_not_nil _); one. apply match_again; now apply new_block.
    - destruct (d_update d); one. apply update_again; now apply new_block. }
  cbv zeta. destruct (d_call d) as [p|]; [|exact A].
  pose proof (call_again (block ks 2) (block ks' 2) p (new_block _ _ H) (new_block _ _ H')) as C.
  destruct (build_call _ p), (build_call _ p); try tauto. apply L; [exact A|]. one; assumption.
Qed.

Lemma impl_again : forall ks ks' d r r', all_new ks -> all_new ks' -> rsame r r' ->
  osame (build_impl ks d r) (build_impl ks' d r').
Proof.
  intros ks ks' d r r' H H' Hr. unfold build_impl.
  assert (S : stsame (single_part_create (match build_list ks d with inl l => l | inr _ => [] end) r)
                     (single_part_create (match build_list ks' d with inl l => l | inr _ => [] end) r')).
  { apply single_same; [|exact Hr]. pose proof (list_again ks ks' d H H') as L.
    destruct (build_list ks d), (build_list ks' d); try tauto. constructor. }
  cbv zeta. destruct (d_parts d); [exact S|]. now apply multi_same.
Qed.

Lemma order_again : forall ks ks' n o, all_new ks -> all_new ks' ->
  ordering_broken (build_order (ks n) o) = ordering_broken (build_order (ks' n) o)
  /\ Forall2 same (maybe (option_map (print E) (ordering_expr (build_order (ks n) o))))
                  (maybe (option_map (print E) (ordering_expr (build_order (ks' n) o)))).
Proof.
  intros ks ks' n o H H'. unfold build_order. set (l := o_items o ++ _). clearbody l.
  destruct l as [|s l]; [split; [reflexivity|constructor]|].
  destruct (existsb _ (s :: l)); [split; [reflexivity|constructor]|].
  destruct (existsb _ (s :: l)); [split; [reflexivity|constructor]|].
  split; [reflexivity|]. cbn. constructor; [|constructor]. new. apply same_refl.
Qed.

Lemma return_again : forall ks ks' d items o, all_new ks -> all_new ks' ->
  rsame (build_return ks d items o) (build_return ks' d items o).
Proof.
  intros ks ks' d items o H H'. unfold build_return. destruct items as [|i items]; [exact Logic.I|].
  destruct (order_again ks ks' 1 o H H') as [B O]. rewrite B. clear B.
  destruct (_ || _)%bool; [exact Logic.I|]. cbn. unfold qsame. cbn [print_query]. new. apply same_cat.
  constructor; [apply same_refl|]. constructor; [|constructor]. unfold print_body. apply same_cat.
  apply same_app; [apply same_refls|]. cbn [app b_items body_create]. constructor; [apply same_refl|].
  apply same_app; [cbn [b_order body_create]; exact O|]. cbn [b_skip b_limit body_create].
  apply same_app.
  - destruct (o_skip o); cbn; one. new. apply same_cat. constructor; [apply same_refl|].
    constructor; [new; apply same_refl|constructor].
  - destruct (o_limit o); cbn; one. new. apply same_cat. constructor; [apply same_refl|].
    constructor; [new; apply same_refl|constructor].
Qed.

Definition bsame (b b' : built) : Prop :=
  match b, b' with
  | BuildFails m, BuildFails m' => m = m'
  | Built s, Built s' => stsame s s'
  | _, _ => False
  end.

Lemma built_of_same : forall o o', osame o o' ->
  match built_of o, built_of o' with
  | Returns b, Returns b' => bsame b b'
  | Panics, Panics | Diverges, Diverges => True
  | _, _ => False
  end.
Proof. intros [s| |] [s'| |]; cbn; tauto. Qed.

(** A state that was not made by an updating clause. *)
Definition obsame (x y : option (outcome built)) : Prop :=
  match x, y with
  | Some (Returns b), Some (Returns b') => bsame b b'
  | Some Panics, Some Panics | Some Diverges, Some Diverges | None, None => True
  | _, _ => False
  end.

Lemma built_again : forall o o', osame o o' -> obsame (Some (built_of o)) (Some (built_of o')).
Proof. intros [s| |] [s'| |]; cbn; tauto. Qed.

Lemma impl_same : forall ks ks' d d' r r', all_new ks -> all_new ks' -> rsame r r' ->
  Forall2 csame (d_elements d) (d_elements d') -> d_parts d = d_parts d' -> d_match d = d_match d' ->
  d_update d = d_update d' -> d_call d = d_call d' ->
  osame (build_impl ks d r) (build_impl ks' d' r').
Proof.
  intros ks ks' d d' r r' H H' Hr He Hp Hm Hu Hc. unfold build_impl. rewrite <- Hp.
  assert (L : forall x y, Forall2 csame x y -> forall z w, Forall2 csame z w -> Forall2 csame (x ++ z) (y ++ w)).
  { intros x y Hxy. induction Hxy; cbn; auto. }
  assert (S : stsame (single_part_create (match build_list ks d with inl l => l | inr _ => [] end) r)
                     (single_part_create (match build_list ks' d' with inl l => l | inr _ => [] end) r')).
  { apply single_same; [|exact Hr]. unfold build_list. rewrite <- Hm, <- Hu, <- Hc.
    assert (A : Forall2 csame
       (d_elements d ++ (if m_not_nil (d_match d) then [build_match (block ks 0) (d_match d)] else [])
        ++ match d_update d with Some u => [build_update (block ks 1) u] | None => [] end)
       (d_elements d' ++ (if m_not_nil (d_match d) then [build_match (block ks' 0) (d_match d)] else [])
        ++ match d_update d with Some u => [build_update (block ks' 1) u] | None => [] end)).
    { apply L; [exact He|]. apply L.
      - destruct (m_not_nil _); one. apply match_again; now apply new_block.
      - destruct (d_update d); one. apply update_again; now apply new_block. }
    destruct (d_call d) as [p|]; [|exact A].
    pose proof (call_again (block ks 2) (block ks' 2) p (new_block _ _ H) (new_block _ _ H')) as C.
    destruct (build_call _ p), (build_call _ p); try tauto; [|constructor]. apply L; [exact A|]. one; assumption. }
  destruct (d_parts d); [exact S|]. now apply multi_same.
Qed.

Lemma build_again : forall ks ks' s, all_new ks -> all_new ks' -> obsame (build ks s) (build ks' s).
Proof.
  intros ks ks' s H H'. destruct s as [d|u|w|r|d p|p]; cbn [build].
  - destruct (d_err d); [cbn; reflexivity|]. apply built_again. apply impl_again; auto. exact Logic.I.
  - destruct (u_err u); [cbn; reflexivity|]. destruct (u_default u) as [d|]; [|exact Logic.I].
    destruct (u_update u) as [b|]; [|exact Logic.I]. apply built_again.
    unfold add_updating_clause, with_elements, close_match.
    assert (L : forall x y, Forall2 csame x y -> forall z w, Forall2 csame z w -> Forall2 csame (x ++ z) (y ++ w)).
    { intros x y Hxy. induction Hxy; cbn; auto. }
    destruct (m_not_nil (d_match d)); apply impl_same; cbn; auto using new_block;
      try (apply return_again; now apply new_block); (apply L; [|one; apply update_again; now apply new_block]);
      [apply L; [|one; apply match_again; now apply new_block]|]; apply csame_refls.
  - exact Logic.I.
  - destruct (r_err r); [cbn; reflexivity|]. destruct (r_default r) as [d|]; [|exact Logic.I]. apply built_again.
    apply impl_again; auto using new_block. apply return_again; now apply new_block.
  - exact Logic.I.
  - pose proof (call_again ks ks' p H H') as C. destruct (build_call ks p) as [c|m], (build_call ks' p) as [c'|m']; try tauto.
    destruct c, c'; cbn in *; tauto.
Qed.
End Again.
