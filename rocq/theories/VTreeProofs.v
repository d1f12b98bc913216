(** What the renderer does on well-keyed visit trees. *)

From Coq Require Import Ascii String List ZArith Bool Lia.
From Verif Require Import GoStr VTree WellKeyed EscapeProofs.
Import ListNotations.
Open Scope string_scope.

(** ** Induction on visit trees *)

Lemma vt_ind' : forall (P : vt -> Prop) (Q : list vt -> Prop),
  (forall h kids, Q kids -> P (V h kids)) ->
  (forall kids, Q kids -> P (B kids)) ->
  (forall s, P (T s)) ->
  Q [] -> (forall t l, P t -> Q l -> Q (t :: l)) ->
  (forall t, P t) /\ (forall l, Q l).
Proof.
  intros P Q HV HB HT Hn Hc.
  assert (HP : forall t, P t).
  { fix IH 1. intros [h kids|kids|s].
    - apply HV. induction kids as [|k kids IHk]; [exact Hn|]. apply Hc; [apply IH|exact IHk].
    - apply HB. induction kids as [|k kids IHk]; [exact Hn|]. apply Hc; [apply IH|exact IHk].
    - apply HT. }
  split; [exact HP|]. induction l; auto.
Qed.

Lemma accept_V : forall h kids r, accept (V h kids) r = leave h (accepts kids (enter h r)).
Proof. reflexivity. Qed.
Lemma accept_B : forall kids r, accept (B kids) r = accepts kids r.
Proof. reflexivity. Qed.
Lemma keys_V : forall h kids, keys (V h kids) = h_key h :: keys_l kids.
Proof. reflexivity. Qed.
Lemma keys_B : forall kids, keys (B kids) = keys_l kids.
Proof. reflexivity. Qed.
Lemma aliases_V : forall h kids, aliases (V h kids) = (own_alias h ++ aliases_l kids)%list.
Proof. reflexivity. Qed.
Lemma aliases_B : forall kids, aliases (B kids) = aliases_l kids.
Proof. reflexivity. Qed.
Lemma wk_V : forall als anc open h kids, wk als anc open (V h kids) =
  negb (key_clash als h)
  && negb (memk (h_key h) (dkeys als) && memk (h_key h) anc)
  && named_ok h kids
  && match h_kind h with
     | KAlias dk _ =>
         memk dk (dkeys als)
         && negb (String.eqb (h_key h) "") && negb (memk (h_key h) anc)
         && negb (memk dk (h_key h :: anc)) && negb (memk dk open)
         && alias_shape dk kids && negb (h_sub h)
     | _ => true
     end
  && wk_l als (h_key h :: anc) (match h_kind h with KAlias dk _ => dk :: open | _ => open end) kids.
Proof.
  intros. cbn [wk]. f_equal. induction kids as [|x kids IH]; [reflexivity|]. cbn [wk_l]. now rewrite IH.
Qed.
Lemma wk_B : forall als anc open kids, wk als anc open (B kids) = wk_l als anc open kids.
Proof.
  intros. cbn [wk]. induction kids as [|x kids IH]; [reflexivity|]. cbn [wk_l]. now rewrite IH.
Qed.

Lemma memk_In : forall k l, memk k l = true <-> In k l.
Proof.
  intros. unfold memk. rewrite existsb_exists. split.
  - intros [x [H E]]. apply String.eqb_eq in E. now subst.
  - intros H. exists k. now rewrite String.eqb_refl.
Qed.
Lemma memk_notIn : forall k l, memk k l = false <-> ~ In k l.
Proof. intros. rewrite <- memk_In. destruct (memk k l); split; congruence. Qed.

(** ** Separators *)

Lemma get_sep_cons : forall l l' v m, get_sep l ((l', v) :: m) = if Z.eqb l l' then Some v else get_sep l m.
Proof. reflexivity. Qed.
Lemma get_sep_del : forall l l' m, get_sep l (del_sep l' m) = if Z.eqb l l' then None else get_sep l m.
Proof.
  intros l l' m. induction m as [|[x v] m IH]; [cbn; now destruct (Z.eqb l l')|].
  cbn [del_sep filter fst]. destruct (Z.eqb_spec l' x) as [->|N]; cbn [negb].
  - fold (del_sep x m). rewrite IH. cbn [get_sep]. destruct (Z.eqb l x) eqn:E; [reflexivity|reflexivity].
  - cbn [get_sep]. fold (del_sep l' m). rewrite IH.
    destruct (Z.eqb_spec l x); [|reflexivity]. subst.
    destruct (Z.eqb_spec x l'); [lia|reflexivity].
Qed.

(** ** The text of a tree

    [seen]: the aliases and named nodes written so far.  [pp t sep s] is the
    text of [t]: [sep] is the pending separator if the surrounding element is a
    comma list.  Abbreviated elements still declare the aliases they contain
    ([sets]) and still emit direct appends ([leaks]). *)
Record seen := Seen { s_al : list (key * alias); s_nm : list key }.

Fixpoint sets (t : vt) (m : list (key * alias)) : list (key * alias) :=
  match t with
  | V h kids =>
      let m' := (fix go l m := match l with [] => m | k :: l' => go l' (sets k m) end) kids m in
      match as_alias h with Some a => (al_dkey a, a) :: m' | None => m' end
  | B kids => (fix go l m := match l with [] => m | k :: l' => go l' (sets k m) end) kids m
  | T _ => m
  end.
Fixpoint sets_l (l : list vt) (m : list (key * alias)) := match l with [] => m | k :: l' => sets_l l' (sets k m) end.

Fixpoint leaks (t : vt) : string :=
  match t with
  | V _ kids => (fix go l := match l with [] => "" | k :: l' => leaks k ++ go l' end) kids
  | B kids => (fix go l := match l with [] => "" | k :: l' => leaks k ++ go l' end) kids
  | T s => s
  end.
Fixpoint leaks_l (l : list vt) : string := match l with [] => "" | k :: l' => leaks k ++ leaks_l l' end.

Definition opt_text (o : option string) : string := match o with Some s => s | None => "" end.
Definition next_sep (o : option string) : option string := match o with Some _ => Some ", " | None => None end.

Fixpoint pp (t : vt) (sep : option string) (s : seen) : string * option string * seen :=
  match t with
  | V h kids =>
      let pps := fix go l sep s :=
          match l with
          | [] => ("", sep, s)
          | k :: l' => let '(x, sep1, s1) := pp k sep s in
                       let '(y, sep2, s2) := go l' sep1 s1 in (x ++ y, sep2, s2)
          end in
      let declare m := match as_alias h with Some a => (al_dkey a, a) :: m | None => m end in
      let abbreviate txt := (txt ++ leaks_l kids, Seen (declare (sets_l kids (s_al s))) (s_nm s)) in
      let '(txt, s') :=
        match assoc (h_key h) (s_al s) with
        | Some a => abbreviate (al_text a)
        | None =>
            match h_kind h with
            | KText b a =>
                let '(x, _, s1) := pps kids (if h_sub h then Some "" else None) s in (b ++ x ++ a, s1)
            | KNode None => let '(x, _, s1) := pps kids (if h_sub h then Some "" else None) s in ("(" ++ x ++ ")", s1)
            | KNode (Some n) =>
                let s0 := Seen (s_al s) (h_key h :: s_nm s) in
                if memk (h_key h) (s_nm s)
                then ("(" ++ n ++ leaks_l kids ++ ")", Seen (sets_l kids (s_al s)) (h_key h :: s_nm s))
                else let '(x, _, s1) := pps kids (if h_sub h then Some "" else None) s0 in ("(" ++ x ++ ")", s1)
            | KAlias dk tx =>
                match assoc dk (s_al s) with
                | Some _ => abbreviate tx
                | None => let '(x, _, s1) := pps kids (if h_sub h then Some "" else None) s in
                          (x ++ " AS " ++ tx, Seen (declare (s_al s1)) (s_nm s1))
                end
            end
        end in
      (opt_text sep ++ txt, next_sep sep, s')
  | B kids =>
      (fix go l sep s :=
          match l with
          | [] => ("", sep, s)
          | k :: l' => let '(x, sep1, s1) := pp k sep s in
                       let '(y, sep2, s2) := go l' sep1 s1 in (x ++ y, sep2, s2)
          end) kids sep s
  | T x => (x, sep, s)
  end.
Fixpoint pps (l : list vt) (sep : option string) (s : seen) : string * option string * seen :=
  match l with
  | [] => ("", sep, s)
  | k :: l' => let '(x, sep1, s1) := pp k sep s in
               let '(y, sep2, s2) := pps l' sep1 s1 in (x ++ y, sep2, s2)
  end.

Definition declare (h : head) (m : list (key * alias)) : list (key * alias) :=
  match as_alias h with Some a => (al_dkey a, a) :: m | None => m end.

Definition sub_sep (h : head) : option string := if h_sub h then Some "" else None.

Definition pp_el (h : head) (kids : list vt) (s : seen) : string * seen :=
  let abbreviate txt := (txt ++ leaks_l kids, Seen (declare h (sets_l kids (s_al s))) (s_nm s)) in
  match assoc (h_key h) (s_al s) with
  | Some a => abbreviate (al_text a)
  | None =>
      match h_kind h with
      | KText b a => let '(x, _, s1) := pps kids (sub_sep h) s in (b ++ x ++ a, s1)
      | KNode None => let '(x, _, s1) := pps kids (sub_sep h) s in ("(" ++ x ++ ")", s1)
      | KNode (Some n) =>
          let s0 := Seen (s_al s) (h_key h :: s_nm s) in
          if memk (h_key h) (s_nm s)
          then ("(" ++ n ++ leaks_l kids ++ ")", Seen (sets_l kids (s_al s)) (h_key h :: s_nm s))
          else let '(x, _, s1) := pps kids (sub_sep h) s0 in ("(" ++ x ++ ")", s1)
      | KAlias dk tx =>
          match assoc dk (s_al s) with
          | Some _ => abbreviate tx
          | None => let '(x, _, s1) := pps kids (sub_sep h) s in
                    (x ++ " AS " ++ tx, Seen (declare h (s_al s1)) (s_nm s1))
          end
      end
  end.

Lemma pp_V : forall h kids sep s,
  pp (V h kids) sep s = let '(txt, s') := pp_el h kids s in (opt_text sep ++ txt, next_sep sep, s').
Proof. reflexivity. Qed.
Lemma pp_B : forall kids sep s, pp (B kids) sep s = pps kids sep s.
Proof. reflexivity. Qed.
Lemma sets_V : forall h kids m, sets (V h kids) m = declare h (sets_l kids m).
Proof. reflexivity. Qed.
Lemma sets_B : forall kids m, sets (B kids) m = sets_l kids m.
Proof. reflexivity. Qed.
Lemma leaks_V : forall h kids, leaks (V h kids) = leaks_l kids.
Proof. reflexivity. Qed.
Lemma leaks_B : forall kids, leaks (B kids) = leaks_l kids.
Proof. reflexivity. Qed.

(** ** Declarations *)

Lemma sets_frame : forall k,
  (forall t m, ~ In k (dkeys (aliases t)) -> assoc k (sets t m) = assoc k m)
  /\ (forall l m, ~ In k (dkeys (aliases_l l)) -> assoc k (sets_l l m) = assoc k m).
Proof.
  intros k. apply vt_ind'.
  - intros h kids IH m H. rewrite sets_V. rewrite aliases_V in H.
    unfold dkeys in H. rewrite map_app, in_app_iff in H.
    unfold declare, own_alias in *. destruct (as_alias h) as [a|]; cbn in *.
    + destruct (String.eqb_spec k (al_dkey a)) as [->|]; [tauto|]. apply IH. tauto.
    + apply IH. tauto.
  - intros kids IH m H. rewrite sets_B. apply IH. exact H.
  - reflexivity.
  - reflexivity.
  - intros t l IHt IHl m H. cbn [sets_l aliases_l] in *. unfold dkeys in H.
    rewrite map_app, in_app_iff in H. rewrite IHl by tauto. apply IHt. tauto.
Qed.

Lemma pp_el_frame : forall k h kids s,
  (forall sep s, ~ In k (dkeys (aliases_l kids)) ->
     assoc k (s_al (snd (pps kids sep s))) = assoc k (s_al s)) ->
  ~ In k (dkeys (own_alias h)) -> ~ In k (dkeys (aliases_l kids)) ->
  assoc k (s_al (snd (pp_el h kids s))) = assoc k (s_al s).
Proof.
  intros k h kids s IH H1 H2. unfold pp_el.
  assert (D : forall m, assoc k (declare h m) = assoc k m).
  { intros m. unfold declare, own_alias in *. destruct (as_alias h); [|reflexivity].
    cbn in *. destruct (String.eqb_spec k (al_dkey a)); [subst; tauto|reflexivity]. }
  destruct (assoc (h_key h) (s_al s)).
  { cbn. rewrite D. now apply (proj2 (sets_frame k)). }
  destruct (h_kind h) as [b a|[n|]|dk tx].
  - specialize (IH (sub_sep h) s H2). destruct (pps kids (sub_sep h) s) as [[x y] s1]. exact IH.
  - destruct (memk (h_key h) (s_nm s)).
    + cbn. now apply (proj2 (sets_frame k)).
    + specialize (IH (sub_sep h) (Seen (s_al s) (h_key h :: s_nm s)) H2).
      destruct (pps kids (sub_sep h) _) as [[x y] s1]. exact IH.
  - specialize (IH (sub_sep h) s H2). destruct (pps kids (sub_sep h) s) as [[x y] s1]. exact IH.
  - destruct (assoc dk (s_al s)).
    + cbn. rewrite D. now apply (proj2 (sets_frame k)).
    + specialize (IH (sub_sep h) s H2). destruct (pps kids (sub_sep h) s) as [[x y] s1].
      cbn in *. now rewrite D.
Qed.

Lemma pp_frame : forall k,
  (forall t sep s, ~ In k (dkeys (aliases t)) -> assoc k (s_al (snd (pp t sep s))) = assoc k (s_al s))
  /\ (forall l sep s, ~ In k (dkeys (aliases_l l)) -> assoc k (s_al (snd (pps l sep s))) = assoc k (s_al s)).
Proof.
  intros k. apply vt_ind'.
  - intros h kids IH sep s H. rewrite pp_V. rewrite aliases_V in H.
    unfold dkeys in H. rewrite map_app, in_app_iff in H.
    pose proof (pp_el_frame k h kids s IH) as P.
    destruct (pp_el h kids s) as [x s']. cbn in *. apply P; unfold dkeys; tauto.
  - intros kids IH sep s H. rewrite pp_B. now apply IH.
  - reflexivity.
  - reflexivity.
  - intros t l IHt IHl sep s H. cbn [pps aliases_l] in *. unfold dkeys in H.
    rewrite map_app, in_app_iff in H.
    specialize (IHt sep s). destruct (pp t sep s) as [[x sep1] s1].
    specialize (IHl sep1 s1). destruct (pps l sep1 s1) as [[y sep2] s2]. cbn in *.
    rewrite IHl by (unfold dkeys; tauto). apply IHt. unfold dkeys; tauto.
Qed.

(** Every map entry is one of [als], filed under its delegate's key. *)
Definition map_ok (als : list alias) (m : list (key * alias)) : Prop :=
  forall k a, In (k, a) m -> al_dkey a = k /\ In a als.

Lemma assoc_In : forall A k (m : list (key * A)) a, assoc k m = Some a -> In (k, a) m.
Proof.
  intros A k m. induction m as [|[k' v] m IH]; intros a H; [discriminate|]. cbn in H.
  destruct (String.eqb_spec k k') as [->|]; [inversion H; subst; now left|right; auto].
Qed.

Lemma map_ok_assoc : forall als m k a, map_ok als m -> assoc k m = Some a -> al_dkey a = k /\ In a als.
Proof. intros. apply H. now apply assoc_In. Qed.

Lemma declare_ok : forall als h m, incl (own_alias h) als -> map_ok als m -> map_ok als (declare h m).
Proof.
  intros als h m Hi Hm. unfold declare, own_alias in *. destruct (as_alias h) as [a|]; [|assumption].
  intros k b [E|H]; [inversion E; subst; split; [reflexivity|apply Hi; now left]|auto].
Qed.

Lemma sets_ok : forall als,
  (forall t m, incl (aliases t) als -> map_ok als m -> map_ok als (sets t m))
  /\ (forall l m, incl (aliases_l l) als -> map_ok als m -> map_ok als (sets_l l m)).
Proof.
  intros als. apply vt_ind'.
  - intros h kids IH m Hi Hm. rewrite sets_V. rewrite aliases_V in Hi. apply incl_app_inv in Hi.
    destruct Hi. apply declare_ok; auto.
  - intros kids IH m Hi Hm. rewrite sets_B. auto.
  - auto.
  - auto.
  - intros t l IHt IHl m Hi Hm. cbn [sets_l aliases_l] in *. apply incl_app_inv in Hi. destruct Hi. auto.
Qed.

Lemma pp_ok : forall als,
  (forall t sep s, incl (aliases t) als -> map_ok als (s_al s) -> map_ok als (s_al (snd (pp t sep s))))
  /\ (forall l sep s, incl (aliases_l l) als -> map_ok als (s_al s) -> map_ok als (s_al (snd (pps l sep s)))).
Proof.
  intros als. apply vt_ind'.
  - intros h kids IH sep s Hi Hm. rewrite pp_V. rewrite aliases_V in Hi. apply incl_app_inv in Hi.
    destruct Hi as [H1 H2].
    assert (P : map_ok als (s_al (snd (pp_el h kids s)))).
    { unfold pp_el. destruct (assoc (h_key h) (s_al s)).
      { cbn. apply declare_ok; auto. now apply (proj2 (sets_ok als)). }
      destruct (h_kind h) as [b a|[n|]|dk tx].
      - specialize (IH (sub_sep h) s H2 Hm). destruct (pps kids (sub_sep h) s) as [[x y] s1]. exact IH.
      - destruct (memk (h_key h) (s_nm s)).
        + cbn. now apply (proj2 (sets_ok als)).
        + specialize (IH (sub_sep h) (Seen (s_al s) (h_key h :: s_nm s)) H2 Hm).
          destruct (pps kids (sub_sep h) _) as [[x y] s1]. exact IH.
      - specialize (IH (sub_sep h) s H2 Hm). destruct (pps kids (sub_sep h) s) as [[x y] s1]. exact IH.
      - destruct (assoc dk (s_al s)).
        + cbn. apply declare_ok; auto. now apply (proj2 (sets_ok als)).
        + specialize (IH (sub_sep h) s H2 Hm). destruct (pps kids (sub_sep h) s) as [[x y] s1].
          cbn in *. apply declare_ok; auto. }
    destruct (pp_el h kids s). exact P.
  - intros kids IH sep s Hi Hm. rewrite pp_B. auto.
  - auto.
  - auto.
  - intros t l IHt IHl sep s Hi Hm. cbn [pps aliases_l] in *. apply incl_app_inv in Hi. destruct Hi as [H1 H2].
    specialize (IHt sep s H1 Hm). destruct (pp t sep s) as [[x sep1] s1].
    specialize (IHl sep1 s1 H2 IHt). destruct (pps l sep1 s1) as [[y sep2] s2]. exact IHl.
Qed.

(** ** Abbreviated content: nothing but declarations and direct appends *)

Definition one_delegate (als : list alias) : Prop :=
  forall a b, In a als -> In b als -> al_key a = al_key b -> al_dkey a = al_dkey b.

Lemma als_ok_spec : forall als, als_ok als = true -> one_delegate als.
Proof.
  intros als H a b Ha Hb E. unfold als_ok in H. rewrite forallb_forall in H.
  specialize (H a Ha). rewrite forallb_forall in H. specialize (H b Hb).
  rewrite E, String.eqb_refl in H. cbn in H. now apply String.eqb_eq.
Qed.

(** No element of [t] can be mistaken for the element with key [K] on top of
    the stack. *)
Definition apart (als : list alias) (K : key) (ks : list key) : Prop :=
  forall k, In k ks -> k <> K /\ (forall a, In a als -> al_key a = K -> k <> al_dkey a).

Definition skipping (r : rst) : Prop := (r_skip r || top_visited r)%bool = true.

Lemma apart_app : forall als K a b, apart als K (a ++ b)%list -> apart als K a /\ apart als K b.
Proof.
  unfold apart. intros als K a b H. split; intros k Hk; apply H, in_app_iff; auto.
Qed.

Lemma assoc_declare_some : forall k h m, is_some (assoc k m) = true -> is_some (assoc k (declare h m)) = true.
Proof.
  intros. unfold declare. destruct (as_alias h); [|assumption]. cbn.
  destruct (String.eqb k (al_dkey a)); [reflexivity|assumption].
Qed.

Lemma skip_run : forall als,
  (forall t r, skipping r -> map_ok als (r_aliased r) -> incl (aliases t) als ->
     apart als (peek (r_stack r)) (keys t) ->
     accept t r = append_out (leaks t) (set_aliased (sets t (r_aliased r)) r)
     /\ skipping (accept t r))
  /\ (forall l r, skipping r -> map_ok als (r_aliased r) -> incl (aliases_l l) als ->
     apart als (peek (r_stack r)) (keys_l l) ->
     accepts l r = append_out (leaks_l l) (set_aliased (sets_l l (r_aliased r)) r)
     /\ skipping (accepts l r)).
Proof.
  intros als. apply vt_ind'.
  - intros h kids IH r Hs Hm Hi Ha. rewrite accept_V. rewrite aliases_V in Hi.
    apply incl_app_inv in Hi. destruct Hi as [Hi1 Hi2]. rewrite keys_V in Ha.
    assert (E : enter h r = r).
    { unfold enter, pre_enter. unfold skipping in Hs. now rewrite Hs. }
    rewrite E.
    destruct (IH r Hs Hm Hi2) as [IH1 IH2].
    { intros k Hk. apply Ha. now right. }
    set (r1 := accepts kids r) in *.
    assert (L : leave h r1 = match as_alias h with
                             | Some a => set_aliased ((al_dkey a, a) :: r_aliased r1) r1
                             | None => r1 end).
    { unfold leave.
      assert (N : String.eqb (peek (r_stack r1)) (h_key (used r1 h)) = false).
      { rewrite IH1. cbn [r_stack append_out set_aliased].
        destruct (Ha (h_key h) (or_introl eq_refl)) as [Hne Hal].
        unfold used. destruct (assoc (h_key h) (r_aliased _)) as [a|] eqn:As.
        - cbn [h_key head_of]. cbn [r_aliased append_out set_aliased] in As.
          assert (M : map_ok als (sets_l kids (r_aliased r))) by now apply (proj2 (sets_ok als)).
          destruct (map_ok_assoc _ _ _ _ M As) as [Ed Ia].
          apply String.eqb_neq. intros Ek. symmetry in Ek. apply (Hal a Ia Ek). now symmetry.
        - apply String.eqb_neq. congruence. }
      now rewrite N. }
    rewrite L. rewrite leaks_V, sets_V. unfold declare.
    destruct (as_alias h) as [a|] eqn:Ea.
    + rewrite IH1. cbn [r_aliased append_out set_aliased]. split; [reflexivity|].
      unfold skipping in *. rewrite orb_true_iff in *. cbn [r_skip set_aliased append_out].
      rewrite IH1 in IH2. cbn [r_skip set_aliased append_out] in IH2.
      destruct IH2 as [S|S]; [left; exact S|right].
      unfold top_visited in *. cbn [r_alstack r_aliased append_out set_aliased] in *.
      destruct (r_alstack r); [exact S|]. cbn [assoc].
      destruct (String.eqb (al_dkey a0) (al_dkey a)); [reflexivity|exact S].
    + split; [exact IH1|exact IH2].
  - intros kids IH r Hs Hm Hi Ha. rewrite accept_B, leaks_B, sets_B. now apply IH.
  - intros s r Hs Hm Hi Ha. cbn. split; [destruct r; reflexivity|exact Hs].
  - intros r Hs Hm Hi Ha. cbn. split; [|exact Hs].
    destruct r. unfold append_out, set_aliased. cbn. f_equal. now rewrite sapp_nil_r.
  - intros t l IHt IHl r Hs Hm Hi Ha. cbn [accepts leaks_l sets_l aliases_l keys_l] in *.
    apply incl_app_inv in Hi. destruct Hi as [Hi1 Hi2].
    apply apart_app in Ha. destruct Ha as [Ha1 Ha2].
    destruct (IHt r Hs Hm Hi1 Ha1) as [E1 S1].
    destruct (IHl (accept t r) S1) as [E2 S2].
    + rewrite E1. cbn. now apply (proj1 (sets_ok als)).
    + assumption.
    + rewrite E1. exact Ha2.
    + split; [|exact S2]. rewrite E2. rewrite E1. unfold append_out, set_aliased. cbn.
      f_equal. now rewrite sapp_assoc.
Qed.

(** ** Normal content *)

Definition seen_of (r : rst) : seen := Seen (r_aliased r) (r_named r).

(** The renderer between two elements: not skipping; the delegates of the
    aliases being written are not declared yet; no separators below the
    current level. *)
Record ready (als : list alias) (anc open : list key) (r : rst) : Prop := {
  rd_skip : r_skip r = false;
  rd_stack : incl (r_stack r) anc;
  rd_open : forall a, In a (r_alstack r) -> In (al_dkey a) open;
  rd_fresh : forall k, In k open -> assoc k (r_aliased r) = None;
  rd_als : incl (r_alstack r) als;
  rd_map : map_ok als (r_aliased r);
  rd_seps : forall l, (r_level r + 1 < l)%Z -> get_sep l (r_seps r) = None
}.

(** [r'] is [r] after writing [txt]. *)
Record wrote (r r' : rst) (txt : string) (sep : option string) (s : seen) : Prop := {
  w_out : r_out r' = r_out r ++ txt;
  w_al : r_aliased r' = s_al s;
  w_nm : r_named r' = s_nm s;
  w_stack : r_stack r' = r_stack r;
  w_alstack : r_alstack r' = r_alstack r;
  w_level : r_level r' = r_level r;
  w_skip : r_skip r' = false;
  w_sep : get_sep (r_level r + 1)%Z (r_seps r') = sep;
  w_seps : forall l, l <> (r_level r + 1)%Z -> get_sep l (r_seps r') = get_sep l (r_seps r)
}.

Lemma ready_top : forall als anc open r, ready als anc open r -> top_visited r = false.
Proof.
  intros als anc open r H. unfold top_visited. destruct (r_alstack r) as [|a l] eqn:E; [reflexivity|].
  rewrite (rd_fresh _ _ _ _ H); [reflexivity|]. apply (rd_open _ _ _ _ H). rewrite E. now left.
Qed.

(** After writing something that declares no open delegate, still ready. *)
Lemma wrote_ready : forall als anc open r r' txt sep s,
  ready als anc open r -> wrote r r' txt sep s -> map_ok als (s_al s) ->
  (forall k, In k open -> assoc k (s_al s) = None) -> ready als anc open r'.
Proof.
  intros als anc open r r' txt sep s R W M F. constructor.
  - apply (w_skip _ _ _ _ _ W).
  - rewrite (w_stack _ _ _ _ _ W). apply (rd_stack _ _ _ _ R).
  - rewrite (w_alstack _ _ _ _ _ W). apply (rd_open _ _ _ _ R).
  - rewrite (w_al _ _ _ _ _ W). exact F.
  - rewrite (w_alstack _ _ _ _ _ W). apply (rd_als _ _ _ _ R).
  - rewrite (w_al _ _ _ _ _ W). exact M.
  - rewrite (w_level _ _ _ _ _ W). intros l Hl. rewrite (w_seps _ _ _ _ _ W) by lia.
    now apply (rd_seps _ _ _ _ R).
Qed.

(** The state in which the content of an entered element is visited. *)
Definition inside (h : head) (r : rst) : rst :=
  Rst (r_aliased r)
      (let m := if h_sub h then ((r_level r + 1 + 1)%Z, "") :: r_seps r else r_seps r in
       match get_sep (r_level r + 1)%Z m with
       | Some _ => ((r_level r + 1)%Z, "") :: m
       | None => m
       end)
      (r_named r)
      (h_key h :: r_stack r)
      (match as_alias h with Some a => a :: r_alstack r | None => r_alstack r end)
      (r_level r + 1)%Z
      (r_skip r)
      (r_out r ++ opt_text (get_sep (r_level r + 1)%Z (r_seps r))).

Lemma get_sep_sub : forall h l m,
  get_sep l (if h_sub h then ((l + 1)%Z, "") :: m else m) = get_sep l m.
Proof.
  intros. destruct (h_sub h); [|reflexivity]. cbn. destruct (Z.eqb_spec l (l + 1)); [lia|reflexivity].
Qed.

Lemma pre_enter_ready : forall als anc open r h,
  ready als anc open r ->
  fst (pre_enter h r) = set_stack (r_stack r) (inside h r) /\ snd (pre_enter h r) = true.
Proof.
  intros als anc open r h R. unfold pre_enter.
  rewrite (rd_skip _ _ _ _ R), (ready_top _ _ _ _ R). cbn [orb].
  pose proof (rd_skip _ _ _ _ R) as Hs.
  destruct r as [al seps nm st ast lv sk out]. cbn in Hs. subst sk.
  unfold inside, set_stack, as_alias. cbn.
  destruct (h_kind h) as [b a|n|dk tx]; destruct (h_sub h); cbn;
  repeat match goal with
  | |- context [(?a =? ?b)%Z] => destruct (Z.eqb_spec a b); [lia|]; cbn
  end;
  destruct (get_sep (lv + 1) seps); cbn; split; try reflexivity; now rewrite sapp_nil_r.
Qed.

Lemma enter_ready : forall als anc open r h,
  ready als anc open r -> enter h r = el_enter (used r h) (inside (used r h) r).
Proof.
  intros als anc open r h R. unfold enter.
  destruct (pre_enter_ready als anc open r (used r h) R) as [E1 E2].
  destruct (pre_enter (used r h) r) as [r1 go]. cbn in E1, E2. subst. reflexivity.
Qed.

(** [post_leave] undoes [inside]. *)
Lemma get_sep_inside : forall h r l,
  get_sep l (r_seps (inside h r)) =
  if Z.eqb l (r_level r + 1) then match get_sep l (r_seps r) with Some _ => Some "" | None => None end
  else if (h_sub h && Z.eqb l (r_level r + 1 + 1))%bool then Some ""
  else get_sep l (r_seps r).
Proof.
  intros h r l. unfold inside. cbn [r_seps]. rewrite get_sep_sub.
  destruct (Z.eqb_spec l (r_level r + 1)) as [->|N].
  - destruct (get_sep (r_level r + 1) (r_seps r)) eqn:G.
    + cbn. now rewrite Z.eqb_refl.
    + now rewrite get_sep_sub.
  - assert (X : get_sep l (if h_sub h then ((r_level r + 1 + 1)%Z, "") :: r_seps r else r_seps r)
                = if (h_sub h && Z.eqb l (r_level r + 1 + 1))%bool then Some "" else get_sep l (r_seps r)).
    { destruct (h_sub h); reflexivity. }
    destruct (get_sep (r_level r + 1) (r_seps r)); [cbn|exact X].
    destruct (Z.eqb_spec l (r_level r + 1)); [lia|exact X].
Qed.

(** Leaving: from a state [r2] that agrees with [inside u r] in stack, alias
    stack and level, whose separators differ from those of [inside u r] only
    one level below. *)
Definition left_stack (u : head) (outer l : list alias) : Prop :=
  (exists a, l = a :: outer /\ al_key a = h_key u)
  \/ (l = outer /\ forall a, In a outer -> al_key a <> h_key u).

Lemma post_leave_inside : forall r u r2,
  r_stack r2 = h_key u :: r_stack r ->
  left_stack u (r_alstack r) (r_alstack r2) ->
  r_level r2 = (r_level r + 1)%Z ->
  (forall l, (r_level r + 1 < l)%Z -> get_sep l (r_seps r) = None) ->
  (forall l, l <> (r_level r + 1 + 1)%Z -> get_sep l (r_seps r2) = get_sep l (r_seps (inside u r))) ->
  (h_sub u = false -> get_sep (r_level r + 1 + 1)%Z (r_seps r2) = None) ->
  let r3 := post_leave u r2 in
  r_out r3 = r_out r2 /\ r_aliased r3 = r_aliased r2 /\ r_named r3 = r_named r2
  /\ r_stack r3 = r_stack r2 /\ r_alstack r3 = r_alstack r /\ r_level r3 = r_level r
  /\ r_skip r3 = r_skip r2
  /\ get_sep (r_level r + 1)%Z (r_seps r3) = next_sep (get_sep (r_level r + 1)%Z (r_seps r))
  /\ (forall l, l <> (r_level r + 1)%Z -> get_sep l (r_seps r3) = get_sep l (r_seps r)).
Proof.
  intros r u r2 Hst Has Hlv Hz Hsep Hns. cbv zeta.
  destruct r2 as [al seps nm st ast lv sk out].
  cbn [r_stack r_alstack r_level r_seps] in Hst, Has, Hlv, Hns. change (r_seps (Rst al seps nm st ast lv sk out)) with seps in Hsep. subst st lv.
  set (L := (r_level r + 1)%Z) in *.
  assert (HL : get_sep L seps = match get_sep L (r_seps r) with Some _ => Some "" | None => None end).
  { rewrite Hsep by lia. rewrite get_sep_inside. fold L. now rewrite Z.eqb_refl. }
  assert (Ho : forall l, l <> L -> l <> (L + 1)%Z -> get_sep l seps = get_sep l (r_seps r)).
  { intros l H1 H2. rewrite Hsep by lia. rewrite get_sep_inside. fold L.
    destruct (Z.eqb_spec l L); [lia|]. destruct (Z.eqb_spec l (L + 1)); [lia|]. now rewrite andb_false_r. }
  unfold post_leave. cbn [r_level r_seps].
  rewrite HL.
  set (r1 := match match get_sep L (r_seps r) with Some _ => Some "" | None => None end with Some _ => _ | None => _ end).
  assert (E1 : r1 = Rst al (match get_sep L (r_seps r) with Some _ => (L, ", ") :: seps | None => seps end)
                        nm (h_key u :: r_stack r) ast L sk out).
  { unfold r1. destruct (get_sep L (r_seps r)); reflexivity. }
  rewrite E1. clear r1 E1. cbn [r_level].
  set (m1 := match get_sep L (r_seps r) with Some _ => _ | None => _ end).
  assert (M1 : forall l, get_sep l m1 = if Z.eqb l L then next_sep (get_sep L (r_seps r)) else get_sep l seps).
  { intros l. unfold m1. destruct (get_sep L (r_seps r)) eqn:G; cbn.
    - reflexivity.
    - destruct (Z.eqb_spec l L); [subst; exact HL|reflexivity]. }
  set (r2 := if h_sub u then _ else _).
  assert (E2 : r2 = Rst al (if h_sub u then del_sep (L + 1)%Z m1 else m1) nm (h_key u :: r_stack r) ast L sk out).
  { unfold r2. destruct (h_sub u); reflexivity. }
  rewrite E2. clear r2 E2. cbn [r_alstack].
  assert (M2 : forall l, get_sep l (if h_sub u then del_sep (L + 1)%Z m1 else m1)
     = if Z.eqb l L then next_sep (get_sep L (r_seps r)) else get_sep l (r_seps r)).
  { intros l. destruct (h_sub u) eqn:S.
    - rewrite get_sep_del, M1. destruct (Z.eqb_spec l (L + 1)).
      + destruct (Z.eqb_spec l L); [lia|]. rewrite Hz; [reflexivity|lia].
      + destruct (Z.eqb_spec l L); [reflexivity|]. now apply Ho.
    - rewrite M1. destruct (Z.eqb_spec l L); [reflexivity|].
      destruct (Z.eq_dec l (L + 1)) as [->|]; [|now apply Ho].
      rewrite Hns by reflexivity. rewrite Hz; [reflexivity|lia]. }
  set (r3 := match ast with [] => _ | a :: rest => _ end).
  assert (E3 : r3 = Rst al (if h_sub u then del_sep (L + 1)%Z m1 else m1) nm (h_key u :: r_stack r) (r_alstack r) L sk out).
  { unfold r3. destruct Has as [[a [Ha Hk]]|[Ha Hn]].
    - rewrite Ha, Hk. now rewrite String.eqb_refl.
    - rewrite Ha. destruct (r_alstack r) as [|a rest] eqn:R; [reflexivity|].
      specialize (Hn a (or_introl eq_refl)).
      destruct (String.eqb_spec (al_key a) (h_key u)); [contradiction|reflexivity]. }
  rewrite E3. cbn. repeat split; try lia.
  - rewrite M2. now rewrite Z.eqb_refl.
  - intros l Hl. rewrite M2. destruct (Z.eqb_spec l L); [lia|reflexivity].
Qed.

(** ** What well-keyedness says about an element *)

Record wk_el (als : list alias) (anc open : list key) (h : head) (kids : list vt) : Prop := {
  we_alias : forall a, In a als -> al_key a = h_key h -> exists tx, h_kind h = KAlias (al_dkey a) tx;
  we_dkey : In (h_key h) (dkeys als) -> ~ In (h_key h) anc;
  we_named : forall n, h_kind h = KNode (Some n) -> ~ In (h_key h) (keys_l kids);
  we_kalias : forall dk tx, h_kind h = KAlias dk tx ->
     h_key h <> "" /\ ~ In (h_key h) anc /\ ~ In dk (h_key h :: anc) /\ ~ In dk open
     /\ In dk (dkeys als) /\ alias_shape dk kids = true /\ h_sub h = false;
  we_kids : wk_l als (h_key h :: anc) (match h_kind h with KAlias dk _ => dk :: open | _ => open end) kids = true
}.

Lemma wk_V_inv : forall als anc open h kids, wk als anc open (V h kids) = true -> wk_el als anc open h kids.
Proof.
  intros als anc open h kids H. rewrite wk_V in H.
  repeat rewrite andb_true_iff in H. destruct H as [[[[H1 H2] H3] H4] H5].
  constructor.
  - intros a Ha E. apply negb_true_iff in H1. unfold key_clash in H1.
    destruct (h_kind h) as [b c|n|dk tx] eqn:K.
    1,2: exfalso; assert (X : existsb (fun a => String.eqb (al_key a) (h_key h) && true) als = true)
      by (apply existsb_exists; exists a; split; [exact Ha|]; rewrite E, String.eqb_refl; reflexivity); congruence.
    destruct (String.eqb_spec dk (al_dkey a)) as [->|N]; [eauto|].
    exfalso. assert (X : existsb (fun a => String.eqb (al_key a) (h_key h) && negb (String.eqb dk (al_dkey a))) als = true).
    { apply existsb_exists. exists a. split; [exact Ha|]. rewrite E, String.eqb_refl.
      apply String.eqb_neq in N. now rewrite N. }
    congruence.
  - intros Hd Ha. apply memk_In in Hd, Ha. rewrite Hd, Ha in H2. discriminate.
  - intros n K. unfold named_ok in H3. rewrite K in H3. apply negb_true_iff in H3. now apply memk_notIn.
  - intros dk tx K. rewrite K in H4. repeat rewrite andb_true_iff in H4.
    destruct H4 as [[[[[[A0 A1] A2] A3] A4] A5] A6].
    apply negb_true_iff in A1, A2, A3, A4, A6. apply memk_notIn in A2, A3, A4.
    apply String.eqb_neq in A1. apply memk_In in A0. tauto.
  - exact H5.
Qed.

Lemma wk_dkeys : forall als,
  (forall t anc open k, wk als anc open t = true -> In k anc \/ In k open -> ~ In k (dkeys (aliases t)))
  /\ (forall l anc open k, wk_l als anc open l = true -> In k anc \/ In k open -> ~ In k (dkeys (aliases_l l))).
Proof.
  intros als. apply vt_ind'.
  - intros h kids IH anc open k H Hk. apply wk_V_inv in H. rewrite aliases_V. unfold dkeys.
    rewrite map_app, in_app_iff. intros [Hi|Hi].
    + unfold own_alias, as_alias in Hi. destruct (h_kind h) eqn:K; try contradiction.
      destruct (we_kalias _ _ _ _ _ H _ _ K) as [_ [_ [A3 [A4 _]]]].
      destruct Hi as [<-|[]]. cbn in *. tauto.
    + revert Hi. eapply IH; [exact (we_kids _ _ _ _ _ H)|].
      destruct Hk; [left; now right|right]. destruct (h_kind h); auto. now right.
  - intros kids IH anc open k H Hk. rewrite wk_B in H. rewrite aliases_B. eauto.
  - intros s anc open k _ _ [].
  - intros anc open k _ _ [].
  - intros t l IHt IHl anc open k H Hk. cbn [wk_l aliases_l] in *. apply andb_true_iff in H.
    destruct H. unfold dkeys. rewrite map_app, in_app_iff. intros [Hi|Hi].
    + eapply IHt; eauto.
    + eapply IHl; eauto.
Qed.

Lemma wk_keys : forall als,
  (forall t anc open k, wk als anc open t = true -> In k anc -> In k (dkeys als) -> ~ In k (keys t))
  /\ (forall l anc open k, wk_l als anc open l = true -> In k anc -> In k (dkeys als) -> ~ In k (keys_l l)).
Proof.
  intros als. apply vt_ind'.
  - intros h kids IH anc open k H Ha Hd. apply wk_V_inv in H. rewrite keys_V. intros [E|Hi].
    + subst. now apply (we_dkey _ _ _ _ _ H).
    + revert Hi. eapply IH; [exact (we_kids _ _ _ _ _ H)|now right|exact Hd].
  - intros kids IH anc open k H Ha Hd. rewrite wk_B in H. rewrite keys_B. eauto.
  - intros s anc open k _ _ _ [].
  - intros anc open k _ _ _ [].
  - intros t l IHt IHl anc open k H Ha Hd. cbn [wk_l keys_l] in *. apply andb_true_iff in H.
    destruct H. rewrite in_app_iff. intros [Hi|Hi]; [eapply IHt|eapply IHl]; eauto.
Qed.

(** An aliased expression does not occur inside its delegate. *)
Lemma wk_alkeys : forall als,
  (forall t anc open a, wk als anc open t = true -> In a als -> In (al_dkey a) anc -> ~ In (al_key a) (keys t))
  /\ (forall l anc open a, wk_l als anc open l = true -> In a als -> In (al_dkey a) anc -> ~ In (al_key a) (keys_l l)).
Proof.
  intros als. apply vt_ind'.
  - intros h kids IH anc open a H Ha Hd. apply wk_V_inv in H. rewrite keys_V. intros [E|Hi].
    + destruct (we_alias _ _ _ _ _ H a Ha (eq_sym E)) as [tx K].
      destruct (we_kalias _ _ _ _ _ H _ _ K) as [_ [_ [A3 _]]]. apply A3. now right.
    + revert Hi. eapply IH; [exact (we_kids _ _ _ _ _ H)|exact Ha|now right].
  - intros kids IH anc open a H Ha Hd. rewrite wk_B in H. rewrite keys_B. eauto.
  - intros s anc open k _ _ _ [].
  - intros anc open k _ _ _ [].
  - intros t l IHt IHl anc open a H Ha Hd. cbn [wk_l keys_l] in *. apply andb_true_iff in H.
    destruct H. rewrite in_app_iff. intros [Hi|Hi]; [eapply IHt|eapply IHl]; eauto.
Qed.

Lemma In_dkeys : forall a als, In a als -> In (al_dkey a) (dkeys als).
Proof. intros. unfold dkeys. now apply in_map. Qed.

(** Content of a delegate [h] abbreviated by the alias [a]. *)
Lemma apart_delegate : forall als anc open l a,
  one_delegate als -> wk_l als anc open l = true -> In a als -> In (al_dkey a) anc ->
  apart als (al_key a) (keys_l l).
Proof.
  intros als anc open l a O H Ha Hd k Hk. split.
  - intros ->. exact (proj2 (wk_alkeys als) l anc open a H Ha Hd Hk).
  - intros b Hb E ->. pose proof (O b a Hb Ha E) as Eab. rewrite Eab in Hk.
    exact (proj2 (wk_keys als) l anc open _ H Hd (In_dkeys _ _ Ha) Hk).
Qed.

(** Content of a named node. *)
Lemma apart_node : forall als anc open h kids n,
  wk_el als anc open h kids -> h_kind h = KNode (Some n) -> apart als (h_key h) (keys_l kids).
Proof.
  intros als anc open h kids n W K k Hk. split.
  - intros ->. exact (we_named _ _ _ _ _ W n K Hk).
  - intros a Ha E. destruct (we_alias _ _ _ _ _ W a Ha E) as [tx K']. congruence.
Qed.

(** ** Leaving *)

Lemma el_leave_frame : forall u r,
  r_stack (el_leave u r) = r_stack r /\ r_alstack (el_leave u r) = r_alstack r
  /\ r_level (el_leave u r) = r_level r /\ r_seps (el_leave u r) = r_seps r
  /\ r_aliased (el_leave u r) = r_aliased r /\ r_named (el_leave u r) = r_named r.
Proof.
  intros u r. unfold el_leave. destruct (h_kind u) as [b a|n|dk tx]; cbn; try tauto.
  destruct (is_some (assoc dk (r_aliased r))); cbn; tauto.
Qed.

Lemma leave_inside : forall r h u r2,
  used r2 h = u ->
  r_stack r2 = h_key u :: r_stack r ->
  left_stack u (r_alstack r) (r_alstack r2) ->
  r_level r2 = (r_level r + 1)%Z ->
  (forall l, (r_level r + 1 < l)%Z -> get_sep l (r_seps r) = None) ->
  (forall l, l <> (r_level r + 1 + 1)%Z -> get_sep l (r_seps r2) = get_sep l (r_seps (inside u r))) ->
  (h_sub u = false -> get_sep (r_level r + 1 + 1)%Z (r_seps r2) = None) ->
  r_skip (el_leave u r2) = false ->
  forall txt, r_out (el_leave u r2) = r_out r ++ opt_text (get_sep (r_level r + 1)%Z (r_seps r)) ++ txt ->
  wrote r (leave h r2) (opt_text (get_sep (r_level r + 1)%Z (r_seps r)) ++ txt)
        (next_sep (get_sep (r_level r + 1)%Z (r_seps r)))
        (Seen (declare h (r_aliased r2)) (r_named r2)).
Proof.
  intros r h u r2 Hu Hst Has Hlv Hz Hsep Hns Hsk txt Htx.
  unfold leave. rewrite Hu, Hst. cbn [peek]. rewrite String.eqb_refl.
  destruct (el_leave_frame u r2) as [F1 [F2 [F3 [F4 [F5 F6]]]]].
  destruct (post_leave_inside r u (el_leave u r2)) as [P1 [P2 [P3 [P4 [P5 [P6 [P7 [P8 P9]]]]]]]].
  - now rewrite F1.
  - now rewrite F2.
  - now rewrite F3.
  - exact Hz.
  - intros l Hl. rewrite F4. now apply Hsep.
  - rewrite F4. exact Hns.
  - cbv zeta. set (rp := post_leave u (el_leave u r2)) in *. clearbody rp.
    unfold declare. destruct (as_alias h) as [a|]; constructor; cbn;
      rewrite ?P1, ?P2, ?P3, ?P4, ?P5, ?P6, ?P7, ?F1, ?F5, ?F6, ?Hst; cbn; auto.
Qed.

(** Entering, then content visited in normal mode. *)
Lemma inside_ready : forall als anc open r h nm out open',
  ready als anc open r ->
  incl (own_alias h) als ->
  (forall k, In k open' -> assoc k (r_aliased r) = None) ->
  (forall k, In k open -> In k open') ->
  (forall a, as_alias h = Some a -> In (al_dkey a) open') ->
  let ri := inside h r in
  ready als (h_key h :: anc) open'
    (Rst (r_aliased ri) (r_seps ri) nm (r_stack ri) (r_alstack ri) (r_level ri) false out)
  /\ get_sep (r_level ri + 1)%Z (r_seps ri) = sub_sep h.
Proof.
  intros als anc open r h nm out open' R Hi Hf Ho Ha. cbv zeta. split.
  - constructor; cbn [r_skip r_stack r_alstack r_aliased r_level inside].
    + reflexivity.
    + intros k [<-|Hk]; [now left|right]. now apply (rd_stack _ _ _ _ R).
    + intros a. destruct (as_alias h) as [b|] eqn:E.
      * intros [<-|Hk]; [now apply Ha|]. apply Ho. now apply (rd_open _ _ _ _ R).
      * intros Hk. apply Ho. now apply (rd_open _ _ _ _ R).
    + exact Hf.
    + unfold own_alias in Hi. destruct (as_alias h) as [b|] eqn:E.
      * intros x [<-|Hx]; [apply Hi; now left|now apply (rd_als _ _ _ _ R)].
      * apply (rd_als _ _ _ _ R).
    + apply (rd_map _ _ _ _ R).
    + intros l Hl. change (get_sep l (r_seps (inside h r)) = None). rewrite get_sep_inside.
      destruct (Z.eqb_spec l (r_level r + 1)); [lia|].
      destruct (Z.eqb_spec l (r_level r + 1 + 1)); [lia|]. rewrite andb_false_r.
      apply (rd_seps _ _ _ _ R). lia.
  - rewrite get_sep_inside. cbn [r_level inside].
    destruct (Z.eqb_spec (r_level r + 1 + 1) (r_level r + 1)); [lia|].
    rewrite Z.eqb_refl, andb_true_r. unfold sub_sep. destruct (h_sub h); [reflexivity|].
    apply (rd_seps _ _ _ _ R). lia.
Qed.

Lemma not_alias_left : forall als anc open h kids r,
  wk_el als anc open h kids -> ready als anc open r -> as_alias h = None ->
  left_stack h (r_alstack r) (match as_alias h with Some a => a :: r_alstack r | None => r_alstack r end).
Proof.
  intros als anc open h kids r W R E. rewrite E. right. split; [reflexivity|].
  intros a Ha Ek. destruct (we_alias _ _ _ _ _ W a (rd_als _ _ _ _ R a Ha) Ek) as [tx K].
  unfold as_alias in E. rewrite K in E. discriminate.
Qed.
