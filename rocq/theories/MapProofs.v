(** Proofs about maps and map projections (Maps.v, SpecMap.v). *)

From Coq Require Import Ascii String List ZArith Bool Lia.
From Verif Require Import GoStr Escape Num VTree Ast GoVal Maps SpecMap.
Import ListNotations.
Open Scope string_scope.

Lemma known_spec : forall k l, known k l = true <-> In k l.
Proof.
  intros k l. unfold known. rewrite existsb_exists. split.
  - intros [x [H E]]. apply String.eqb_eq in E. now subst.
  - intros H. exists k. split; [assumption|apply String.eqb_refl].
Qed.

Lemma known_false : forall k l, known k l = false <-> ~ In k l.
Proof. intros k l. rewrite <- known_spec. destruct (known k l); split; congruence. Qed.

(** ** Lists of values *)

Lemma first_error_None : forall l, first_error l = None ->
  Forall2 (fun g e => g = GOk e) l (sound_exprs l).
Proof.
  induction l as [|[e|t m] l IH]; intros H; cbn in H; [constructor| |discriminate].
  cbn. constructor; [reflexivity|]. now apply IH.
Qed.

Lemma first_error_ok : forall l es, Forall2 (fun g e => g = GOk e) l es ->
  first_error l = None /\ sound_exprs l = es.
Proof.
  induction 1 as [|g e l es -> H [IH1 IH2]]; [split; reflexivity|].
  cbn. split; [assumption|]. now f_equal.
Qed.

(** ** Maps *)

(** The value an argument becomes: an expression, an error, or no return. *)
Definition arg_value (K : keys) (i : nat) (v : any) : outcome gval :=
  match v with AExpr g => Returns g | _ => literal_of (k_null K) (k_lit K i) v end.

Lemma arg_value_cases : forall K i v,
  (exists e, arg_value K i v = Returns (GOk e) /\ stands_for v e)
  \/ (exists t m, arg_value K i v = Returns (GErr t m) /\ carries v m)
  \/ (arg_value K i v = Diverges /\ unsupported v).
Proof.
  intros K i v. destruct v; cbn.
  - left. eexists. split; [reflexivity|constructor].
  - left. eexists. split; [reflexivity|constructor].
  - left. eexists. split; [reflexivity|constructor].
  - left. eexists. split; [reflexivity|constructor].
  - left. eexists. split; [reflexivity|constructor].
  - unfold list_literal_create. destruct (first_error l) as [m|] eqn:H.
    + right. left. exists TOther, m. split; reflexivity.
    + left. eexists. split; [reflexivity|]. constructor. now apply first_error_None.
  - destruct g as [e|t m].
    + left. eexists. split; [reflexivity|constructor].
    + right. left. exists t, m. split; reflexivity.
  - right. right. split; [reflexivity|exact I].
  - right. right. split; [reflexivity|exact I].
Qed.

Lemma stands_not_carries : forall v e m, stands_for v e -> carries v m -> False.
Proof.
  intros v e m H C. inversion H; subst; cbn in C; try contradiction.
  apply first_error_ok in H0. destruct H0. congruence.
Qed.

Lemma stands_not_unsupported : forall v e, stands_for v e -> unsupported v -> False.
Proof. intros v e H C. inversion H; subst; exact C. Qed.

Lemma carries_not_unsupported : forall v m, carries v m -> unsupported v -> False.
Proof. intros v m H C. destruct v; cbn in *; contradiction. Qed.

Lemma map_loop_step : forall K i seen key v rest,
  map_loop K i seen (AString key :: v :: rest)
  = match arg_value K i v with
    | Returns g =>
        if known key seen then Returns (inl "duplicate key")
        else match map_loop K (S i) (key :: seen) rest with
             | Returns (inr l) => Returns (inr (entry_create (k_entry K i) key g :: l))
             | r => r
             end
    | Panics => Panics
    | Diverges => Diverges
    end.
Proof. reflexivity. Qed.

(** What the values of a list of pairs are. *)
Inductive usable : any -> Prop :=
| U_ok v e : stands_for v e -> usable v
| U_err v m : carries v m -> usable v.

(** The entry a pair becomes. *)
Definition entry_val (p : string * any) (g : gval) : Prop :=
  match g with GOk e => entry_for p e | GErr _ m => carries (snd p) m end.

Lemma map_loop_pairs : forall ps objs K i seen, pairs_of objs = Some ps ->
  match map_loop K i seen objs with
  | Returns (inr l) => Forall2 entry_val ps l /\ NoDup (map fst ps) /\ (forall p, In p ps -> ~ In (fst p) seen)
  | Returns (inl _) => ~ (NoDup (map fst ps) /\ (forall p, In p ps -> ~ In (fst p) seen))
  | Diverges => exists p, In p ps /\ unsupported (snd p)
  | Panics => False
  end.
Proof.
  induction ps as [|[key v] ps IH]; intros objs K i seen H.
  - destruct objs as [|[] [|]]; cbn in H; try discriminate.
    + cbn. split; [constructor|]. split; [constructor|]. intros p [].
    + destruct (pairs_of l); discriminate.
  - destruct objs as [|o [|v' rest]]; cbn in H; try discriminate; [destruct o; discriminate|].
    destruct o; try discriminate. destruct (pairs_of rest) as [ps'|] eqn:R; [|discriminate].
    cbn in H. inversion H; subst; clear H. rewrite map_loop_step.
    specialize (IH rest K (S i) (key :: seen) R).
    assert (A : forall g, arg_value K i v = Returns g ->
                entry_val (key, v) (entry_create (k_entry K i) key g)).
    { intros g Hg. destruct (arg_value_cases K i v) as [[e [E S]]|[[t [m [E S]]]|[E S]]]; rewrite Hg in E;
        inversion E; subst; cbn.
      - exists (k_entry K i), e. split; [reflexivity|assumption].
      - assumption. }
    destruct (arg_value_cases K i v) as [[e [E S]]|[[t [m [E S]]]|[E S]]]; rewrite E in *.
    + destruct (known key seen) eqn:Kn.
      * apply known_spec in Kn. intros [_ N]. apply (N (key, v)); [now left|assumption].
      * apply known_false in Kn. destruct (map_loop K (Datatypes.S i) (key :: seen) rest) as [[m|l]| |].
        -- intros [N1 N2]. apply IH. inversion N1 as [|x l' Hn N1']; subst. split; [assumption|].
           intros p Hp [Eq|Hs]; [|now apply (N2 p); [right|]]. apply Hn. rewrite Eq. now apply in_map.
        -- destruct IH as [I1 [I2 I3]]. split; [constructor; [now apply A|assumption]|]. split.
           ++ cbn. constructor; [|assumption]. intros Hin. apply in_map_iff in Hin.
              destruct Hin as [p [Ep Hp]]. apply (I3 p Hp). left. now symmetry.
           ++ intros p [<-|Hp]; [assumption|]. intros Hs. apply (I3 p Hp). now right.
        -- exact IH.
        -- destruct IH as [p [Hp Hu]]. exists p. split; [now right|assumption].
    + destruct (known key seen) eqn:Kn.
      * apply known_spec in Kn. intros [_ N]. apply (N (key, v)); [now left|assumption].
      * apply known_false in Kn. destruct (map_loop K (Datatypes.S i) (key :: seen) rest) as [[m'|l]| |].
        -- intros [N1 N2]. apply IH. inversion N1 as [|x l' Hn N1']; subst. split; [assumption|].
           intros p Hp [Eq|Hs]; [|now apply (N2 p); [right|]]. apply Hn. rewrite Eq. now apply in_map.
        -- destruct IH as [I1 [I2 I3]]. split; [constructor; [now apply A|assumption]|]. split.
           ++ cbn. constructor; [|assumption]. intros Hin. apply in_map_iff in Hin.
              destruct Hin as [p [Ep Hp]]. apply (I3 p Hp). left. now symmetry.
           ++ intros p [<-|Hp]; [assumption|]. intros Hs. apply (I3 p Hp). now right.
        -- exact IH.
        -- destruct IH as [p [Hp Hu]]. exists p. split; [now right|assumption].
    + exists (key, v). split; [now left|assumption].
Qed.

Lemma pairs_even : forall objs ps, pairs_of objs = Some ps -> Nat.odd (length objs) = false.
Proof.
  fix IH 1. intros [|o [|v rest]] ps H; [reflexivity|destruct o; discriminate|].
  cbn in H. destruct o; try discriminate. destruct (pairs_of rest) as [ps'|] eqn:R; [|discriminate].
  cbn [length]. rewrite Nat.odd_succ, Nat.even_succ. now apply IH with ps'.
Qed.

Lemma pairs_unsupported : forall objs ps p, pairs_of objs = Some ps -> In p ps -> unsupported (snd p) ->
  Exists unsupported objs.
Proof.
  fix IH 1. intros [|o [|v rest]] ps p P Hp Hu; cbn in P.
  - inversion P; subst. destruct Hp.
  - destruct o; discriminate.
  - destruct o; try discriminate. destruct (pairs_of rest) as [ps'|] eqn:R; [|discriminate].
    cbn in P. inversion P; subst. destruct Hp as [<-|Hp]; right; [now left|right].
    exact (IH rest ps' p R Hp Hu).
Qed.

(** Not a list of pairs: an error, unless an unsupported value comes first. *)
Lemma map_loop_no_pairs : forall objs K i seen, pairs_of objs = None -> Nat.odd (length objs) = false ->
  (exists m, map_loop K i seen objs = Returns (inl m))
  \/ (map_loop K i seen objs = Diverges /\ Exists unsupported objs).
Proof.
  fix IH 1. intros [|o [|v rest]] K i seen H Ev; [discriminate|discriminate|].
  cbn [length] in Ev. rewrite Nat.odd_succ, Nat.even_succ in Ev.
  destruct o; try (left; eexists; reflexivity). cbn in H.
  destruct (pairs_of rest) as [ps'|] eqn:R; [discriminate|].
  rewrite map_loop_step. destruct (arg_value_cases K i v) as [[e [E S]]|[[t [m [E S]]]|[E S]]]; rewrite E.
  - destruct (known s seen); [left; eexists; reflexivity|].
    destruct (IH rest K (Datatypes.S i) (s :: seen) R Ev) as [[m ->]|[-> U]]; [left; eexists; reflexivity|].
    right. split; [reflexivity|]. right. now right.
  - destruct (known s seen); [left; eexists; reflexivity|].
    destruct (IH rest K (Datatypes.S i) (s :: seen) R Ev) as [[m' ->]|[-> U]]; [left; eexists; reflexivity|].
    right. split; [reflexivity|]. right. now right.
  - right. split; [reflexivity|]. right. now left.
Qed.

Lemma entry_vals_ok : forall ps l, Forall2 entry_val ps l -> first_error l = None ->
  Forall2 entry_for ps (sound_exprs l).
Proof.
  induction 1 as [|p g ps l H HF IH]; intros F; [constructor|].
  destruct g as [e|t m]; cbn in F; [|discriminate]. cbn. constructor; [exact H|now apply IH].
Qed.

Lemma stands_ok : forall ps l, Forall2 entry_val ps l ->
  Forall (fun p => exists e, stands_for (snd p) e) ps -> first_error l = None.
Proof.
  induction 1 as [|p g ps l H HF IH]; intros F; [reflexivity|].
  inversion F as [|? ? [e S] F']; subst. destruct g as [e'|t m].
  - cbn. now apply IH.
  - cbn in H. exfalso. now apply stands_not_carries with (snd p) e m.
Qed.

(** ** Projections *)

Lemma push_entries : forall x r es, push x r = Entries es ->
  exists e es', x = MEntry e /\ r = Entries es' /\ es = e :: es'.
Proof. intros [e| |m] [l| |m'] es H; cbn in H; try discriminate. inversion H. eauto. Qed.

(** An expression without a key. *)
Lemma make_implicit : forall k kl seen g e,
  go_typed (AExpr g) -> (forall m, AExpr g <> AExpr (GErr TProperty m)) -> make_entry k kl seen "" g = MEntry e ->
  exists x i, g = GOk x /\ implicit x i /\ written_as i e.
Proof.
  intros k kl seen g e T B H. destruct g as [x|t m].
  - exists x. destruct x; cbn in H; try discriminate; inversion H; subst;
      try (eexists; split; [reflexivity|]; split; constructor).
    cbn in T. destruct T as [k1 [n ->]]. eexists. split; [reflexivity|]. split; constructor.
  - exfalso. destruct t; cbn in H; try discriminate.
    + now apply (B m).
    + exact T.
Qed.

Lemma make_implicit_conv : forall k kl seen x i, implicit x i ->
  exists e, make_entry k kl seen "" (GOk x) = MEntry e /\ written_as i e.
Proof. intros k kl seen x i H. inversion H; subst; cbn; eexists; (split; [reflexivity|constructor]). Qed.

(** An expression with a key. *)
Lemma make_keyed : forall k kl seen s g e, s <> "" -> go_typed (AExpr g) -> make_entry k kl seen s g = MEntry e ->
  ~ In s seen /\ exists x y, g = GOk x /\ value_of x y /\ written_as (IKeyed s y) e.
Proof.
  intros k kl seen s g e Hs T H. unfold make_entry in H.
  destruct (String.eqb_spec s ""); [contradiction|].
  destruct (known s seen) eqn:Kn; [discriminate|]. apply known_false in Kn. split; [assumption|].
  destruct g as [x|t m].
  - exists x. unfold star_lookup, type_of in H. destruct (gtype_of x) eqn:G; inversion H; subst;
      try (exists x; split; [reflexivity|]; split; [constructor; congruence|constructor]).
    destruct x; try discriminate. eexists. split; [reflexivity|]. split; constructor.
  - destruct t; cbn in H; try discriminate. now cbn in T.
Qed.

Lemma make_keyed_conv : forall k kl seen s x y, s <> "" -> ~ In s seen -> value_of x y ->
  exists e, make_entry k kl seen s (GOk x) = MEntry e /\
            (written_as (IKeyed s y) e \/ exists k', y = ELookup k' "*" /\ written_as (IKeyed s (ELookup kl "*")) e).
Proof.
  intros k kl seen s x y Hs Hn V. unfold make_entry.
  destruct (String.eqb_spec s ""); [contradiction|]. apply known_false in Hn. rewrite Hn.
  inversion V; subst.
  - eexists. split; [reflexivity|]. right. eexists. split; [reflexivity|constructor].
  - unfold star_lookup, type_of. destruct (gtype_of y) eqn:G; try congruence;
      (eexists; split; [reflexivity|left; constructor]).
Qed.

Definition is_expr (v : any) : bool :=
  match v with AExpr _ | ANamed (Some _) => true | _ => false end.

Lemma content_expr : forall v g, content_at v = CExpr g ->
  is_expr v = true /\ (forall x, g = GOk x -> expression v x)
  /\ (go_typed v -> go_typed (AExpr g)) /\ ((forall m, v <> AExpr (GErr TProperty m)) -> forall m, AExpr g <> AExpr (GErr TProperty m)).
Proof.
  intros v g H. destruct v; try discriminate.
  - cbn in H. inversion H; subst. split; [reflexivity|]. split; [|split; trivial]. intros x ->. constructor.
  - cbn in H. destruct name as [[k n]|]; inversion H; subst. split; [reflexivity|].
    split; [|split; [intros; exact I|congruence]].
    intros x E. inversion E. constructor.
Qed.

Lemma content_not_expr : forall v, (forall g, content_at v <> CExpr g) -> is_expr v = false.
Proof.
  intros v H. destruct v as [| | | | | | g | [[k n]|] |]; try reflexivity; exfalso.
  - now apply (H g).
  - now apply (H (GOk (ESym k n))).
Qed.

Lemma expression_content : forall v e, expression v e -> content_at v = CExpr (GOk e).
Proof. intros v e H. inversion H; reflexivity. Qed.

Lemma explicit_keyed : forall s v rest, is_expr v = true ->
  explicit_keys (AString s :: v :: rest) = s :: explicit_keys rest.
Proof. intros s v rest H. destruct v as [| | | | | | g | [n|] |]; try discriminate; reflexivity. Qed.

Lemma explicit_alone : forall s rest, (forall v rest', rest = v :: rest' -> is_expr v = false) ->
  explicit_keys (AString s :: rest) = explicit_keys rest.
Proof.
  intros s rest H. destruct rest as [|v rest']; [reflexivity|]. specialize (H v rest' eq_refl).
  destruct v as [| | | | | | g | [n|] |]; try discriminate; reflexivity.
Qed.

Lemma explicit_other : forall v rest, is_expr v = true -> explicit_keys (v :: rest) = explicit_keys rest.
Proof. intros v rest H. destruct v as [| | | | | | g | [n|] |]; try discriminate; reflexivity. Qed.

Lemma not_expr_guard : forall v, is_expr v = false <-> (forall g, v <> AExpr g /\ forall n, v <> ANamed (Some n)).
Proof.
  intros v. split.
  - intros H g. split; [|intros n]; intros ->; discriminate.
  - intros H. destruct v as [| | | | | | g | [n|] |]; try reflexivity.
    + destruct (H g). congruence.
    + destruct (H (GErr TOther "")) as [_ H']. now destruct (H' n).
Qed.

Definition admissible (v : any) : Prop :=
  go_typed v /\ v <> AString "" /\ forall m, v <> AExpr (GErr TProperty m).

Lemma new_content_items : forall N content K i seen es, (length content <= N)%nat ->
  Forall admissible content -> new_content K i seen content = Entries es ->
  exists l, items content l /\ Forall2 written_as l es
         /\ NoDup (explicit_keys content) /\ (forall k, In k (explicit_keys content) -> ~ In k seen).
Proof.
  induction N as [|N IH]; intros content K i seen es L A H.
  { destruct content; [|cbn in L; lia]. cbn in H. inversion H; subst.
    exists []. split; [constructor|]. split; [constructor|]. split; [constructor|]. intros k []. }
  destruct content as [|v rest].
  { cbn in H. inversion H; subst.
    exists []. split; [constructor|]. split; [constructor|]. split; [constructor|]. intros k []. }
  cbn in L. inversion A as [|? ? [T [Nv B]] A']; subst. cbn [new_content] in H.
  assert (Alone : forall s, v = AString s -> (forall v' rest', rest = v' :: rest' -> is_expr v' = false) ->
          push (make_entry (k_entry K i) (k_lit K i) seen "" (GOk (ELookup (k_lit K i) s))) (new_content K (S i) seen rest) = Entries es ->
          exists l, items (v :: rest) l /\ Forall2 written_as l es
                 /\ NoDup (explicit_keys (v :: rest)) /\ (forall k, In k (explicit_keys (v :: rest)) -> ~ In k seen)).
  { intros s -> G Hp. apply push_entries in Hp. destruct Hp as [e [es' [E1 [E2 ->]]]]. cbn in E1. inversion E1; subst.
    apply IH in E2; [|lia|assumption]. destruct E2 as [l [I1 [I2 [I3 I4]]]].
    exists (IProperty s :: l). rewrite explicit_alone by assumption.
    split; [|split; [constructor; [constructor|assumption]|split; assumption]].
    apply Is_property; [|assumption]. intros v' rest' g E. apply not_expr_guard. eapply G; eassumption. }
  destruct (content_at v) as [s|g|] eqn:C; [| |discriminate].
  - assert (v = AString s) by (destruct v as [| | | | | | | [[]|] |]; try discriminate; cbn in C; congruence). subst v.
    destruct rest as [|v' rest']; [apply (Alone s); [reflexivity|discriminate|exact H]|].
    destruct (content_at v') as [s'|g|] eqn:C'.
    + apply (Alone s); [reflexivity| |exact H]. intros v'' rest'' E. inversion E; subst.
      apply content_not_expr. congruence.
    + apply push_entries in H. destruct H as [e [es' [E1 [E2 ->]]]].
      destruct (content_expr v' g C') as [X1 [X2 [X3 X4]]].
      inversion A' as [|? ? [T' [_ B']] A'']; subst.
      assert (Hs : s <> "") by congruence.
      apply make_keyed in E1; [|assumption|now apply X3]. destruct E1 as [Hn [x [y [-> [V W]]]]].
      destruct (String.eqb_spec s ""); [contradiction|].
      apply IH in E2; [|cbn in L; lia|assumption]. destruct E2 as [l [I1 [I2 [I3 I4]]]].
      exists (IKeyed s y :: l). rewrite explicit_keyed by assumption.
      split; [econstructor; try eassumption; now apply X2|]. split; [constructor; assumption|]. split.
      * constructor; [|assumption]. intros Hin. apply (I4 s Hin). now left.
      * intros k [<-|Hk]; [assumption|]. intros Hin. apply (I4 k Hk). now right.
    + apply (Alone s); [reflexivity| |exact H]. intros v'' rest'' E. inversion E; subst.
      apply content_not_expr. congruence.
  - apply push_entries in H. destruct H as [e [es' [E1 [E2 ->]]]].
    destruct (content_expr v g C) as [X1 [X2 [X3 X4]]].
    apply make_implicit in E1; [|now apply X3|now apply X4]. destruct E1 as [x [it [-> [Im W]]]].
    apply IH in E2; [|lia|assumption]. destruct E2 as [l [I1 [I2 [I3 I4]]]].
    exists (it :: l). rewrite explicit_other by assumption.
    split; [econstructor; try eassumption; now apply X2|]. split; [constructor; assumption|]. split; assumption.
Qed.

Lemma items_new_content : forall content l, items content l -> forall K i seen,
  NoDup (explicit_keys content) -> (forall k, In k (explicit_keys content) -> ~ In k seen) ->
  exists es l', new_content K i seen content = Entries es /\ Forall2 same_item l l' /\ Forall2 written_as l' es.
Proof.
  induction 1 as [|s v e x rest l Hs X V _ IH|s rest l G _ IH|v e it rest l X Im _ IH]; intros K i seen ND D.
  - exists [], []. split; [reflexivity|]. split; constructor.
  - assert (Ev : is_expr v = true) by (inversion X; reflexivity).
    rewrite explicit_keyed in ND, D by assumption.
    inversion ND as [|? ? Nin ND']; subst.
    assert (Hseen : ~ In s seen) by (apply D; now left).
    destruct (make_keyed_conv (k_entry K i) (k_lit K i) seen s e x Hs Hseen V) as [e' [M W]].
    destruct (IH K (S i) (s :: seen)) as [es [l' [E [SI F]]]]; [assumption| |].
    { intros k Hk [->|Hin]; [contradiction|]. apply (D k); [now right|assumption]. }
    destruct W as [W|[k' [-> W]]].
    + exists (e' :: es), (IKeyed s x :: l'). split; [|split; constructor; try assumption; constructor].
      cbn [new_content content_at]. rewrite (expression_content v e X), M.
      destruct (String.eqb_spec s ""); [contradiction|]. rewrite E. reflexivity.
    + exists (e' :: es), (IKeyed s (ELookup (k_lit K i) "*") :: l').
      split; [|split; constructor; try assumption; constructor].
      cbn [new_content content_at]. rewrite (expression_content v e X), M.
      destruct (String.eqb_spec s ""); [contradiction|]. rewrite E. reflexivity.
  - assert (Ga : forall v rest', rest = v :: rest' -> is_expr v = false).
    { intros v rest' E. apply not_expr_guard. intros g. now apply (G v rest' g). }
    rewrite explicit_alone in ND, D by assumption.
    destruct (IH K (S i) seen ND D) as [es [l' [E [SI F]]]].
    exists (ELookup (k_lit K i) s :: es), (IProperty s :: l').
    split; [|split; constructor; try assumption; constructor].
    cbn [new_content content_at]. destruct rest as [|v rest']; [cbn in E |- *; inversion E; reflexivity|].
    specialize (Ga v rest' eq_refl).
    assert (C : forall g, content_at v <> CExpr g)
      by (intros g Hc; apply content_expr in Hc; destruct Hc; congruence).
    destruct (content_at v) eqn:Cv; [|now destruct (C g)|]; rewrite E; reflexivity.
  - assert (Ev : is_expr v = true) by (inversion X; reflexivity).
    rewrite explicit_other in ND, D by assumption.
    destruct (IH K (S i) seen ND D) as [es [l' [E [SI F]]]].
    destruct (make_implicit_conv (k_entry K i) (k_lit K i) seen e it Im) as [e' [M W]].
    exists (e' :: es), (it :: l'). split; [|split; constructor; try assumption; constructor].
    cbn [new_content]. rewrite (expression_content v e X), M, E. reflexivity.
Qed.
