(** Proofs about conditions in memory. *)

From Coq Require Import String List Bool Arith Lia.
From Verif Require Import VTree Ast Cond Slices HeapCond.
Import ListNotations.
Open Scope list_scope.

(** ** Slices *)

Lemma update_length : forall B (l : list B) i b, length (update l i b) = length l.
Proof. induction l; intros [|i] b; cbn; auto. Qed.

Lemma nth_update : forall B (l : list B) i j b d, nth j (update l i b) d = if (Nat.eqb i j && Nat.ltb i (length l))%bool then b else nth j l d.
Proof.
  induction l as [|x l IH]; intros i j b d; cbn.
  - rewrite andb_false_r. destruct j; reflexivity.
  - destruct i, j; cbn; try reflexivity. rewrite IH. reflexivity.
Qed.

(** The used part of every array. *)
Definition tip (T : list nat) (a : nat) : nat := nth a T 0.

Definition okslice (T : list nat) (s : slice) : Prop :=
  match s with NoCells => True | Prefix a n => 0 < n /\ a < length T /\ n <= tip T a end.

(** The slice ends where the used part of its array ends. *)
Definition attip (T : list nat) (s : slice) : Prop :=
  match s with NoCells => True | Prefix a n => n = tip T a end.

Fixpoint okc (T : list nat) (c : hcond) : Prop :=
  match c with
  | HComp _ _ s sn => okslice T s /\ okslice T sn
  | HErr _ s => okslice T s
  | HNeg _ _ c => okc T c
  | _ => True
  end.

Definition okheap (h : memory) (T : list nat) : Prop :=
  length h = length T /\ forall a, a < length T -> tip T a <= length (cells h a) /\ Forall (okc T) (firstn (tip T a) (cells h a)).

Definition ext (h : memory) (T : list nat) (h' : memory) (T' : list nat) : Prop :=
  length T <= length T'
  /\ forall a, a < length T -> tip T a <= tip T' a /\ firstn (tip T a) (cells h' a) = firstn (tip T a) (cells h a).

Lemma ext_refl : forall h T, ext h T h T.
Proof. intros. split; [lia|]. intros a _. split; [lia|reflexivity]. Qed.

Lemma firstn_le : forall A n m (l l' : list A), n <= m -> firstn m l = firstn m l' -> firstn n l = firstn n l'.
Proof.
  intros A n m l l' H E.
  replace n with (Nat.min n m) by lia. rewrite <- !firstn_firstn. now rewrite E.
Qed.

Lemma ext_trans : forall h T h1 T1 h2 T2, ext h T h1 T1 -> ext h1 T1 h2 T2 -> ext h T h2 T2.
Proof.
  intros h T h1 T1 h2 T2 [L1 H1] [L2 H2]. split; [lia|]. intros a Ha.
  destruct (H1 a Ha) as [A1 B1]. destruct (H2 a ltac:(lia)) as [A2 B2]. split; [lia|].
  rewrite <- B1. now apply firstn_le with (tip T1 a).
Qed.

Lemma okslice_mono : forall h T h' T' s, ext h T h' T' -> okslice T s -> okslice T' s.
Proof.
  intros h T h' T' s [L H] O. destruct s as [|a n]; [exact O|]. cbn in *. destruct O as (O1 & O2 & O3).
  destruct (H a O2). lia.
Qed.

Lemma okc_mono : forall h T h' T' c, ext h T h' T' -> okc T c -> okc T' c.
Proof.
  intros h T h' T' c E. induction c; cbn; auto.
  - intros [A B]. split; eapply okslice_mono; eauto.
  - intros A. eapply okslice_mono; eauto.
Qed.

Lemma read_mono : forall h T h' T' s, ext h T h' T' -> okslice T s -> read h' s = read h s.
Proof.
  intros h T h' T' s [L H] O. destruct s as [|a n]; [reflexivity|]. cbn in *. destruct O as (O1 & O2 & O3).
  destruct (H a O2) as [_ E]. now apply firstn_le with (tip T a).
Qed.

Lemma read_ok : forall h T s, okheap h T -> okslice T s -> Forall (okc T) (read h s).
Proof.
  intros h T s [L H] O. destruct s as [|a n]; [constructor|]. cbn in *. destruct O as (O1 & O2 & O3).
  destruct (H a O2) as [_ F]. replace n with (Nat.min n (tip T a)) by lia. rewrite <- firstn_firstn.
  remember (firstn (tip T a) (cells h a)) as l. clear - F. revert n. induction F; intros [|n]; cbn; constructor; auto.
Qed.

Scheme denotes_mut := Induction for denotes Sort Prop
with denote_all_mut := Induction for denote_all Sort Prop.

Lemma denotes_mono : forall h T h' T', okheap h T -> ext h T h' T' ->
  forall c C, denotes h c C -> okc T c -> denotes h' c C.
Proof.
  intros h T h' T' Oh E c C D. revert c C D.
  apply (denotes_mut h (fun c C _ => okc T c -> denotes h' c C) (fun l L _ => Forall (okc T) l -> denote_all h' l L)).
  - constructor.
  - constructor.
  - intros k kn c C D IH O. constructor. now apply IH.
  - constructor.
  - constructor.
  - intros k o s sn cs n Ln D1 IH1 D2 IH2 [O1 O2]. constructor; [assumption| |].
    + rewrite (read_mono h T h' T' s E O1). apply IH1. now apply read_ok.
    + rewrite (read_mono h T h' T' sn E O2). apply IH2. now apply read_ok.
  - intros e s cs D IH O. constructor. rewrite (read_mono h T h' T' s E O). apply IH. now apply read_ok.
  - constructor.
  - intros c C l L D IH D' IH' F. inversion F; subst. constructor; auto.
Qed.

Lemma denote_all_mono : forall h T h' T', okheap h T -> ext h T h' T' ->
  forall l L, denote_all h l L -> Forall (okc T) l -> denote_all h' l L.
Proof.
  intros h T h' T' Oh E l L D. induction D; intros F; [constructor|]. inversion F; subst. constructor; [|auto].
  eapply denotes_mono; eauto.
Qed.

Lemma denote_all_app : forall h l L l' L', denote_all h l L -> denote_all h l' L' -> denote_all h (l ++ l') (L ++ L').
Proof. intros h l L l' L' D D'. induction D; cbn; [assumption|]. now constructor. Qed.

Lemma denote_all_length : forall h l L, denote_all h l L -> length l = length L.
Proof. intros h l L D. induction D; cbn; auto. Qed.

Lemma denote_all_one : forall h c C, denotes h c C -> denote_all h [c] [C].
Proof. intros. constructor; [assumption|constructor]. Qed.

(** Arrays other than that of [s] are used as before; [s'] is a slice of the
    array of [s] or of a new one. *)
Definition frame (s : slice) (T T' : list nat) (s' : slice) : Prop :=
  (forall b, b < length T -> (forall n, s <> Prefix b n) -> tip T' b = tip T b)
  /\ match s' with NoCells => True | Prefix a _ => length T <= a \/ exists n, s = Prefix a n end.

Section Push.
Context (grow : nat -> nat -> nat).

Lemma cells_app : forall (h : memory) x a, a < length h -> cells (h ++ [x]) a = cells h a.
Proof. intros. unfold cells. now rewrite app_nth1. Qed.
Lemma cells_new : forall (h : memory) x, cells (h ++ [x]) (length h) = x.
Proof. intros. unfold cells. rewrite app_nth2, Nat.sub_diag; [reflexivity|lia]. Qed.
Lemma tip_app : forall T x a, a < length T -> tip (T ++ [x]) a = tip T a.
Proof. intros. unfold tip. now rewrite app_nth1. Qed.
Lemma tip_new : forall T x, tip (T ++ [x]) (length T) = x.
Proof. intros. unfold tip. rewrite app_nth2, Nat.sub_diag; [reflexivity|lia]. Qed.

Lemma new_array : forall h T xs rest, okheap h T -> xs <> [] -> Forall (okc T) xs ->
  let h' := h ++ [xs ++ rest] in let T' := T ++ [length xs] in let s' := Prefix (length h) (length xs) in
  okheap h' T' /\ ext h T h' T' /\ okslice T' s' /\ attip T' s' /\ read h' s' = xs.
Proof.
  intros h T xs rest [L H] N F h' T' s'.
  assert (X : ext h T h' T').
  { split; [unfold T'; rewrite app_length; lia|]. intros a Ha. unfold T', h'. rewrite tip_app, cells_app by lia. split; [lia|reflexivity]. }
  assert (R : read h' s' = xs).
  { unfold s', h'. cbn [read]. rewrite cells_new. rewrite firstn_app, Nat.sub_diag, firstn_all. cbn. now rewrite app_nil_r. }
  split; [|split; [exact X|split; [|split; [|exact R]]]].
  - split; [unfold h', T'; rewrite !app_length; cbn; lia|]. intros a Ha. unfold T' in Ha. rewrite app_length in Ha. cbn in Ha.
    destruct (Nat.eq_dec a (length T)) as [->|Na].
    + unfold T', h'. rewrite tip_new, <- L, cells_new. split; [rewrite app_length; lia|].
      rewrite firstn_app, Nat.sub_diag, firstn_all. cbn. rewrite app_nil_r. eapply Forall_impl; [|exact F]. intros c. now apply okc_mono with h h'.
    + destruct (H a ltac:(lia)) as [H1 H2]. unfold T', h' in *. rewrite tip_app, cells_app by lia. split; [assumption|].
      eapply Forall_impl; [|exact H2]. intros c. now apply okc_mono with h (h ++ [xs ++ rest]).
  - cbn. unfold T'. rewrite app_length, L, tip_new. cbn. destruct xs; [contradiction|]. cbn. lia.
  - cbn. unfold T'. now rewrite L, tip_new.
Qed.

Lemma push_spec : forall h T s xs h' s', okheap h T -> okslice T s -> attip T s -> Forall (okc T) xs ->
  push grow h s xs = (h', s') ->
  exists T', okheap h' T' /\ ext h T h' T' /\ okslice T' s' /\ attip T' s' /\ read h' s' = read h s ++ xs /\ frame s T T' s'.
Proof.
  intros h T s xs h' s' Oh Os At Fx P. unfold push, append in P. destruct xs as [|x xs].
  - inversion P; subst. exists T. rewrite app_nil_r. split; [exact Oh|]. split; [apply ext_refl|]. split; [exact Os|]. split; [exact At|].
    split; [reflexivity|]. split; [reflexivity|]. destruct s'; [exact Logic.I|]. right. eauto.
  - remember (x :: xs) as ys eqn:Ey. assert (Ny : ys <> []) by (subst; discriminate).
    destruct s as [|a n].
    + inversion P; subst h' s'. clear P.
      destruct (new_array h T ys (repeat HNil (grow 0 (slice_len NoCells + length ys) - (slice_len NoCells + length ys))) Oh Ny Fx) as (A & B & C & D & E).
      exists (T ++ [length ys]). cbn [slice_len Nat.add] in *. split; [exact A|]. split; [exact B|]. split; [exact C|]. split; [exact D|]. split; [exact E|].
      split; [|left; destruct Oh; lia]. intros b Hb _. now apply tip_app.
    + cbn in Os. destruct Os as (O1 & O2 & O3). cbn in At. destruct Oh as [L H].
      destruct (H a O2) as [Hc Hf]. cbn [slice_len] in P.
      assert (Lr : length (read h (Prefix a n)) = n) by (cbn; rewrite firstn_length; lia).
      destruct (Nat.leb (n + length ys) (length (cells h a))) eqn:Ec.
      * apply Nat.leb_le in Ec. inversion P; subst h' s'. clear P.
        set (c' := overwrite (cells h a) n ys). set (h' := update h a c'). set (T' := update T a (n + length ys)).
        assert (Ca : cells h' a = c').
        { unfold h', cells. rewrite nth_update, Nat.eqb_refl. rewrite L. apply Nat.ltb_lt in O2. now rewrite O2. }
        assert (Cb : forall b, b <> a -> cells h' b = cells h b).
        { intros b Nb. unfold h', cells. rewrite nth_update. destruct (Nat.eqb_spec a b); [congruence|reflexivity]. }
        assert (Ta : tip T' a = n + length ys).
        { unfold T', tip. rewrite nth_update, Nat.eqb_refl. apply Nat.ltb_lt in O2. now rewrite O2. }
        assert (Tb : forall b, b <> a -> tip T' b = tip T b).
        { intros b Nb. unfold T', tip. rewrite nth_update. destruct (Nat.eqb_spec a b); [congruence|reflexivity]. }
        assert (LT : length T' = length T) by apply update_length.
        assert (F0 : firstn n c' = firstn n (cells h a)).
        { unfold c', overwrite. rewrite firstn_app, firstn_firstn, Nat.min_id, firstn_length.
          replace (n - Nat.min n (length (cells h a))) with 0 by lia. cbn. apply app_nil_r. }
        assert (F1 : firstn (n + length ys) c' = firstn n (cells h a) ++ ys).
        { unfold c', overwrite. rewrite app_assoc, firstn_app, app_length, firstn_length.
          replace (Nat.min n (length (cells h a))) with n by lia. rewrite Nat.sub_diag. cbn [firstn]. rewrite app_nil_r.
          apply firstn_all2. rewrite app_length, firstn_length. lia. }
        assert (X : ext h T h' T').
        { split; [lia|]. intros b Hb. destruct (Nat.eq_dec b a) as [->|Nb].
          - rewrite Ta, Ca, <- At. split; [lia|assumption].
          - rewrite Tb, Cb by assumption. split; [lia|reflexivity]. }
        exists T'. split; [|split; [exact X|split; [|split; [|split]]]].
        -- split; [unfold h', T'; now rewrite !update_length|]. intros b Hb. rewrite LT in Hb. destruct (Nat.eq_dec b a) as [->|Nb].
           ++ rewrite Ta, Ca. split.
              ** unfold c', overwrite. rewrite !app_length, firstn_length, skipn_length. lia.
              ** rewrite F1. apply Forall_app. rewrite <- At in Hf.
                 split; (eapply Forall_impl; [|eassumption]); intros c; now apply okc_mono with h h'.
           ++ rewrite Tb, Cb by assumption. destruct (H b Hb) as [H1 H2]. split; [assumption|].
              eapply Forall_impl; [|exact H2]. intros c. now apply okc_mono with h h'.
        -- cbn. rewrite LT, Ta. lia.
        -- cbn. now rewrite Ta.
        -- cbn. now rewrite Ca, F1.
        -- split; [|right; eauto]. intros b Hb Nb. apply Tb. intros ->. now apply (Nb n).
      * inversion P; subst h' s'. clear P.
        assert (Fr : Forall (okc T) (read h (Prefix a n))) by (apply read_ok; [now split|]; cbn; lia).
        assert (Fa : Forall (okc T) (read h (Prefix a n) ++ ys)) by (now apply Forall_app).
        assert (Na : read h (Prefix a n) ++ ys <> []) by (destruct (read h (Prefix a n)); [assumption|discriminate]).
        destruct (new_array h T (read h (Prefix a n) ++ ys) (repeat HNil (grow (capacity h (Prefix a n)) (n + length ys) - (n + length ys))) (conj L H) Na Fa)
          as (A & B & C & D & E).
        rewrite app_length, Lr, <- app_assoc in *.
        exists (T ++ [n + length ys]). split; [exact A|]. split; [exact B|]. split; [exact C|]. split; [exact D|]. split; [exact E|].
        split; [|left; lia]. intros b Hb _. now apply tip_app.
Qed.

(** ** Operations *)

Ltac inv H := inversion H; subst; clear H.

Lemma denotes_error : forall h c C, denotes h c C -> h_error c = get_error C.
Proof. intros h c C D. now inv D. Qed.

Lemma denotes_conditions : forall h c C, denotes h c C ->
  match h_conditions c, compound_conditions C with
  | Some s, Some cs => denote_all h (read h s) cs
  | None, None => True
  | _, _ => False
  end.
Proof. intros h c C D. inv D; cbn; auto. constructor. Qed.

Lemma denotes_has_op : forall h o c C, denotes h c C -> h_has_op o c = has_op o C.
Proof. intros h o c C D. now inv D. Qed.

Lemma denotes_flattened : forall h o l L, denote_all h l L -> h_can_be_flattened o l = can_be_flattened o L.
Proof.
  intros h o l L D. induction D; [reflexivity|]. cbn. unfold h_can_be_flattened, can_be_flattened in *. rewrite IHD. f_equal.
  rewrite (denotes_has_op h o c C) by assumption. pose proof (denotes_conditions h c C H) as X.
  destruct (h_conditions c), (compound_conditions C); try contradiction; reflexivity.
Qed.

Lemma okc_conditions : forall T c s, okc T c -> h_conditions c = Some s -> okslice T s.
Proof. intros T c s O E. destruct c; cbn in *; inv E; try exact Logic.I; tauto. Qed.

Lemma read_nonempty : forall h T s, okheap h T -> okslice T s -> length (read h s) = slice_len s.
Proof.
  intros h T s [L H] O. destruct s as [|a n]; [reflexivity|]. cbn in *. destruct O as (O1 & O2 & O3). rewrite firstn_length.
  destruct (H a O2). lia.
Qed.

(** The slice [s] with conditions [cs] becomes the slice [s'] with [cs']. *)
Definition grown (h : memory) (T : list nat) (s : slice) (h' : memory) (s' : slice) (cs' : list cnd) : Prop :=
  exists T', okheap h' T' /\ ext h T h' T' /\ okslice T' s' /\ attip T' s' /\ denote_all h' (read h' s') cs' /\ frame s T T' s'.

Lemma push_grown : forall h T s cs xs Xs, okheap h T -> okslice T s -> attip T s -> Forall (okc T) xs ->
  denote_all h (read h s) cs -> denote_all h xs Xs ->
  let (h', s') := push grow h s xs in grown h T s h' s' (cs ++ Xs).
Proof.
  intros h T s cs xs Xs Oh Os At Fx Dc Dx. destruct (push grow h s xs) as [h' s'] eqn:P.
  destruct (push_spec h T s xs h' s' Oh Os At Fx P) as (T' & A & B & C & D & E & F).
  exists T'. split; [exact A|]. split; [exact B|]. split; [exact C|]. split; [exact D|]. split; [|exact F].
  rewrite E. apply denote_all_app; apply (denote_all_mono h T h' T' Oh B); auto. now apply read_ok.
Qed.

Lemma grown_refl : forall h T s cs, okheap h T -> okslice T s -> attip T s -> denote_all h (read h s) cs -> grown h T s h s cs.
Proof.
  intros h T s cs A B C D. exists T. split; [exact A|]. split; [apply ext_refl|]. split; [exact B|]. split; [exact C|]. split; [exact D|].
  split; [reflexivity|]. destruct s; [exact Logic.I|]. right. eauto.
Qed.

Lemma attip_frame : forall s0 T T' s' s, okslice T s -> attip T s -> frame s0 T T' s' -> (forall a n m, s = Prefix a n -> s0 <> Prefix a m) -> attip T' s.
Proof.
  intros s0 T T' s' s O At [F _] N. destruct s as [|a n]; [exact Logic.I|]. cbn in *. rewrite F; [assumption|lia|].
  intros m. now apply (N a n m).
Qed.

Lemma add_conditions_spec : forall ki same h T s cs ch x X, okheap h T -> okslice T s -> attip T s ->
  denote_all h (read h s) cs -> denotes h x X -> okc T x ->
  match h_add_conditions grow ki same h s ch x, add_conditions ki same cs ch X with
  | Some (h', s'), Some cs' => grown h T s h' s' cs'
  | None, None => True
  | _, _ => False
  end.
Proof.
  intros ki same h T s cs ch x X Oh Os At Ds Dx Ox. unfold h_add_conditions, add_conditions.
  pose proof (denotes_conditions h x X Dx) as Dc. pose proof (okc_conditions T x) as Oc.
  destruct (h_conditions x) as [sl|], (compound_conditions X) as [inner|]; try contradiction.
  - specialize (Oc sl Ox eq_refl). pose proof (read_nonempty h T sl Oh Oc) as Ln. pose proof (denote_all_length _ _ _ Dc) as Ll.
    destruct (slice_len sl) as [|n] eqn:El, inner as [|i inner]; cbn in Ll; try lia.
    + now apply grown_refl.
    + rewrite (denotes_has_op h ch x X Dx). rewrite (denotes_flattened h ch _ _ Dc).
      destruct (same && has_op ch X)%bool.
      * destruct (can_be_flattened ch (i :: inner)).
        -- apply push_grown; auto. now apply read_ok.
        -- pose proof (push_grown h T s cs [x] [X] Oh Os At ltac:(now constructor) Ds (denote_all_one _ _ _ Dx)) as G.
           destruct (push grow h s [x]). exact G.
      * pose proof (push_grown h T NoCells [] [x] [X] Oh Logic.I Logic.I ltac:(now constructor) ltac:(constructor) (denote_all_one _ _ _ Dx)) as G.
        destruct (push grow h NoCells [x]) as [h1 s1]. destruct G as (T1 & O1 & E1 & S1 & A1 & D1 & F1).
        assert (Os1 : okslice T1 s) by (eapply okslice_mono; eauto).
        assert (At1 : attip T1 s) by (apply (attip_frame NoCells T T1 s1 s Os At F1); intros; discriminate).
        assert (Ds1 : denote_all h1 (read h1 s) cs).
        { rewrite (read_mono h T h1 T1 s E1 Os). apply (denote_all_mono h T h1 T1 Oh E1); auto. now apply read_ok. }
        assert (Dn : denotes h1 (HComp ki ch s1 NoCells) (Comp ki ch [X] 0)) by (constructor; [cbn; lia|exact D1|constructor]).
        pose proof (push_grown h1 T1 s cs [HComp ki ch s1 NoCells] [Comp ki ch [X] 0] O1 Os1 At1
                      ltac:(constructor; [split; [assumption|exact Logic.I]|constructor]) Ds1 (denote_all_one _ _ _ Dn)) as G.
        destruct (push grow h1 s [HComp ki ch s1 NoCells]) as [h2 s2]. destruct G as (T2 & O2 & E2 & S2 & A2 & D2 & F2).
        exists T2. split; [exact O2|]. split; [now apply ext_trans with h1 T1|]. split; [exact S2|]. split; [exact A2|]. split; [exact D2|].
        destruct F1 as [F1 _]. destruct F2 as [F2 F2']. destruct E1 as [L1 _]. split.
        -- intros b Hb N. rewrite F2 by (try lia; assumption). apply F1; [assumption|discriminate].
        -- destruct s2; [exact Logic.I|]. destruct F2' as [F2'|F2']; [left; lia|right; exact F2'].
  - destruct same; [|exact Logic.I].
    pose proof (push_grown h T s cs [x] [X] Oh Os At ltac:(now constructor) Ds (denote_all_one _ _ _ Dx)) as G.
    destruct (push grow h s [x]). exact G.
Qed.

Lemma added_spec : forall ki h T s cs ch x X, okheap h T -> okslice T s -> attip T s ->
  denote_all h (read h s) cs -> denotes h x X -> okc T x ->
  let (h', s') := h_added grow ki h s ch x in grown h T s h' s' (added ki cs ch X).
Proof.
  intros ki h T s cs ch x X Oh Os At Ds Dx Ox. unfold h_added, added.
  pose proof (add_conditions_spec ki true h T s cs ch x X Oh Os At Ds Dx Ox) as G.
  destruct (h_add_conditions grow ki true h s ch x) as [[h' s']|], (add_conditions ki true cs ch X); try contradiction; [exact G|].
  now apply grown_refl.
Qed.

(** The array of a compound condition. *)
Definition slice_of (c : hcond) : slice := match c with HComp _ _ s _ | HErr _ s => s | _ => NoCells end.

(** A new value: it denotes, ends where its array is used, and shares no array
    but that of [s]. *)
Definition made (h : memory) (T : list nat) (s : slice) (h' : memory) (z : hcond) (Z : cnd) : Prop :=
  exists T', okheap h' T' /\ ext h T h' T' /\ okc T' z /\ attip T' (slice_of z) /\ denotes h' z Z /\ frame s T T' (slice_of z).

Lemma made_simple : forall h T s z Z, okheap h T -> okc T z -> denotes h z Z -> slice_of z = NoCells -> made h T s h z Z.
Proof. intros h T s z Z A B C D. exists T. rewrite D. split; [exact A|]. split; [apply ext_refl|]. split; [exact B|].
  split; [exact Logic.I|]. split; [exact C|]. split; [reflexivity|exact Logic.I]. Qed.

Lemma create_spec : forall ks h T s l L o r R, okheap h T -> denotes h l L -> denotes h r R -> okc T l -> okc T r ->
  let (h', z) := h_create grow ks h l o r in made h T s h' z (create ks L o R).
Proof.
  intros ks h T s l L o r R Oh Dl Dr Ol Or. unfold h_create, create. rewrite (denotes_error h l L Dl), (denotes_error h r R Dr).
  destruct (get_error L) eqn:El; [apply made_simple; auto; [exact Logic.I|constructor; constructor]|].
  destruct (get_error R) eqn:Er; [apply made_simple; auto; [exact Logic.I|constructor; constructor]|].
  assert (Main : let (h1, s1) := h_added grow (ks 1) h NoCells o l in
                 let (h2, s2) := h_added grow (ks 2) h1 s1 o r in
                 made h T s h2 (HComp (ks 0) o s2 s2)
                   (let cs := added (ks 2) (added (ks 1) [] o L) o R in Comp (ks 0) o cs (length cs))).
  { pose proof (added_spec (ks 1) h T NoCells [] o l L Oh Logic.I Logic.I ltac:(constructor) Dl Ol) as G1.
    destruct (h_added grow (ks 1) h NoCells o l) as [h1 s1]. destruct G1 as (T1 & O1 & E1 & S1 & A1 & D1 & F1).
    pose proof (added_spec (ks 2) h1 T1 s1 _ o r R O1 S1 A1 D1 (denotes_mono h T h1 T1 Oh E1 r R Dr Or) (okc_mono h T h1 T1 r E1 Or)) as G2.
    destruct (h_added grow (ks 2) h1 s1 o r) as [h2 s2]. destruct G2 as (T2 & O2 & E2 & S2 & A2 & D2 & F2).
    exists T2. split; [exact O2|]. split; [now apply ext_trans with h1 T1|]. split; [split; exact S2|]. split; [exact A2|].
    split; [constructor; [lia|exact D2|now rewrite firstn_all]|].
    destruct F1 as [F1 F1']. destruct F2 as [F2 F2']. destruct E1 as [L1 _]. cbn. split.
    - intros b Hb N. destruct s1 as [|a n].
      + rewrite F2 by (try lia; discriminate). apply F1; [assumption|discriminate].
      + destruct F1' as [F1'|[m F1']]; [|discriminate].
        rewrite F2; [apply F1; [assumption|discriminate]|lia|]. intros m E. inv E. lia.
    - destruct s2 as [|a n]; [exact Logic.I|]. left. destruct F2' as [F2'|[m ->]]; [lia|]. destruct F1' as [F1'|[m' F1']]; [exact F1'|discriminate]. }
  destruct Dl; cbn in El; try discriminate; destruct Dr; cbn in Er; try discriminate;
    try (apply made_simple; [assumption|exact Logic.I|apply d_err; exact (da_nil h)|reflexivity]);
    lazymatch goal with |- let (_, _) := (let (_, _) := h_added ?g ?a ?b ?c ?d ?e in _) in _ =>
      destruct (h_added g a b c d e) as [?h ?s]; lazymatch goal with |- let (_, _) := (let (_, _) := ?t in _) in _ => destruct t; exact Main end end.
Qed.

Lemma add_spec : forall ks h T c C ch x X, okheap h T -> denotes h c C -> denotes h x X -> okc T c -> okc T x ->
  attip T (slice_of c) -> compound_conditions C <> None ->
  let (h', z) := h_add grow ks h c ch x in made h T (slice_of c) h' z (add ks C ch X).
Proof.
  intros ks h T c C ch x X Oh Dc Dx Oc Ox At Nc. pose proof Dc as Dc0. destruct Dc; cbn in Nc; try congruence; unfold h_add, add.
  - pose proof (added_spec (ks 3) h T NoCells [] ch x X Oh Logic.I Logic.I ltac:(constructor) Dx Ox) as G.
    destruct (h_added grow (ks 3) h NoCells ch x) as [h1 s1]. destruct G as (T1 & O1 & E1 & S1 & A1 & D1 & F1).
    exists T1. split; [exact O1|]. split; [exact E1|]. split; [split; [exact S1|exact Logic.I]|]. split; [exact A1|]. split; [|exact F1].
    constructor; [lia|exact D1|constructor].
  - cbn in Oc, At. destruct Oc as [Oc On].
    pose proof (add_conditions_spec (ks 3) (bop_eqb o ch) h T s cs ch x X Oh Oc At ltac:(assumption) Dx Ox) as G.
    destruct (h_add_conditions grow (ks 3) (bop_eqb o ch) h s ch x) as [[h1 s1]|], (add_conditions (ks 3) (bop_eqb o ch) cs ch X) as [cs'|] eqn:Ea; try contradiction.
    + destruct G as (T1 & O1 & E1 & S1 & A1 & D1 & F1). exists T1.
      split; [exact O1|]. split; [exact E1|]. split; [split; [exact S1|eapply okslice_mono; eauto]|]. split; [exact A1|]. split; [|exact F1].
      assert (Pre : exists t, cs' = cs ++ t).
      { unfold add_conditions in Ea. destruct (compound_conditions X) as [[|i l]|]; [inv Ea; exists []; now rewrite app_nil_r| |].
        - destruct (bop_eqb o ch && has_op ch X)%bool; [destruct (can_be_flattened ch (i :: l))|]; inv Ea; eauto.
        - destruct (bop_eqb o ch); inv Ea. eauto. }
      destruct Pre as [t ->]. constructor; [rewrite app_length; lia|exact D1|]. rewrite (read_mono h T h1 T1 sn E1 On), firstn_app. replace (n - length cs) with 0 by lia. cbn [firstn]. rewrite app_nil_r.
      apply (denote_all_mono h T h1 T1 Oh E1); auto. now apply read_ok.
    + apply create_spec; auto. split; assumption.
  - cbn in Oc, At. pose proof (add_conditions_spec (ks 3) false h T s cs ch x X Oh Oc At H Dx Ox) as G.
    destruct (h_add_conditions grow (ks 3) false h s ch x) as [[h1 s1]|], (add_conditions (ks 3) false cs ch X) as [cs'|]; try contradiction.
    + destruct G as (T1 & O1 & E1 & S1 & A1 & D1 & F1). exists T1.
      split; [exact O1|]. split; [exact E1|]. split; [exact S1|]. split; [exact A1|]. split; [|exact F1]. now constructor.
    + apply create_spec; auto.
Qed.

Lemma container_chain_spec : forall ks h T ch c C x X, okheap h T -> denotes h c C -> denotes h x X -> okc T c -> okc T x ->
  (compound_conditions C <> None -> attip T (slice_of c)) ->
  match h_container_chain grow ks h ch c x, container_chain ks ch C X with
  | Val (h', z), Val Z => made h T (slice_of c) h' z Z
  | Panic, Panic => True
  | _, _ => False
  end.
Proof.
  intros ks h T ch c C x X Oh Dc Dx Oc Ox At.
  pose proof (add_spec ks h T c C ch x X Oh Dc Dx Oc Ox) as A.
  pose proof (create_spec ks h T (slice_of c) c C ch x X Oh Dc Dx Oc Ox) as B.
  destruct Dc; unfold h_container_chain, container_chain; try exact Logic.I;
    try (destruct (h_create grow ks h _ ch x); exact B);
    specialize (A (At ltac:(discriminate)) ltac:(discriminate)); destruct (h_add grow ks h _ ch x); exact A.
Qed.

Lemma denotes_embedded : forall h c C, denotes h c C -> denotes h (h_embedded c) (embedded C).
Proof.
  intros h c C D. destruct D; cbn; try constructor; try assumption. lia.
  constructor.
Qed.

Lemma okc_embedded : forall T c, okc T c -> okc T (h_embedded c).
Proof. intros T c O. destruct c; cbn in *; tauto. Qed.

Lemma condition_chain_spec : forall ks h T ch c C x X, okheap h T -> denotes h c C -> denotes h x X -> okc T c -> okc T x ->
  (compound_conditions C <> None -> attip T (slice_of c)) ->
  match h_condition_chain grow ks h ch c x, condition_chain ks ch C X with
  | Val (h', z), Val Z => made h T (slice_of c) h' z Z
  | Panic, Panic => True
  | _, _ => False
  end.
Proof.
  intros ks h T ch c C x X Oh Dc Dx Oc Ox At.
  pose proof (container_chain_spec ks h T ch c C x X Oh Dc Dx Oc Ox At) as A.
  destruct Dc; first [exact A | exact Logic.I].
Qed.

Lemma not_spec : forall ks h T s c C, okheap h T -> denotes h c C -> okc T c ->
  made h T s h (h_comparison_not ks c) (comparison_not ks C).
Proof.
  intros ks h T s c C Oh D O. unfold h_comparison_not, comparison_not. rewrite (denotes_error h c C D).
  destruct (get_error C); [apply made_simple; auto; [exact Logic.I|constructor]|].
  destruct D; (apply made_simple; [assumption| | |reflexivity]);
    try (exact Logic.I); try (exact O); try (constructor; fail); constructor; constructor; assumption.
Qed.

(** ** Programs *)

Definition inv (h : memory) (T : list nat) (hs : list hcond) (env : list cnd) (used : list nat) : Prop :=
  okheap h T /\ length hs = length env
  /\ (forall i, denotes h (nth i hs HNil) (nth i env Nil) /\ okc T (nth i hs HNil))
  /\ (forall i, ~ In i used -> attip T (slice_of (nth i hs HNil)))
  /\ (forall i j a n m, ~ In i used -> ~ In j used -> i <> j ->
        slice_of (nth i hs HNil) = Prefix a n -> slice_of (nth j hs HNil) = Prefix a m -> False).

Lemma inv_made : forall h T hs env used s us h' z Z, inv h T hs env used -> made h T s h' z Z ->
  (s = NoCells \/ exists i, s = slice_of (nth i hs HNil) /\ ~ In i used /\ In i us) ->
  exists T', inv h' T' (hs ++ [z]) (env ++ [Z]) (us ++ used).
Proof.
  intros h T hs env used s us h' z Z (Oh & Ll & Dn & At & Ds) (T' & O' & E & Oz & Az & Dz & F1 & F2) Hs. exists T'.
  assert (Lt : forall i a n, slice_of (nth i hs HNil) = Prefix a n -> a < length T).
  { intros i a n Ei. destruct (Dn i) as [_ Oi]. destruct (nth i hs HNil); cbn in *; try discriminate; subst; cbn in Oi; tauto. }
  assert (Nth : forall i, nth i (hs ++ [z]) HNil = if Nat.ltb i (length hs) then nth i hs HNil else if Nat.eqb i (length hs) then z else HNil).
  { intros i. destruct (Nat.ltb_spec i (length hs)); [now apply app_nth1|]. rewrite app_nth2 by lia.
    destruct (Nat.eqb_spec i (length hs)); [subst; now rewrite Nat.sub_diag|].
    destruct (i - length hs) as [|k] eqn:Ek; [lia|]. now destruct k. }
  assert (NthE : forall i, nth i (env ++ [Z]) Nil = if Nat.ltb i (length hs) then nth i env Nil else if Nat.eqb i (length hs) then Z else Nil).
  { intros i. rewrite Ll. destruct (Nat.ltb_spec i (length env)); [now apply app_nth1|]. rewrite app_nth2 by lia.
    destruct (Nat.eqb_spec i (length env)); [subst; now rewrite Nat.sub_diag|].
    destruct (i - length env) as [|k] eqn:Ek; [lia|]. now destruct k. }
  (* arrays of unused conditions are not that of s *)
  assert (Far : forall j a n, ~ In j (us ++ used) -> slice_of (nth j hs HNil) = Prefix a n -> forall m, s <> Prefix a m).
  { intros j a n Nj Ej m Es. destruct Hs as [->|(i & -> & Ni & Ii)]; [discriminate|].
    assert (Nu : ~ In j used) by (intros X; apply Nj; apply in_or_app; now right).
    apply (Ds i j a m n Ni Nu); auto. intros ->. apply Nj. apply in_or_app. now left. }
  split; [exact O'|]. split; [rewrite !app_length; cbn; lia|]. split; [|split].
  - intros i. rewrite Nth, NthE. destruct (Nat.ltb i (length hs)).
    + destruct (Dn i) as [D1 D2]. split; [now apply (denotes_mono h T h' T' Oh E)|now apply okc_mono with h T h'].
    + destruct (Nat.eqb i (length hs)); [split; assumption|]. split; [constructor|exact Logic.I].
  - intros i Ni. rewrite Nth. destruct (Nat.ltb i (length hs)); [|destruct (Nat.eqb i (length hs)); [assumption|exact Logic.I]].
    assert (Nu : ~ In i used) by (intros X; apply Ni; apply in_or_app; now right).
    specialize (At i Nu). destruct (slice_of (nth i hs HNil)) as [|a n] eqn:Ei; [exact Logic.I|]. cbn in *.
    rewrite F1; [assumption|now apply Lt with i n|]. now apply Far with i n.
  - assert (New : forall i a n m, ~ In i (us ++ used) -> slice_of (nth i hs HNil) = Prefix a n -> slice_of z = Prefix a m -> False).
    { intros i a n m Ni Ei Ez. rewrite Ez in F2. destruct F2 as [F2|[k F2]]; [apply Lt in Ei; lia|]. now apply (Far i a n Ni Ei k). }
    intros i j a n m Ni Nj Nij. rewrite !Nth.
    destruct (Nat.ltb i (length hs)).
    + destruct (Nat.ltb j (length hs)).
      * apply Ds; auto; intros X; [apply Ni|apply Nj]; apply in_or_app; now right.
      * destruct (Nat.eqb j (length hs)); [|discriminate]. now apply New.
    + destruct (Nat.eqb_spec i (length hs)); [|discriminate]. destruct (Nat.ltb j (length hs)).
      * intros Ez Ej. now apply (New j a m n).
      * destruct (Nat.eqb_spec j (length hs)); [lia|discriminate].
Qed.

Lemma no_conditions : forall h T c C, okheap h T -> denotes h c C -> okc T c -> compound_conditions C = Some [] \/ compound_conditions C = None ->
  slice_of c = NoCells.
Proof.
  assert (X : forall h T s, okheap h T -> okslice T s -> denote_all h (read h s) [] -> s = NoCells).
  { intros h T s Oh Os D. pose proof (read_nonempty h T s Oh Os) as L. apply denote_all_length in D. rewrite D in L. cbn in L.
    destruct s; [reflexivity|]. cbn in *. lia. }
  intros h T c C Oh D O [E|E]; destruct D; cbn in *; try discriminate; try reflexivity; inversion E; subst.
  - apply (X h T); tauto.
  - now apply (X h T).
Qed.

Lemma step_spec : forall h T hs env used p, inv h T hs env used ->
  forallb (fun i => negb (existsb (Nat.eqb i) used)) (extends env p) = true ->
  match heap_step grow h hs p, pure_step env p with
  | Val (h', z), Val Z => exists T', inv h' T' (hs ++ [z]) (env ++ [Z]) (extends env p ++ used)
  | Panic, Panic => True
  | _, _ => False
  end.
Proof.
  intros h T hs env used p I O. pose proof I as (Oh & Ll & Dn & At & Ds).
  assert (Chain : forall ks o i j, (forall k, In k (extends env (MkChain ks o i j)) -> ~ In k used) ->
     (compound_conditions (nth i env Nil) <> None -> attip T (slice_of (nth i hs HNil)))
     /\ (slice_of (nth i hs HNil) = NoCells
         \/ exists i0, slice_of (nth i hs HNil) = slice_of (nth i0 hs HNil) /\ ~ In i0 used /\ In i0 (extends env (MkChain ks o i j)))).
  { intros ks o i j N. cbn in *. destruct (Dn i) as [D1 D2]. destruct (compound_conditions (nth i env Nil)) as [[|x l]|] eqn:Ec.
    - rewrite (no_conditions h T _ _ Oh D1 D2 (or_introl Ec)). split; [intros; exact Logic.I|now left].
    - split; [intros _; apply At; apply N; cbn; auto|]. right. exists i. split; [reflexivity|]. split; [apply N; cbn; auto|cbn; auto].
    - rewrite (no_conditions h T _ _ Oh D1 D2 (or_intror Ec)). split; [intros; exact Logic.I|now left]. }
  assert (N : forall k, In k (extends env p) -> ~ In k used).
  { intros k Hk X. rewrite forallb_forall in O. specialize (O k Hk). apply negb_true_iff in O.
    assert (Y : existsb (Nat.eqb k) used = true) by (apply existsb_exists; exists k; split; [assumption|apply Nat.eqb_refl]). congruence. }
  destruct p as [e| |e|ks o i j|ks o i j|ks o i e|ks i|ks i]; cbn [heap_step pure_step].
  - eapply inv_made; [exact I| |now left]. apply made_simple; auto; [exact Logic.I|constructor].
  - eapply inv_made; [exact I| |now left]. apply made_simple; auto; [exact Logic.I|constructor].
  - eapply inv_made; [exact I| |now left]. apply made_simple; auto; [exact Logic.I|constructor].
  - destruct (Chain ks o i j N) as [A B]. destruct (Dn i) as [D1 D2]. destruct (Dn j) as [D3 D4].
    pose proof (container_chain_spec ks h T o _ _ _ _ Oh D1 D3 D2 D4 A) as X.
    destruct (h_container_chain grow ks h o (nth i hs HNil) (nth j hs HNil)) as [[h' z]|], (container_chain ks o (nth i env Nil) (nth j env Nil)); try contradiction; [|exact Logic.I].
    eapply inv_made; [exact I|exact X|exact B].
  - destruct (Chain ks o i j N) as [A B]. destruct (Dn i) as [D1 D2]. destruct (Dn j) as [D3 D4].
    pose proof (condition_chain_spec ks h T o _ _ _ _ Oh D1 D3 D2 D4 A) as X.
    destruct (h_condition_chain grow ks h o (nth i hs HNil) (nth j hs HNil)) as [[h' z]|], (condition_chain ks o (nth i env Nil) (nth j env Nil)); try contradiction; [|exact Logic.I].
    eapply inv_made; [exact I|exact X|exact B].
  - destruct (Dn i) as [D1 D2]. pose proof (create_spec ks h T NoCells _ _ o (HAtom e) (Atom e) Oh D1 (d_atom h e) D2 Logic.I) as X.
    unfold h_container_pattern, container_pattern.
    destruct (h_create grow ks h (nth i hs HNil) o (HAtom e)) as [h' z]. clear N O.
    destruct D1; try exact Logic.I; (eapply inv_made; [exact I|exact X|now left]).
  - destruct (Dn i) as [D1 D2]. eapply inv_made; [exact I|now apply (not_spec ks h T NoCells)|now left].
  - destruct (Dn i) as [D1 D2]. pose proof (not_spec ks h T NoCells _ _ Oh (denotes_embedded _ _ _ D1) (okc_embedded _ _ D2)) as X.
    unfold h_conditions_not, conditions_not, container_not. clear N O.
    destruct D1; try (eapply inv_made; [exact I|exact X|now left]);
      (eapply inv_made; [exact I| |now left]; apply made_simple; [assumption|exact Logic.I|apply d_err; exact (da_nil h)|reflexivity]).
Qed.

Theorem run_spec : forall ps h T hs env used, inv h T hs env used -> once env used ps = true ->
  match heap_run grow h hs ps, pure_run env ps with
  | Val (h', hs'), Val env' => exists T' used', inv h' T' hs' env' used'
  | Panic, Panic => True
  | _, _ => False
  end.
Proof.
  induction ps as [|p ps IH]; intros h T hs env used I O; cbn [heap_run pure_run once] in *; [eauto|].
  apply andb_prop in O as [O1 O2]. pose proof (step_spec h T hs env used p I O1) as X.
  destruct (heap_step grow h hs p) as [[h' z]|], (pure_step env p) as [Z|]; try contradiction; [|exact Logic.I].
  destruct X as [T' X]. now apply IH with T' (extends env p ++ used).
Qed.

Lemma inv_start : inv [] [] [] [] [].
Proof.
  split; [split; [reflexivity|intros; cbn in *; lia]|]. split; [reflexivity|]. split; [|split].
  - intros [|i]; (split; [constructor|exact Logic.I]).
  - intros [|i] _; exact Logic.I.
  - intros [|i] j a n m _ _ _ E; discriminate.
Qed.

End Push.

Lemma denote_all_Forall2 : forall h l L, length l = length L ->
  (forall i, denotes h (nth i l HNil) (nth i L Nil)) -> Forall2 (denotes h) l L.
Proof.
  induction l as [|c l IH]; intros [|C L] E H; cbn in *; try lia; constructor.
  - exact (H 0).
  - apply IH; [lia|]. intros i. exact (H (S i)).
Qed.

(** Programs that extend every compound condition at most once. *)
Theorem once_spec : forall grow ps, once [] [] ps = true ->
  match heap_run grow [] [] ps, pure_run [] ps with
  | Val (h, hs), Val env => Forall2 (denotes h) hs env
  | Panic, Panic => True
  | _, _ => False
  end.
Proof.
  intros grow ps O. pose proof (run_spec grow ps [] [] [] [] [] inv_start O) as X.
  destruct (heap_run grow [] [] ps) as [[h hs]|], (pure_run [] ps) as [env|]; try contradiction; [|exact Logic.I].
  destruct X as (T & used & Oh & L & D & _). apply denote_all_Forall2; [assumption|]. intros i. apply D.
Qed.

(** A value stands for one condition. *)
Lemma denotes_expr : forall h c C, denotes h c C -> forall C', denotes h c C' -> cond_expr C = cond_expr C'.
Proof.
  intros h. apply (denotes_mut h (fun c C _ => forall C', denotes h c C' -> cond_expr C = cond_expr C')
                    (fun l L _ => forall L', denote_all h l L' -> map cond_expr L = map cond_expr L')).
  - intros C' D. now inversion D.
  - intros e C' D. now inversion D.
  - intros k kn c C D IH C' D'. inversion D'; subst. cbn.
    match goal with H : denotes h c ?x |- _ => now rewrite (IH _ H) end.
  - intros e C' D. now inversion D.
  - intros C' D. now inversion D.
  - intros k o s sn cs n L D IH D2 IH2 C' D'. inversion D'; subst. cbn.
    match goal with H : denote_all h (read h s) ?x |- _ => now rewrite (IH _ H) end.
  - intros e s cs D IH C' D'. inversion D'; subst. reflexivity.
  - intros L' D. now inversion D.
  - intros c C l L D IH D' IH' L' D2. inversion D2; subst. cbn.
    match goal with H : denotes h c ?x, H' : denote_all h l ?y |- _ => now rewrite (IH _ H), (IH' _ H') end.
Qed.
