(** C41: which of several aliased items are written as "expression AS alias". *)

From Coq Require Import Ascii String List ZArith Bool Lia.
From Verif Require Import GoStr Escape Num VTree WellKeyed Ast SpecDoc SpecPrint EscapeProofs DocProofs PropertiesText PropertiesRender.
Import ListNotations.
Open Scope string_scope.

(** ** Specification *)

(** An item [expression AS name]; the address of the alias and that of the
    expression. *)
Record column := Column { c_key : key; c_of : key; c_expr : expr; c_name : string }.
Definition item_of (c : column) : expr := EAlias (c_key c) (c_of c) (c_expr c) (c_name c).

(** The item as it should be. *)
Definition in_full (E : env) (c : column) : string := text (print E (c_expr c)) ++ " AS " ++ escape_if_necessary E (c_name c).

(** The items as they are: those of an expression that had an item before lack
    the expression. *)
Fixpoint as_written (E : env) (before : list key) (l : list column) : list string :=
  match l with
  | [] => []
  | c :: l' => (if existsb (String.eqb (c_of c)) before then escape_if_necessary E (c_name c) else in_full E c) :: as_written E (c_of c :: before) l'
  end.

(** No aliases and no named nodes inside. *)
Fixpoint plain (d : doc) : bool :=
  match d with
  | Txt _ => true
  | Cat l | Commas l => forallb plain l
  | Shared _ d => plain d
  | Once _ _ _ | Aliased _ _ _ => false
  end.
(** The addresses of the elements of a document. *)
Fixpoint elements (d : doc) : list key :=
  match d with
  | Txt _ => []
  | Cat l | Commas l => flat_map elements l
  | Shared k d => k :: elements d
  | Once k _ d | Aliased k _ d => k :: elements d
  end.

(** The items are of expressions without aliases inside; no item is, and no
    expression contains, the expression of another item. *)
Definition separate (E : env) (l : list column) : Prop :=
  forall c, In c l -> plain (print E (c_expr c)) = true
    /\ (forall d, In d l -> c_key c <> c_of d)
    /\ (forall k d, In k (elements (print E (c_expr c))) -> In d l -> k = c_of d -> c_of d = c_of c).

(** Nothing of this has an alias yet. *)
Definition new_to (E : env) (m : memory) (l : list column) : Prop :=
  forall c, In c l -> alias_of (c_key c) (introduced m) = None /\ alias_of (c_of c) (introduced m) = None
    /\ forall k, In k (elements (print E (c_expr c))) -> alias_of k (introduced m) = None.

(** ** Proofs *)

Definition doc_ind' (P : doc -> Prop) (HT : forall s, P (Txt s)) (HC : forall l, Forall P l -> P (Cat l)) (HM : forall l, Forall P l -> P (Commas l))
  (HS : forall k d, P d -> P (Shared k d)) (HO : forall k n d, P d -> P (Once k n d)) (HA : forall k a d, P d -> P (Aliased k a d)) : forall d, P d :=
  fix f d := match d with
    | Txt s => HT s
    | Cat l => HC l ((fix g l := match l return Forall P l with [] => Forall_nil P | x :: r => Forall_cons x (f x) (g r) end) l)
    | Commas l => HM l ((fix g l := match l return Forall P l with [] => Forall_nil P | x :: r => Forall_cons x (f x) (g r) end) l)
    | Shared k d => HS k d (f d)
    | Once k n d => HO k n d (f d)
    | Aliased k a d => HA k a d (f d)
    end.

Lemma plain_write : forall d, plain d = true -> forall m, (forall k, In k (elements d) -> alias_of k (introduced m) = None) ->
  write d m = (text d, m).
Proof.
  assert (G : forall d, plain d = true -> exists s, forall m, (forall k, In k (elements d) -> alias_of k (introduced m) = None) -> write d m = (s, m)).
  { intros d. induction d as [s|l IH|l IH|k d IH|k n d IH|k a d IH] using doc_ind'; intros P; try discriminate; cbn [plain elements] in *.
    - exists s. reflexivity.
    - assert (Q : exists s, forall m, (forall k, In k (flat_map elements l) -> alias_of k (introduced m) = None) -> wcat l m = (s, m)).
      { induction IH as [|d l Hd Hl IHl]; [exists ""; reflexivity|]. cbn [forallb] in P. apply andb_prop in P as [P1 P2]. destruct (Hd P1) as [x X]. destruct (IHl P2) as [y Y].
        exists (x ++ y). intros m H. cbn [wcat]. rewrite X by (intros k J; apply H; cbn; apply in_or_app; now left). rewrite Y by (intros k J; apply H; cbn; apply in_or_app; now right). reflexivity. }
      destruct Q as [s Q]. exists s. intros m H. rewrite write_Cat. auto.
    - destruct l as [|d l]; [exists ""; reflexivity|].
      inversion IH as [|? ? Hd Hl]; subst. cbn [forallb] in P. apply andb_prop in P as [P1 P2]. destruct (Hd P1) as [x X].
      assert (Q' : exists s, forall m, (forall k, In k (flat_map elements l) -> alias_of k (introduced m) = None) -> wrest l m = (s, m)).
      { clear - Hl P2. induction Hl as [|e l He Hl IHl]; [exists ""; reflexivity|]. cbn [forallb] in P2. apply andb_prop in P2 as [P1 P2]. destruct (He P1) as [x X]. destruct (IHl P2) as [y Y].
        eexists. intros m H. cbn [wrest]. rewrite X by (intros k J; apply H; cbn; apply in_or_app; now left). rewrite Y by (intros k J; apply H; cbn; apply in_or_app; now right). reflexivity. }
      destruct Q' as [y Y]. eexists. intros m H. rewrite write_Commas. rewrite X by (intros k J; apply H; cbn; apply in_or_app; now left). rewrite Y by (intros k J; apply H; cbn; apply in_or_app; now right). reflexivity.
    - destruct (IH P) as [s X]. exists s. intros m H. rewrite write_Shared, H by now left. apply X. intros j J. apply H. now right. }
  intros d P m H. destruct (G d P) as [s X]. unfold text. rewrite (X m H), (X nothing_written) by reflexivity. reflexivity.
Qed.

Lemma plain_intro : forall d, plain d = true -> forall m, introduce_all d m = m.
Proof.
  intros d. induction d as [s|l IH|l IH|k d IH|k n d IH|k a d IH] using doc_ind'; intros P m; try discriminate; try reflexivity; cbn [plain] in P.
  - rewrite intro_Cat. revert m. induction IH as [|d l Hd Hl IHl]; intros m; [reflexivity|]. cbn [forallb] in P. apply andb_prop in P as [P1 P2]. cbn [intros_l]. rewrite Hd by assumption. auto.
  - rewrite intro_Commas. revert m. induction IH as [|d l Hd Hl IHl]; intros m; [reflexivity|]. cbn [forallb] in P. apply andb_prop in P as [P1 P2]. cbn [intros_l]. rewrite Hd by assumption. auto.
  - cbn. auto.
Qed.

Lemma item_written : forall E c m, plain (print E (c_expr c)) = true -> alias_of (c_key c) (introduced m) = None ->
  (alias_of (c_of c) (introduced m) = None -> forall k, In k (elements (print E (c_expr c))) -> alias_of k (introduced m) = None) ->
  write (print E (item_of c)) m =
    (match alias_of (c_of c) (introduced m) with Some _ => escape_if_necessary E (c_name c) | None => in_full E c end, introduce (c_of c) (escape_if_necessary E (c_name c)) m).
Proof.
  intros E c m P K H. unfold item_of. cbn [print]. rewrite write_Shared, K. cbn [write]. destruct (alias_of (c_of c) (introduced m)) eqn:A.
  - now rewrite plain_intro.
  - rewrite (plain_write _ P m (H eq_refl)). reflexivity.
Qed.

Definition commas_before (l : list string) : string := fold_right (fun s r => ", " ++ s ++ r) "" l.
Lemma join_commas : forall x l, join ", " (x :: l) = x ++ commas_before l.
Proof. intros x l. revert x. induction l as [|y l IH]; intros x; [cbn; now rewrite sapp_nil_r|]. change (join ", " (x :: y :: l)) with (x ++ ", " ++ join ", " (y :: l)). rewrite IH. reflexivity. Qed.

Lemma rest_written : forall E l m before,
  (forall c, In c l -> plain (print E (c_expr c)) = true
    /\ alias_of (c_key c) (introduced m) = None
    /\ (forall d, In d l -> c_key c <> c_of d)
    /\ (forall k d, In k (elements (print E (c_expr c))) -> In d l -> k = c_of d -> c_of d = c_of c)
    /\ ((exists a, alias_of (c_of c) (introduced m) = Some a) <-> In (c_of c) before)
    /\ (alias_of (c_of c) (introduced m) = None -> forall k, In k (elements (print E (c_expr c))) -> alias_of k (introduced m) = None)) ->
  exists m', wrest (map (print E) (map item_of l)) m = (commas_before (as_written E before l), m').
Proof.
  intros E l. induction l as [|c l IH]; intros m before H; [eexists; reflexivity|].
  destruct (H c (or_introl eq_refl)) as (P & K & _ & _ & B & N). cbn [map wrest as_written]. rewrite (item_written E c m P K N).
  destruct (IH (introduce (c_of c) (escape_if_necessary E (c_name c)) m) (c_of c :: before)) as [m' ->].
  - intros d J. destruct (H d (or_intror J)) as (P' & K' & D' & S' & B' & N'). cbn [introduce introduced alias_of].
    split; [exact P'|]. split; [|split; [|split; [|split]]].
    + destruct (String.eqb_spec (c_key d) (c_of c)) as [X|_]; [|exact K']. destruct (D' c (or_introl eq_refl) X).
    + intros e J'. apply D'. now right.
    + intros k e Jk J'. apply S'; [exact Jk|now right].
    + destruct (String.eqb_spec (c_of d) (c_of c)) as [X|X]; [split; [intros _; left; congruence|eauto]|]. rewrite B'. split; [now right|]. intros [Y|Y]; [congruence|exact Y].
    + destruct (String.eqb_spec (c_of d) (c_of c)) as [X|X]; [discriminate|]. intros A k Jk. destruct (String.eqb_spec k (c_of c)) as [Y|Y]; [|exact (N' A k Jk)].
      subst k. destruct X. symmetry. apply (S' (c_of c) c); [exact Jk|now left|reflexivity].
  - eexists. f_equal. unfold commas_before. cbn [fold_right]. f_equal. f_equal.
    assert (E1 : existsb (String.eqb (c_of c)) before = match alias_of (c_of c) (introduced m) with Some _ => true | None => false end).
    { destruct (alias_of (c_of c) (introduced m)) eqn:A.
      - apply existsb_exists. exists (c_of c). split; [apply B; eauto|apply String.eqb_refl].
      - apply not_true_is_false. intros X. apply existsb_exists in X as (y & J & Y). apply String.eqb_eq in Y. subst y. apply B in J as [a J]. congruence. }
    rewrite E1. now destruct (alias_of (c_of c) (introduced m)).
Qed.

Lemma listing_items : forall E l, listing (print E) (map item_of l) = Commas (map (print E) (map item_of l)).
Proof. intros E l. unfold listing. f_equal. induction l as [|c l IH]; [reflexivity|]. cbn. now rewrite IH. Qed.

Lemma in_full_not_name : forall E c, in_full E c <> escape_if_necessary E (c_name c).
Proof.
  intros E c H. apply (f_equal String.length) in H. unfold in_full in H. rewrite !slen_app in H. cbn in H. lia.
Qed.

Lemma all_in_full : forall E l before, as_written E before l = map (in_full E) l <-> NoDup (map c_of l) /\ (forall c, In c l -> ~ In (c_of c) before).
Proof.
  intros E l. induction l as [|c l IH]; intros before; cbn [as_written map].
  { split; [intros _; split; [constructor|intros c []]|reflexivity]. }
  destruct (existsb (String.eqb (c_of c)) before) eqn:X.
  - split; [intros H; injection H as H _; symmetry in H; destruct (in_full_not_name E c H)|]. intros [_ H]. apply existsb_exists in X as (y & J & Y). apply String.eqb_eq in Y. subst y. destruct (H c (or_introl eq_refl) J).
  - assert (Y : ~ In (c_of c) before) by (intros J; rewrite (proj2 (existsb_exists _ _)) in X; [discriminate|]; exists (c_of c); split; [exact J|apply String.eqb_refl]).
    split.
    + intros H. injection H as H. apply IH in H as [D N]. split; [constructor; [|exact D]|].
      * intros J. apply in_map_iff in J as (d & Q & J). apply (N d J). left. congruence.
      * intros d [<-|J]; [exact Y|]. intros K. apply (N d J). now right.
    + intros [D N]. inversion D as [|? ? D1 D2]; subst. f_equal. apply IH. split; [exact D2|]. intros d J [K|K]; [apply D1; rewrite K; now apply in_map|exact (N d (or_intror J) K)].
Qed.

(** ** C41 *)

(** For every list of aliased items, wherever it stands in a statement: each
    item is "expression AS alias" or, if an item before it is of the same
    expression, only the alias.  So all of the columns exist if and only if no
    two of them are of one expression. *)
Theorem C41_columns_partial : forall E k l m,
  separate E l -> new_to E m l -> alias_of k (introduced m) = None ->
  fst (write (print E (EExprs k (map item_of l))) m) = join ", " (as_written E [] l)
  /\ (as_written E [] l = map (in_full E) l <-> NoDup (map c_of l)).
Proof.
  intros E k l m S N K. split.
  - cbn [print]. rewrite write_Shared, K, listing_items. destruct l as [|c l]; [reflexivity|].
    destruct (S c (or_introl eq_refl)) as (P & _ & S3). destruct (N c (or_introl eq_refl)) as (N1 & N2 & N3). cbn [map]. rewrite write_Commas.
    rewrite (item_written E c m P N1 (fun _ => N3)), N2.
    destruct (rest_written E l (introduce (c_of c) (escape_if_necessary E (c_name c)) m) [c_of c]) as [m' ->].
    + intros d J. destruct (S d (or_intror J)) as (P' & D' & S'). destruct (N d (or_intror J)) as (M1 & M2 & M3). cbn [introduce introduced alias_of].
      split; [exact P'|]. split; [|split; [|split; [|split]]].
      * destruct (String.eqb_spec (c_key d) (c_of c)) as [X|_]; [|exact M1]. destruct (D' c (or_introl eq_refl) X).
      * intros e J'. apply D'. now right.
      * intros i e Ji J'. apply S'; [exact Ji|now right].
      * destruct (String.eqb_spec (c_of d) (c_of c)) as [X|X]; [split; [intros _; left; congruence|eauto]|]. rewrite M2. split; [intros [a Y]; discriminate|intros [Y|[]]; congruence].
      * destruct (String.eqb_spec (c_of d) (c_of c)) as [X|X]; [discriminate|]. intros _ i Ji. destruct (String.eqb_spec i (c_of c)) as [Y|Y]; [|exact (M3 i Ji)].
        subst i. destruct X. symmetry. apply (S' (c_of c) c); [exact Ji|now left|reflexivity].
    + cbn [fst as_written existsb]. now rewrite join_commas.
  - rewrite all_in_full. split; [tauto|]. intros D. split; [exact D|]. intros c _ [].
Qed.
Print Assumptions C41_columns_partial.

(** The text of a statement that returns them. *)
Theorem C41_rendered_columns_partial : forall (err : Type) E l, separate E l ->
  let q := QSingle [] (Some (QReturn "r" false (Body (EExprs "es" (map item_of l)) None None None))) in
  well_keyed (to_vtq E q) = true -> well_quiet (to_vtq E q) = true ->
  fst (render (err:=err) (SOk (to_vtq E q)) new_renderer) = (trim_space ("RETURN " ++ join ", " (as_written E [] l)), None)
  /\ (as_written E [] l = map (in_full E) l <-> NoDup (map c_of l)).
Proof.
  intros err E l S q W Q. destruct (C41_columns_partial E "es" l nothing_written S) as [T U]; [intros c _; repeat split|reflexivity|]. split; [|exact U].
  rewrite (C01_rendering_prints_the_statement_partial err E q W Q). f_equal. unfold statement_text. f_equal.
  rewrite <- T. unfold q, text. cbn [print_query map app option_map maybe]. rewrite write_Cat. cbn [wcat]. rewrite write_Shared. cbn [nothing_written introduced alias_of]. rewrite write_Cat. cbn [wcat write print_body].
  cbn [app option_map maybe b_items b_order b_skip b_limit]. fold nothing_written. destruct (write (print E (EExprs "es" (map item_of l))) nothing_written) as [x m']. cbn [fst]. now rewrite !sapp_nil_r.
Qed.
Print Assumptions C41_rendered_columns_partial.

(** ** The hypotheses are met *)

Definition three : list column :=
  [Column "a1" "p1" uname "who"; Column "a2" "f1" net "total"; Column "a3" "p1" uname "name"].
Definition two : list column := [Column "a1" "p1" uname "who"; Column "a2" "f1" net "total"].

Example C41_case : separate env0 three /\ separate env0 two
  /\ (forall l, l = three \/ l = two -> let q := QSingle [] (Some (QReturn "r" false (Body (EExprs "es" (map item_of l)) None None None))) in
       well_keyed (to_vtq env0 q) = true /\ well_quiet (to_vtq env0 q) = true)
  /\ as_written env0 [] three = ["u.name AS who"; "sum((li.price * li.quantity)) AS total"; "name"]
  /\ as_written env0 [] two = ["u.name AS who"; "sum((li.price * li.quantity)) AS total"].
Proof.
  assert (S : forall l, l = three \/ l = two -> separate env0 l).
  { intros l [-> | ->] c J; cbn in J;
      repeat (destruct J as [<-|J]; [split; [reflexivity|]; split; [intros d J; cbn in J; repeat (destruct J as [<-|J]; [discriminate|]); contradiction|];
        intros k d Jk J; cbn in Jk, J; repeat (destruct J as [<-|J]; [try reflexivity; intros ->; cbn in Jk; intuition discriminate|]); contradiction|]); contradiction. }
  split; [auto|]. split; [auto|]. split; [|split; reflexivity].
  intros l [-> | ->]; split; vm_compute; reflexivity.
Qed.
