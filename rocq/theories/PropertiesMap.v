(** Properties C22 and C23: maps and map projections.
    Specification: SpecMap.v; model: Maps.v. *)

From Coq Require Import Ascii String List ZArith Bool Lia.
From Verif Require Import GoStr Escape Num VTree Ast GoVal Maps SpecMap MapProofs SpecDoc SpecPrint PropertiesText.
Import ListNotations.
Open Scope string_scope.

Definition K0 : keys := Keys "m" (fun i => match i with 0 => "l0" | 1 => "l1" | _ => "l2" end)
                             (fun i => match i with 0 => "e0" | 1 => "e1" | _ => "e2" end) "null".

(** ** C22 *)

(** An even number of arguments, string keys without repetition and values that
    have a literal and carry no error: the map of these entries, in order. *)
Theorem C22_map_accepted : forall K objs ps,
  pairs_of objs = Some ps -> NoDup (map fst ps) -> Forall (fun p => exists e, stands_for (snd p) e) ps ->
  exists k es, new_map K objs = Returns (GOk (EMap k es)) /\ Forall2 entry_for ps es.
Proof.
  intros K objs ps P N V. unfold new_map. rewrite (pairs_even objs ps P).
  pose proof (map_loop_pairs ps objs K 0 [] P) as H.
  destruct (map_loop K 0 [] objs) as [[m|l]| |].
  - exfalso. apply H. split; [assumption|]. intros p _ [].
  - destruct H as [F [_ _]]. pose proof (stands_ok ps l F V) as S.
    exists (k_self K), (sound_exprs l). unfold map_create. rewrite S. split; [reflexivity|].
    now apply entry_vals_ok.
  - contradiction.
  - destruct H as [p [Hp Hu]]. rewrite Forall_forall in V. destruct (V p Hp) as [e S].
    exfalso. now apply stands_not_unsupported with (snd p) e.
Qed.
Print Assumptions C22_map_accepted.

(** Only then; and the map has exactly these entries. *)
Theorem C22_map_only_if : forall K objs x,
  new_map K objs = Returns (GOk x) ->
  exists ps k es, pairs_of objs = Some ps /\ NoDup (map fst ps) /\ x = EMap k es /\ Forall2 entry_for ps es.
Proof.
  intros K objs x H. unfold new_map in H.
  destruct (Nat.odd (length objs)) eqn:Od; [discriminate|].
  destruct (pairs_of objs) as [ps|] eqn:P.
  - pose proof (map_loop_pairs ps objs K 0 [] P) as L.
    destruct (map_loop K 0 [] objs) as [[m|l]| |]; try discriminate.
    destruct L as [F [N _]]. unfold map_create in H.
    destruct (first_error l) eqn:Fe; [discriminate|]. inversion H; subst.
    exists ps, (k_self K), (sound_exprs l). repeat (split; [first [assumption|reflexivity]|]). now apply entry_vals_ok.
  - destruct (map_loop_no_pairs objs K 0 [] P Od) as [[m E]|[E _]]; rewrite E in H; discriminate.
Qed.
Print Assumptions C22_map_only_if.

(** Otherwise the call returns an error, except that it does not return if some
    value has a type without literals. *)
Theorem C22_map_rejected_partial : forall K objs,
  (forall ps, pairs_of objs = Some ps -> ~ (NoDup (map fst ps) /\ Forall (fun p => exists e, stands_for (snd p) e) ps)) ->
  (exists t m, new_map K objs = Returns (GErr t m))
  \/ (new_map K objs = Diverges /\ Exists unsupported objs).
Proof.
  intros K objs H. unfold new_map.
  destruct (Nat.odd (length objs)) eqn:Od; [left; do 2 eexists; reflexivity|].
  destruct (pairs_of objs) as [ps|] eqn:P.
  - pose proof (map_loop_pairs ps objs K 0 [] P) as L. specialize (H ps eq_refl).
    destruct (map_loop K 0 [] objs) as [[m|l]| |].
    + left. do 2 eexists. reflexivity.
    + destruct L as [F [N _]]. unfold map_create. destruct (first_error l) eqn:Fe; [left; do 2 eexists; reflexivity|].
      exfalso. apply H. split; [assumption|].
      pose proof (entry_vals_ok ps l F Fe) as Fo. clear - Fo. induction Fo as [|p e ps es [k [x [_ S]]] _ IH]; constructor; eauto.
    + contradiction.
    + right. split; [reflexivity|]. destruct L as [p [Hp Hu]].
      now apply pairs_unsupported with ps p.
  - destruct (map_loop_no_pairs objs K 0 [] P Od) as [[m E]|[E U]]; rewrite E; [left; do 2 eexists; reflexivity|now right].
Qed.
Print Assumptions C22_map_rejected_partial.

(** The error reported is the one of the first value that carries one. *)
Theorem C22_value_error_reported : forall K objs before key v m after,
  pairs_of objs = Some (before ++ (key, v) :: after)%list -> NoDup (map fst (before ++ (key, v) :: after)) ->
  Forall (fun p => exists e, stands_for (snd p) e) before -> carries v m ->
  Forall (fun p => ~ unsupported (snd p)) after ->
  exists t, new_map K objs = Returns (GErr t m).
Proof.
  intros K objs before key v m after P N V C U. unfold new_map. rewrite (pairs_even objs _ P).
  pose proof (map_loop_pairs _ objs K 0 [] P) as H.
  destruct (map_loop K 0 [] objs) as [[m'|l]| |].
  - exfalso. apply H. split; [assumption|]. intros p _ [].
  - destruct H as [F _]. unfold map_create.
    assert (E : first_error l = Some m).
    { clear - F V C. revert l F. induction V as [|p before [e S] V IH]; intros l F.
      - cbn in F. inversion F as [|? g ? ? Hg _]; subst. destruct g as [e|t m']; cbn in Hg.
        + destruct Hg as [k [x [_ S]]]. exfalso. exact (stands_not_carries _ _ _ S C).
        + cbn. destruct v; cbn in C, Hg; try contradiction; [congruence|]. destruct g; [contradiction|congruence].
      - cbn in F. inversion F as [|? g ? l' Hg F']; subst. destruct g as [e'|t m']; cbn in Hg |- *.
        + now apply IH.
        + exfalso. exact (stands_not_carries _ _ _ S Hg). }
    rewrite E. eexists. reflexivity.
  - contradiction.
  - exfalso. destruct H as [p [Hp Hu]]. apply in_app_or in Hp. destruct Hp as [Hp|[<-|Hp]].
    + rewrite Forall_forall in V. destruct (V p Hp) as [e S]. exact (stands_not_unsupported _ _ S Hu).
    + exact (carries_not_unsupported _ _ C Hu).
    + rewrite Forall_forall in U. now apply (U p).
Qed.
Print Assumptions C22_value_error_reported.

Definition args1 : list any := [AString "name"; AString "O'Hara"; AString "a b"; AInt 7; AString "p"; AExpr (GOk (EParam "kp" "x"))].
Example C22_case : exists e, new_map K0 args1 = Returns (GOk e)
  /\ text (print env0 e) = "{name: 'O\'Hara', `a b`: 7, p: $x}".
Proof. eexists. split; reflexivity. Qed.
Example C22_case_hyps : exists ps, pairs_of args1 = Some ps /\ NoDup (map fst ps)
  /\ Forall (fun p => exists e, stands_for (snd p) e) ps.
Proof.
  eexists. split; [reflexivity|]. split.
  - repeat constructor; cbn; intuition discriminate.
  - repeat constructor; eexists; constructor.
  Unshelve. all: exact "".
Qed.
Example C22_case_duplicate : new_map K0 [AString "a"; AInt 1; AString "a"; AInt 2] = Returns (GErr TOther "duplicate key").
Proof. reflexivity. Qed.
Example C22_case_error : new_map K0 [AString "a"; AInt 1; AString "b"; AExpr (GErr TProperty "boom")] = Returns (GErr TOther "boom").
Proof. reflexivity. Qed.

(** ** C23 *)

(** A projection that is not an error has exactly one entry for every item the
    arguments denote, in order, and no explicit key is repeated.  Left out:
    empty strings (see below) and properties that carry errors (see below). *)
Theorem C23_entries_partial : forall K km n content k n' km' es,
  Forall go_typed content -> ~ In (AString "") content -> (forall m, ~ In (AExpr (GErr TProperty m)) content) ->
  projection_create K km (GOk n) content = Proj k n' km' es ->
  n' = n /\ exists l, items content l /\ Forall2 written_as l es /\ NoDup (explicit_keys content).
Proof.
  intros K km n content k n' km' es T S B H. cbn in H.
  destruct (new_content K 0 [] content) as [es'| |m] eqn:E; inversion H; subst. split; [reflexivity|].
  apply (new_content_items (length content)) in E; [|lia|].
  - destruct E as [l [I1 [I2 [I3 _]]]]. eauto.
  - rewrite Forall_forall in *. intros v Hv. split; [now apply T|]. split; [|intros m]; intros ->; [now apply S|now apply (B m)].
Qed.
Print Assumptions C23_entries_partial.

(** Every list of items whose explicit keys are different is accepted. *)
Theorem C23_accepted : forall K km n content l,
  items content l -> NoDup (explicit_keys content) ->
  exists k es l', projection_create K km (GOk n) content = Proj k n km es
               /\ Forall2 same_item l l' /\ Forall2 written_as l' es.
Proof.
  intros K km n content l I N.
  destruct (items_new_content content l I K 0 [] N) as [es [l' [E [F1 F2]]]]; [intros k _ []|].
  exists (k_self K), es, l'. cbn. rewrite E. split; [reflexivity|]. split; assumption.
Qed.
Print Assumptions C23_accepted.

(** A repeated explicit key is an error. *)
Theorem C23_repeated_key_rejected : forall K km n content,
  Forall go_typed content -> ~ In (AString "") content -> (forall m, ~ In (AExpr (GErr TProperty m)) content) ->
  ~ NoDup (explicit_keys content) -> projection_expr (projection_create K km (GOk n) content) = None.
Proof.
  intros K km n content T S B N.
  destruct (projection_create K km (GOk n) content) as [k n' km' es| |m] eqn:E; try reflexivity.
  exfalso. apply N. eapply C23_entries_partial in E; try eassumption. destruct E as [_ [l [_ [_ H]]]]. exact H.
Qed.
Print Assumptions C23_repeated_key_rejected.

(** Extending a projection appends the items of the new arguments. *)
Theorem C23_and_appends_partial : forall K km k n km0 es content k' n' km' es',
  Forall go_typed content -> ~ In (AString "") content -> (forall m, ~ In (AExpr (GErr TProperty m)) content) ->
  projection_and K km (Proj k n km0 es) content = Proj k' n' km' es' ->
  n' = n /\ exists l added, es' = (es ++ added)%list /\ items content l /\ Forall2 written_as l added
                         /\ NoDup (explicit_keys content).
Proof.
  intros K km k n km0 es content k' n' km' es' T S B H. cbn in H.
  destruct (new_content K 0 [] content) as [es1| |m] eqn:E; inversion H; subst. split; [reflexivity|].
  apply (new_content_items (length content)) in E; [|lia|].
  - destruct E as [l [I1 [I2 [I3 _]]]]. exists l, es1. auto.
  - rewrite Forall_forall in *. intros v Hv. split; [now apply T|]. split; [|intros m]; intros ->; [now apply S|now apply (B m)].
Qed.
Print Assumptions C23_and_appends_partial.

(** An error of the value of a key is reported, whatever stands before and after
    it, and so is an argument that is neither a string nor an expression. *)
Definition item_argument (v : any) : Prop := (exists s, v = AString s) \/ (exists g, v = AExpr g) \/ exists n, v = ANamed (Some n).
Lemma failed_stays : forall x m, exists m', push x (Failed m) = Failed m'.
Proof. intros [e| |m0] m; cbn; eauto. Qed.
Lemma failing_tail : forall content, (forall K i seen, exists m, new_content K i seen content = Failed m) -> (forall g, content_at (hd ANil content) <> CExpr g) ->
  forall before K i seen, exists m, new_content K i seen (before ++ content) = Failed m.
Proof.
  intros content F N. assert (G : forall n before, length before <= n -> forall K i seen, exists m, new_content K i seen (before ++ content) = Failed m).
  { induction n as [|n IH]; intros [|v before] L K i seen; cbn [app]; try apply F; [cbn in L; lia|]. cbn [length] in L. cbn [new_content].
    destruct (content_at v) as [s|g|].
    - destruct (IH before ltac:(lia) K (S i) seen) as [m R]. destruct before as [|v' before]; cbn [app] in *.
      + destruct content as [|w content]; [rewrite R; apply failed_stays|]. destruct (content_at w) as [s'|g|] eqn:W; try (rewrite R; apply failed_stays).
        exfalso. destruct (N g W).
      + destruct (content_at v') as [s'|g|] eqn:W; try (rewrite R; apply failed_stays).
        destruct (IH before ltac:(cbn in L; lia) K (S i) (if String.eqb s "" then seen else s :: seen)) as [m' R']. rewrite R'. apply failed_stays.
    - destruct (IH before ltac:(lia) K (S i) seen) as [m R]. rewrite R. apply failed_stays.
    - eauto. }
  intros before. apply (G (length before)). lia.
Qed.
Theorem C23_errors_reported : forall K km n before after,
  (forall key t m, key <> "" -> t <> TAsterisk -> exists m', projection_create K km n (before ++ AString key :: AExpr (GErr t m) :: after) = ProjErr m')
  /\ (forall v, ~ item_argument v -> exists m', projection_create K km n (before ++ v :: after) = ProjErr m').
Proof.
  intros K km n before after. split.
  - intros key t m Nk Nt. destruct n as [n|t' m']; [|now exists m']. cbn [projection_create].
    destruct (failing_tail (AString key :: AExpr (GErr t m) :: after)) with (before := before) (K := K) (i := 0) (seen := @nil string) as [m' R]; [|cbn; congruence|rewrite R; now exists m'].
    intros K' i seen. cbn [new_content content_at]. unfold make_entry. apply String.eqb_neq in Nk. rewrite Nk.
    destruct (known key seen); [eexists; reflexivity|]. destruct t; try (now destruct Nt); eexists; reflexivity.
  - intros v N. destruct n as [n|t' m']; [|now exists m']. cbn [projection_create].
    assert (C : content_at v = CNone).
    { destruct v as [|s| | | | |g|[x|]|]; try reflexivity; exfalso; apply N; [left|right; left|right; right]; now eexists. }
    destruct (failing_tail (v :: after)) with (before := before) (K := K) (i := 0) (seen := @nil string) as [m' R]; [|cbn; congruence|rewrite R; now exists m'].
    intros K' i seen. cbn [new_content]. rewrite C. eauto.
Qed.
Print Assumptions C23_errors_reported.
Example C23_case_error : exists m, projection_create K0 "km" (GOk (ESym "n" "n")) [AExpr (GErr TAliased "no alias"); AString "a"; AExpr (GErr TOther "boom")] = ProjErr m.
Proof. eexists. reflexivity. Qed.

(** Errors are kept: of the projected element, and of the projection extended. *)
Theorem C23_errors_kept : forall K km t m content,
  projection_create K km (GErr t m) content = ProjErr m /\ projection_and K km (ProjErr m) content = ProjErr m.
Proof. split; reflexivity. Qed.
Print Assumptions C23_errors_kept.

Definition n0 : expr := ESym "sn" "n".
Definition content1 : list any :=
  [AString "name"; AString "total"; AExpr (GOk (EFun "f" "sum" "fa" [EProp "p" (ESym "s2" "x") (ELookup "pl" "v")]));
   AExpr (GOk (EAsterisk "ast")); ANamed (Some ("sm", "m")); AExpr (GOk (EAlias "al" "al2" (EProp "p2" n0 (ELookup "pl2" "age")) "years"))].
Example C23_case : exists k km es, projection_create K0 "km" (GOk n0) content1 = Proj k n0 km es
  /\ text (print env0 (EMapProj k n0 (EMap km es))) = "n{.name, total: sum(x.v), .*, m, years: n.age}".
Proof. do 3 eexists. split; reflexivity. Qed.
Example C23_case_hyps : Forall go_typed content1 /\ ~ In (AString "") content1
  /\ (forall m, ~ In (AExpr (GErr TProperty m)) content1) /\ NoDup (explicit_keys content1).
Proof.
  split; [repeat constructor|]. split; [cbn; intuition discriminate|].
  split; [cbn; intuition discriminate|]. cbn. repeat constructor. intuition.
Qed.

(** The keys of a projection and of its extension may repeat. *)
Theorem C23_and_repeats_keys_refuted : exists K km p q,
  projection_create K km (GOk n0) [AString "a"; AExpr (GOk (EParam "k1" "x"))] = p
  /\ projection_and K km p [AString "a"; AExpr (GOk (EParam "k2" "y"))] = q
  /\ exists e, projection_expr q = Some e /\ text (print env0 e) = "n{a: $x, a: $y}".
Proof. exists K0, "km". do 2 eexists. split; [reflexivity|]. split; [reflexivity|]. eexists. split; reflexivity. Qed.
Print Assumptions C23_and_repeats_keys_refuted.

(** So may an explicit key and an alias. *)
Theorem C23_alias_repeats_key_refuted : exists K km e,
  projection_expr (projection_create K km (GOk n0)
    [AString "a"; AExpr (GOk (EParam "k1" "x")); AExpr (GOk (EAlias "k2" "k3" (EParam "k3" "y") "a"))]) = Some e
  /\ text (print env0 e) = "n{a: $x, a: $y}".
Proof. exists K0, "km". eexists. split; reflexivity. Qed.
Print Assumptions C23_alias_repeats_key_refuted.

(** An empty key is dropped without error: Project("", x) is Project(x). *)
Theorem C23_empty_key_refuted : forall K km k x,
  projection_create K km (GOk n0) [AString ""; AExpr (GOk (ESym k x))]
  = projection_create K km (GOk n0) [AExpr (GOk (ESym k x))].
Proof. reflexivity. Qed.
Print Assumptions C23_empty_key_refuted.

(** The error of a property given as an item is lost: the projection has the
    item [.] instead. *)
Theorem C23_property_error_refuted : exists K km m e,
  projection_expr (projection_create K km (GOk n0) [AExpr (GErr TProperty m)]) = Some e
  /\ text (print env0 e) = "n{.}".
Proof. exists K0, "km", "boom". eexists. split; reflexivity. Qed.
Print Assumptions C23_property_error_refuted.
