(** The tokens of printed statements. *)

From Coq Require Import Ascii String List ZArith Bool Lia.
From Verif Require Import GoStr Escape Num VTree SpecLex SpecNum SpecSpace SpecTokens EscapeProofs GoStrProofs TokenProofs TokenTexts
  Ast SpecDoc SpecPrint SpecShape PrintProofs TokenDocs.
Import ListNotations.
Open Scope string_scope.

Section Printed.
Context (E : env) (NS : no_space_in_names E) (GD : self_contained E (e_guid E)) (K : key -> Prop) (SH : shared_parts E K).

Notation fit := (fits E K).

(** Fixed texts. *)
Ltac lex_fixed :=
  let b := fresh "b" in let tb := fresh "tb" in let L := fresh "L" in
  intros b tb L; cbn [append app];
  repeat first [exact L | eapply lx_skip; [vm_compute; reflexivity|] | eapply lx_tok; [vm_compute; reflexivity|]].
Ltac begin_fixed := cbn [begins]; first [exact I | apply strong_by; [cbn; tauto|discriminate] | exact dots_strong].
Ltac literally s := lazymatch s with EmptyString => idtac | String _ ?r => literally r end.
Ltac fixed_at st :=
  match goal with |- fits _ _ _ _ (Txt ?s) =>
    literally s;
    let x := eval vm_compute in (tokens E s) in
    match x with Some ?ts => apply (fits_txt E K true st s ts); [lex_fixed|begin_fixed] end
  end.
Ltac fixed := first [fixed_at Strong | fixed_at Any].

Lemma fit_word : forall s, is_identifier E s = true -> fit false Any (Txt s).
Proof. intros s H. eapply fits_txt; [now apply word_soft|exact I]. Qed.

Lemma fit_contained : forall s, self_contained E s -> fit false Any (Txt s).
Proof. intros s H. apply contained_soft in H. destruct H as [ts H]. eapply fits_txt; [exact H|exact I]. Qed.

Lemma fit_resolve : forall n, fit false Any (Txt (resolve E n)).
Proof.
  intros n. unfold resolve. destruct (String.eqb n ""); [now apply fit_contained|].
  eapply fits_txt; [apply (name_soft E NS)|exact I].
Qed.
Lemma fit_name : forall n, fit false Any (Txt (escape_if_necessary E n)).
Proof. intros n. eapply fits_txt; [apply (name_soft E NS)|exact I]. Qed.
Lemma fit_empty : fit true Led (Txt "").
Proof. eapply fits_txt; [apply hard_nil|apply led_nil]. Qed.
Lemma fit_lookup : forall n, n <> "" -> fit false Led (Txt (lookup_text E n)).
Proof.
  intros n H. destruct (lookup_exists E NS n H) as [ts L]. eapply fits_txt; [exact L|]. right. now apply lookup_strong.
Qed.
Lemma fit_param : forall n, self_contained E n -> fit false Any (Txt ("$" ++ n)).
Proof.
  intros n H. apply contained_soft in H. destruct H as [ts H]. eapply fits_txt with (h := false) (ts := (Mark "$" :: ts)%list); [|exact I].
  apply (hard_soft_app E "$" [Mark "$"] n ts); [apply one_hard; reflexivity|exact H].
Qed.
Lemma fit_number : forall n, (0 <= n_mant n)%Z -> fit false Any (Txt (number_text n)).
Proof. intros n H. eapply fits_txt; [now apply number_soft|exact I]. Qed.
Lemma fit_literal : forall s, fit true Any (Txt (string_literal s)).
Proof. intros s. eapply fits_txt; [apply literal_hard|exact I]. Qed.
Lemma fit_types : forall v, fit false Led (Txt (rel_types_text v)).
Proof. intros v. destruct (types_exist E v) as [ts H]. eapply fits_txt; [exact H|apply types_led]. Qed.
Lemma fit_length : forall u lo hi, fit false Led (Txt (rel_length_text u lo hi)).
Proof. intros u lo hi. destruct (length_exists E u lo hi) as [ts H]. eapply fits_txt; [exact H|apply length_led]. Qed.
Lemma fit_arrow : fit false Strong (Txt "->").
Proof. eapply fits_txt; [apply arrow_soft|]. apply strong_by; [cbn; tauto|discriminate]. Qed.

(** A fixed text whose last token is a word. *)
Lemma fit_ending : forall st p w, fit true st (Txt p) -> begins st p -> is_identifier E w = true -> begins st (p ++ w) -> fit false st (Txt (p ++ w)).
Proof.
  intros st p w [_ F] B W B2. destruct (F nothing_written (Forall_nil _)) as (ts & _ & L & _ & _).
  cbn [pieces fst glue lexed] in L. rewrite sapp_nil_r in L.
  eapply fits_txt with (h := false) (ts := (ts ++ [Word w])%list); [|exact B2]. apply hard_soft_app; [exact L|now apply word_soft].
Qed.
Ltac ending p w :=
  match goal with |- fits _ _ _ _ (Txt ?s) => change s with (p ++ w) end;
  apply fit_ending; [fixed_at Strong|begin_fixed|vm_compute; reflexivity|begin_fixed].

Lemma fit_infix : forall o, infix o = true -> fit true Strong (print_op E o).
Proof.
  intros o H. unfold print_op. apply fits_shared_not; [apply SH|]. destruct o; try discriminate H; cbn [op_word]; fixed.
Qed.
Lemma fit_no_op : forall o, o = SetLabel \/ o = RemoveLabel -> fit true Led (print_op E o).
Proof. intros o H. unfold print_op. apply fits_shared_not; [apply SH|]. destruct H; subst; apply fit_empty. Qed.
Lemma fit_postfix : forall o, o = IsNull \/ o = IsNotNull -> fit false Strong (print_op E o).
Proof.
  intros o H. unfold print_op. apply fits_shared_not; [apply SH|]. destruct H; subst; cbn [op_word]; [ending " IS " "NULL"|ending " IS NOT " "NULL"].
Qed.
Lemma fit_not : fit true Any (print_op E Not).
Proof. unfold print_op. apply fits_shared_not; [apply SH|]. cbn [op_word]. fixed. Qed.

Lemma fit_label : forall l, ~ K (fst l) -> fit false Led (print_label l).
Proof.
  intros l N. unfold print_label. apply fits_shared_not; [exact N|]. destruct (label_exists E (snd l)) as [ts H].
  eapply fits_txt; [exact H|apply label_led].
Qed.

Lemma fit_led_list : forall ds, Forall (fit false Led) ds -> fit false Led (Cat ds).
Proof.
  induction 1 as [|d ds F _ IH]; [eapply fits_soft, fits_cat_nil|]. eapply fits_cat_cons; [exact F|exact IH|reflexivity].
Qed.
Lemma fit_labels : forall ls, no_label_aliased K ls -> fit false Led (Cat (map print_label ls)).
Proof. intros ls H. apply fit_led_list. induction H; constructor; [now apply fit_label|assumption]. Qed.

Lemma fit_maybe_led : forall o, Forall (fun e => fit false Led (print E e)) (opt_list o) -> fit false Led (Cat (maybe (option_map (print E) o))).
Proof. intros [e|] H; apply fit_led_list; cbn in *; [inversion H; subst|]; auto. Qed.
Lemma fit_one : forall d, fit false Any d -> fit false Any (Cat [d]).
Proof. intros d H. eapply fits_cat_cons; [exact H|apply fits_cat_nil|reflexivity]. Qed.
Lemma fit_maybe_any : forall o, Forall (fun e => fit false Any (print E e)) (opt_list o) -> fit false Any (Cat (maybe (option_map (print E) o))).
Proof.
  intros [e|] H; cbn [option_map maybe]; [apply fit_one; now inversion H|]. eapply fits_any, fits_cat_nil.
Qed.

Lemma fit_listing : forall es, Forall (fun e => fit false Any (print E e)) es -> fit false Any (listing (print E) es).
Proof.
  intros es H. apply fits_commas. induction H as [|e es He _ IH]; cbn [flat_map]; [constructor|].
  destruct (silent e); [exact IH|]. constructor; assumption.
Qed.

Lemma fit_literals : forall ds, Forall (fit false Any) ds -> fit false Any (literals ds).
Proof.
  intros [|d ds] H; cbn [literals]; [eapply fits_any, fit_empty|]. inversion H as [|? ? Hd Hs]; subst.
  assert (T : fit false Led (Cat (flat_map (fun x => [Txt ", "; x]) ds))).
  { clear H Hd d. induction Hs as [|d ds Hd _ IH]; cbn [flat_map app]; [eapply fits_soft, fits_cat_nil|].
    eapply (fits_led E K false). eapply fits_cat_cons; [fixed|eapply fits_cat_cons; [exact Hd|exact IH|reflexivity]|reflexivity]. }
  eapply fits_cat_cons; [exact Hd|exact T|reflexivity].
Qed.

Ltac run :=
  lazymatch goal with
  | |- fits _ _ _ _ (Cat []) => apply fits_cat_nil
  | |- fits _ _ _ _ (Cat (_ :: _)) => eapply fits_cat_cons; [run|run|reflexivity]
  | |- fits _ _ _ _ (Cat (_ ++ _)) => eapply fits_cat_app; [run|run|reflexivity]
  | |- fits _ _ _ _ (Shared _ _) => first [eassumption | eapply fits_shared_not; [eassumption|run; fail] | eapply fits_shared; run]
  | |- fits _ _ _ _ (print_op _ _) => first [eassumption | apply fit_infix; first [reflexivity|assumption] | apply fit_not]
  | |- fits _ _ _ _ (Txt "->") => apply fit_arrow
  | |- _ => first [fixed | eassumption | apply fit_resolve | apply fit_name | apply fit_types | apply fit_length
                  | apply fit_number; assumption | apply fit_literal | apply fit_param; assumption
                  | apply fit_contained; assumption | apply fit_lookup; assumption | apply fit_labels; assumption]
  end.
Ltac any := eapply fits_any.
Ltac sh := eapply fits_shared.

Definition placed (e : expr) : Prop :=
  shaped E K e -> fit false Any (print E e) /\ (attached K e -> fit false Led (print E e)).

Lemma placed_any : forall e, placed e -> shaped E K e -> fit false Any (print E e).
Proof. intros e P S. now apply P. Qed.
Lemma placed_led : forall e, placed e -> shaped E K e -> attached K e -> fit false Led (print E e).
Proof. intros e P S. now apply P. Qed.
Lemma placed_all : forall es, Forall placed es -> Forall (shaped E K) es -> Forall (fun e => fit false Any (print E e)) es.
Proof. intros es P S. rewrite Forall_forall in *. intros e I. apply placed_any; auto. Qed.
Lemma placed_all_led : forall es, Forall placed es -> Forall (shaped E K) es -> Forall (attached K) es -> Forall (fun e => fit false Led (print E e)) es.
Proof. intros es P S A. rewrite Forall_forall in *. intros e I. apply placed_led; auto. Qed.

Lemma placed_if_led : forall es, Forall placed es -> Forall (shaped E K) es -> Forall (fun e => attached K e -> fit false Led (print E e)) es.
Proof. intros es P S. rewrite Forall_forall in *. intros e I A. apply placed_led; auto. Qed.

Lemma by_led : forall k d (A : Prop), (A -> ~ K k) -> fit false Led d -> fit false Any (Shared k d) /\ (A -> fit false Led (Shared k d)).
Proof. intros k d A N F. split; [sh; exact F|]. intros H. apply fits_shared_not; auto. Qed.

Ltac split_all :=
  repeat match goal with
  | H : Forall _ (_ :: _) |- _ => inversion H; clear H; subst
  | H : Forall _ (_ ++ _) |- _ => apply Forall_app in H; destruct H
  | H : Forall _ [] |- _ => clear H
  | H : _ /\ _ |- _ => destruct H
  end.
Ltac kids :=
  repeat match goal with
  | P : placed ?e, S : shaped E K ?e, A : attached K ?e |- _ => pose proof (placed_led e P S A); clear P
  | P : placed ?e, S : shaped E K ?e |- _ => destruct (P S); clear P
  | P : Forall placed ?e, S : Forall (shaped E K) ?e, A : all_attached K ?o |- _ => unify e (opt_list o); pose proof (fit_maybe_led o (placed_all_led _ P S A)); clear P
  | P : Forall placed (opt_list ?e), S : Forall (shaped E K) (opt_list ?e) |- _ => pose proof (placed_all _ P S); pose proof (fit_maybe_any e (placed_all _ P S)); clear P
  | P : Forall placed ?e, S : Forall (shaped E K) ?e |- _ => pose proof (fit_listing e (placed_all _ P S)); pose proof (placed_all _ P S); pose proof (placed_if_led _ P S); clear P
  end.

Lemma print_fits : forall e, placed e.
Proof.
  apply expr_ind'. intros e P S. inversion S as [e' O C]. subst e'. clear S. destruct SH as (_ & Kn & Kd & Kdi).
  destruct e; cbn [children own_shape opt_list] in *; split_all; kids; cbn [print];
    try (split; [sh|intros []]; try any; run; fail);
    try (apply by_led; [cbn [attached]; auto|]; eapply (fits_led E K); run; fail).
  - (* booleans *) split; [sh|intros []]. destruct b; apply fit_word; reflexivity.
  - (* null *) split; [sh|intros []]. apply fit_word; reflexivity.
  - (* list literal *) split; [sh|intros []]. assert (L : fit false Any (literals (map (print E) items))).
    { apply fit_literals. rewrite Forall_map. assumption. } run.
  - (* property lookup *) apply by_led; [auto|now apply fit_lookup].
  - (* operation *) split; [|intros []]. destruct O as [O|[O A]].
    + destruct (in_parens o); sh; run.
    + pose proof (fit_no_op o O). match goal with L : attached K e2 -> _ |- _ => specialize (L A) end. clear H; destruct O; subst o; cbn [in_parens]; sh; run.
  - (* comparison *) split; [|intros []]. destruct O as [O|[[-> ->]|[O ->]]]; cbn [option_map maybe app]; sh.
    + run.
    + run.
    + pose proof (fit_postfix o O). run.
  - (* compound condition *) split; [|intros []]. destruct cs as [|c [|c2 cs]].
    + any. apply fit_empty.
    + match goal with H : Forall _ [c] |- _ => inversion H; subst end.
      match goal with H : Forall (fun e => fit _ _ _) [c] |- _ => now inversion H end.
    + assert (T : fit false Led (Cat (flat_map (fun d => [print_op E (match d with ECompound _ o' _ => o' | _ => o end); print E d]) (c2 :: cs)))).
      { assert (F : Forall (fun e => fit false Any (print E e)) (c2 :: cs)) by (match goal with H : Forall (fun e => fit _ _ _) (c :: _) |- _ => now inversion H end).
        assert (X : Forall (shaped E K) (c2 :: cs)) by (now inversion C). revert X F. generalize (c2 :: cs). clear - O SH.
        induction l as [|d l IH]; intros X F; cbn [flat_map]; [eapply fits_soft, fits_cat_nil|].
        inversion X as [|? ? X1 X2]; inversion F as [|? ? F1 F2]; subst. specialize (IH X2 F2).
        assert (OP : fit true Strong (print_op E (match d with ECompound _ o' _ => o' | _ => o end))).
        { apply fit_infix. inversion X1 as [d' Od _]; subst d'. destruct d; auto. }
        eapply (fits_led E K false). cbn [app]. eapply fits_cat_cons; [exact OP|eapply fits_cat_cons; [exact F1|exact IH|reflexivity]|reflexivity]. }
      assert (F : fit false Any (print E c)) by (match goal with H : Forall (fun e => fit _ _ _) (c :: _) |- _ => now inversion H end).
      set (rest := c2 :: cs) in *. sh. eapply fits_cat_cons; [fixed|eapply fits_cat_cons; [exact F|eapply fits_cat_cons; [exact T|run|reflexivity]|reflexivity]|reflexivity].
  - (* boolean function *) split; [assumption|intros []].
  - (* alias *) split; [|intros []]. sh. eapply fits_aliased; [exact O|apply (name_soft E NS)|eassumption].
  - (* list operator *) split; [|intros []]. destruct dots; [sh; cbn [app]; run|].
    match goal with H : false = false -> _ |- _ => destruct (H eq_refl) as [-> | ->] end; cbn [option_map maybe app]; sh; run.
  - (* list comprehension *) split; [|intros []].
    destruct def; cbn [opt_list option_map maybe app] in *; split_all; sh; run.
  - (* subquery *) split; [|intros []]. destruct optional; sh; cbn [app]; run.
  - (* labels *) apply by_led; [auto|]. now apply fit_labels.
  - (* node *) 
    assert (A : attached K (ENode k name labels props) -> ~ K k) by auto.
    destruct name as [[kn x]|].
    + destruct (proj1 (contained_soft E x) ltac:(eauto)) as [ts T].
      assert (F : fit true Strong (Once k x (Cat ([Shared kn (Txt (resolve E x))] ++ map print_label labels ++ maybe (option_map (print E) props))))).
      { eapply fits_once; [exact T|]. pose proof (fit_labels labels ltac:(assumption)). cbn [app]. run. }
      split; [sh; exact F|]. intros N. apply fits_shared_not; [auto|]. eapply fits_led, F.
    + pose proof (fit_labels labels ltac:(assumption)).
      assert (F : fit true Strong (Cat [Txt "("; Cat ([] ++ map print_label labels ++ maybe (option_map (print E) props)); Txt ")"])).
      { cbn [app]. run. }
      split; [sh; exact F|]. intros N. apply fits_shared_not; [auto|]. eapply fits_led, F.
  - (* details *)
    assert (A : attached K (EDetails k d name types len props) -> ~ K k) by auto.
    set (parts := (maybe (option_map (print E) name)
                    ++ match types with Some (kt, v) => [Shared kt (Txt (rel_types_text v))] | None => [] end
                    ++ match len with Some (kl, u, lo, hi) => [Shared kl (Txt (rel_length_text u lo hi))] | None => [] end
                    ++ maybe (option_map (print E) props))%list).
    assert (PT : fit false Any (Cat parts)).
    { assert (T1 : fit false Led (Cat (match types with Some (kt, v) => [Shared kt (Txt (rel_types_text v))] | None => [] end))).
      { apply fit_led_list. destruct types as [[kt v]|]; constructor; [|constructor]. apply fits_shared_not; [eauto|apply fit_types]. }
      assert (T2 : fit false Led (Cat (match len with Some (kl, u, lo, hi) => [Shared kl (Txt (rel_length_text u lo hi))] | None => [] end))).
      { apply fit_led_list. destruct len as [[[[kt u] lo] hi]|]; constructor; [|constructor]. apply fits_shared_not; [eauto|apply fit_length]. }
      unfold parts. run. }
    assert (IN : fit true Led (match parts with [] => Txt "" | _ => Cat [Txt "["; Cat parts; Txt "]"] end)).
    { clearbody parts. assert (B : fit true Strong (Cat [Txt "["; Cat parts; Txt "]"])) by run.
      destruct parts; [apply fit_empty|]. apply fits_led', B. }
    clearbody parts. apply by_led; [exact A|]. clear PT. revert IN. generalize (match parts with [] => Txt "" | _ => Cat [Txt "["; Cat parts; Txt "]"] end). intros inner IN. destruct d.
    + eapply (fits_led E K). run.
    + eapply (fits_led E K). run.
    + eapply (fits_led E K). run.
    + eapply fits_soft, IN.
  - (* chain *) split; [|intros []].
    assert (T : fit false Led (Cat (flat_map (fun p => [print E (fst p); print E (snd p)]) rels))).
    { apply fit_led_list.
      match goal with H : Forall (fun p => attached K (fst p) /\ _) rels, L : Forall (fun e => attached K e -> _) _ |- _ => revert L; clear - H; rename H into A end.
      induction A as [|p rels [A1 A2] _ IH]; intros L; cbn [flat_map app] in *; [constructor|].
      inversion L as [|? ? L1 L']; subst. inversion L' as [|? ? L2 L3]; subst. auto. }
    sh. run.
  - (* case *) split; [|intros []].
    assert (TB : fit false Led (Cat (flat_map (fun b : key * expr * expr => [Shared (fst (fst b)) (Cat [Txt " WHEN "; print E (snd (fst b)); Txt " THEN "]); print E (snd b)]) branches))).
    { match goal with H : Forall (fun b => ~ K (fst (fst b))) branches, L : Forall (fun e => fit _ _ _) (flat_map _ branches) |- _ => revert L; clear - H; rename H into A end.
      induction A as [|p bs A _ IH]; intros L; cbn [flat_map app] in *; [eapply fits_soft, fits_cat_nil|].
      inversion L as [|? ? L1 L']; subst. inversion L' as [|? ? L2 L3]; subst. specialize (IH L3). eapply (fits_led E K). run. }
    assert (TD : fit false Led (Cat (match default with Some x => [Shared (fst x) (Cat [Txt " ELSE "; print E (snd x)])] | None => [] end))).
    { destruct default as [[kd x]|]; [|eapply fits_soft, fits_cat_nil]. cbn [fst snd] in *. split_all.
      assert (~ K kd) by eauto. eapply (fits_led E K). run. }
    assert (TE : fit false Strong (Txt " END")) by (ending " " "END").
    destruct generic; cbn [app].
    + match goal with H : true = true -> _ |- _ => rewrite (H eq_refl) in * end. cbn [option_map maybe app].
      assert (TC : fit false Any (Txt "CASE")) by (apply fit_word; reflexivity). sh.
      eapply fits_cat_cons; [exact TC|eapply fits_cat_app; [exact TB|eapply fits_cat_app; [exact TD|eapply fits_cat_cons; [exact TE|apply fits_cat_nil|reflexivity]|reflexivity]|reflexivity]|reflexivity].
    + sh.
      eapply fits_cat_cons; [fixed|eapply fits_cat_app; [eassumption|eapply fits_cat_app; [exact TB|eapply fits_cat_app; [exact TD|eapply fits_cat_cons; [exact TE|apply fits_cat_nil|reflexivity]|reflexivity]|reflexivity]|reflexivity]|reflexivity].
  - (* sort item *) split; [|intros []]. destruct desc as [[|]|]; sh.
    + assert (TE : fit false Strong (Txt " DESC")) by (ending " " "DESC"). eapply fits_cat_cons; [eassumption| |].
      * eapply fits_cat_cons; [apply fits_shared_not; [assumption|exact TE]|apply fits_cat_nil|reflexivity].
      * reflexivity.
    + assert (TE : fit false Strong (Txt " ASC")) by (ending " " "ASC"). eapply fits_cat_cons; [eassumption| |].
      * eapply fits_cat_cons; [apply fits_shared_not; [assumption|exact TE]|apply fits_cat_nil|reflexivity].
      * reflexivity.
    + run.
Qed.

(** ** Queries *)

Lemma fit_expr : forall e, shaped E K e -> fit false Any (print E e).
Proof. intros e S. now apply print_fits. Qed.
Lemma fit_behind : forall o, shaped_behind E K o -> fit false Led (Cat (maybe (option_map (print E) o))).
Proof.
  intros o H. apply fit_maybe_led. unfold shaped_behind in H. rewrite Forall_forall in *. intros e I. destruct (H e I). now apply print_fits.
Qed.

Lemma fit_body : forall d b, shaped_body E K b -> fit false Any (print_body E d b).
Proof.
  intros d b [S H]. destruct SH as (_ & _ & _ & Kdi). apply Forall_app in H. destruct H as [H1 H]. apply Forall_app in H. destruct H as [H2 H3].
  apply fit_expr in S. apply fit_behind in H1, H2, H3. unfold print_body. destruct d; any; cbn [app]; run.
Qed.

Lemma fit_call : forall kn sp n,
  match sp with Some (ks, x) => ~ K ks /\ adjoin E x n | None => self_contained E n end ->
  fit false Any (Shared kn (Cat (match sp with Some (ks, x) => [Shared ks (Txt x)] | None => [] end ++ [Txt n]))).
Proof.
  intros kn [[ks x]|] n H; [|sh; apply fit_one; now apply fit_contained].
  destruct H as [N (tx & tn & Tx & Tn & A)]. eapply (fits_shared E K false Any). split; [intros m O; exact O|]. intros m O.
  assert (P : pieces (Cat [Shared ks (Txt x); Txt n]) m = ([x; n], m)).
  { cbn [pieces]. destruct (alias_of ks (introduced m)) eqn:Q; [destruct (okm_alias E K m ks _ O Q); contradiction|reflexivity]. }
  cbn [app]. rewrite P. cbn [fst snd glue tokens_each]. rewrite Tx, Tn. exists (tx ++ tn)%list. rewrite app_nil_r, sapp_nil_r.
  split; [reflexivity|]. split; [|split; [exact I|exact O]]. intros b tb Sb L. rewrite sapp_assoc, <- app_assoc.
  apply tokens_Lexes, A; [exact Sb|now apply Lexes_tokens].
Qed.

Definition placed_q (q : query) : Prop :=
  shaped_q E K q -> fit false Any (print_query E q) /\ (clause K q -> fit true Any (print_query E q)).

Lemma by_hard : forall k st d (A : Prop), (A -> ~ K k) -> fit true st d -> fit false Any (Shared k d) /\ (A -> fit true Any (Shared k d)).
Proof.
  intros k st d A N F. split; [sh; exact F|]. intros H. apply fits_shared_not; auto.
  eapply fits_cat_any, F.
Qed.

Lemma fit_clauses : forall qs, Forall placed_q qs -> Forall (clause K) qs -> Forall (shaped_q E K) qs ->
  fit true Any (Cat (map (print_query E) qs)).
Proof.
  intros qs P C S. induction qs as [|q qs IH]; cbn [map]; [eapply (fits_cat_any E K), fits_cat_nil|].
  inversion P; inversion C; inversion S; subst. specialize (IH ltac:(assumption) ltac:(assumption) ltac:(assumption)).
  eapply fits_cat_cons; [now apply H1|exact IH|reflexivity].
Qed.

Lemma print_query_fits : forall q, placed_q q.
Proof.
  apply query_ind'; intros; intro;
    match goal with S : shaped_q E K _ |- _ => inversion S; subst end; cbn [print_query clause];
    repeat match goal with
    | H : shaped_body _ _ ?b |- context [print_body E ?d _] => apply (fit_body d) in H
    | H : shaped _ _ _ |- _ => apply fit_expr in H
    | H : shaped_behind _ _ _ |- _ => apply fit_behind in H
    end.
  - (* match *) destruct o; eapply by_hard; auto; cbn [app]; run.
  - eapply by_hard; auto; run.
  - eapply by_hard; auto; cbn [app map]; run.
  - (* merge with actions *)
    match goal with P : Forall placed_q (_ :: _) |- _ => inversion P; subst end.
    match goal with P : Forall placed_q evs0, C : Forall (clause K) _, S : Forall (shaped_q E K) _ |- _ => pose proof (fit_clauses _ P C S) end.
    eapply by_hard; auto. rewrite app_nil_r. cbn [app map print_query]. run.
  - split; [sh|intros N; apply fits_shared_not; [exact N|]]; fixed_at Any.
  - (* action *) split.
    + destruct (H ltac:(assumption)) as [F _]. destruct c; sh; run.
    + intros [N C]. destruct (H ltac:(assumption)) as [_ F]. specialize (F C). apply fits_shared_not; [exact N|]. destruct c; run.
  - destruct d; eapply by_hard; auto; run.
  - eapply by_hard; auto; run.
  - eapply by_hard; auto; run.
  - eapply by_hard; auto; run.
  - eapply by_hard; auto; cbn [app]; run.
  - split; [sh; run|intros []].
  - match goal with H : match sp with _ => _ end |- _ => apply (fit_call kn) in H end.
    eapply by_hard; auto; cbn [app]; run.
  - (* subquery *) destruct (H ltac:(assumption)) as [F _]. eapply by_hard; auto. run.
  - (* single *) split; [|intros []].
    match goal with P : Forall placed_q cs, C : Forall (clause K) cs, S : Forall (shaped_q E K) cs |- _ => pose proof (fit_clauses _ P C S) end.
    destruct r as [r|]; cbn [option_map maybe app].
    + assert (F : fit false Any (print_query E r)) by (apply H0; [reflexivity|]; match goal with S : Forall _ (opt_list (Some r)) |- _ => now inversion S end).
      any. run.
    + any. run.
  - (* multi *) split; [|intros []]. destruct (H0 ltac:(assumption)) as [F _].
    assert (T : fit true Any (Cat (map (fun p : key * list query * query => Shared (fst (fst p)) (Cat (map (print_query E) (snd (fst p)) ++ [print_query E (snd p)]))) ps))).
    { match goal with H : forall k cs w, In (k, cs, w) ps -> _ |- _ => rename H into Q end. clear - H Q SH.
      induction H as [|[[k cs] w] ps [P1 P2] _ IH]; cbn [map].
      - eapply (fits_cat_any E K), fits_cat_nil.
      - destruct (Q k cs w (or_introl eq_refl)) as (N & C & S & Cw & Sw). cbn [fst snd] in *.
        pose proof (fit_clauses cs P1 C S). destruct (P2 Sw) as [_ Fw]. specialize (Fw Cw).
        specialize (IH ltac:(intros; eapply Q; right; eassumption)).
        eapply fits_cat_cons; [eapply fits_shared_not; [exact N|run]|exact IH|reflexivity]. }
    any. run.
  - (* union *) split; [|intros []]. destruct (H ltac:(assumption)) as [F _].
    assert (T : fit false Led (Cat (map (fun p : key * bool * query => Shared (fst (fst p)) (Cat [Txt (if snd (fst p) then " UNION ALL " else " UNION "); print_query E (snd p)])) qs))).
    { match goal with H : forall ku a x, In (ku, a, x) qs -> _ |- _ => rename H into Q end. clear - H0 Q SH.
      apply fit_led_list. induction H0 as [|[[ku a] x] qs P _ IH]; cbn [map]; constructor.
      - destruct (Q ku a x (or_introl eq_refl)) as [N Sx]. cbn [fst snd] in *. destruct (P Sx) as [Fx _].
        apply fits_shared_not; [exact N|]. destruct a; eapply (fits_led E K); run.
      - apply IH. intros; eapply Q; right; eassumption. }
    sh. run.
Qed.

End Printed.
