(** Proofs about function calls and operands of expressions. *)

From Coq Require Import Ascii String List ZArith Bool Arith Lia.
From Verif Require Import GoStr EscapeProofs Escape Num VTree Ast GoVal Maps SpecDoc SpecPrint DocProofs Patterns SpecPattern PatternProofs Cond Builder Exprs Functions SpecExpr SpecCalls.
Import ListNotations.
Open Scope string_scope.
Open Scope list_scope.

(** ** Texts of calls *)

Definition loud (es : list expr) : bool := forallb (fun e => negb (silent e)) es.

Lemma listing_loud : forall f es, loud es = true -> listing f es = Commas (map f es).
Proof.
  intros f es L. unfold listing. f_equal. induction es as [|e es IH]; [reflexivity|].
  cbn in L. apply andb_prop in L as [A B]. cbn. apply negb_true_iff in A. rewrite A. cbn. now rewrite (IH B).
Qed.

Lemma call_text : forall E k n ka es, loud es = true ->
  deq (plain (print E (EFun k n ka es))) (call_doc n false (map (shows E) es)).
Proof.
  intros E k n ka es L. cbn [print plain map]. rewrite listing_loud by exact L. cbn [plain]. rewrite map_map. unfold call_doc.
  apply deq_sym. apply (deq_empty [Txt n; Txt "("]).
Qed.

Lemma distinct_text : forall E k n ka e es, loud (e :: es) = true ->
  deq (plain (print E (EFun k n ka (EDistinct "" e :: es)))) (call_doc n true (map (shows E) (e :: es))).
Proof.
  intros E k n ka e es L. cbn [loud forallb] in L. apply andb_prop in L as [_ L].
  cbn [print plain map]. rewrite listing_loud by (cbn; exact L). cbn [plain map print]. rewrite map_map. unfold call_doc.
  apply leq_deq. apply leq_cons; [apply deq_refl|]. apply leq_cons; [apply deq_refl|].
  change (plain (print E e)) with (shows E e).
  set (l := map (shows E) es). change (map (fun x => plain (print E x)) es) with l.
  apply (leq_app [Commas (Cat [Txt "DISTINCT "; shows E e] :: l)] [Txt "DISTINCT "; Commas (shows E e :: l)] [Txt ")"] [Txt ")"]); [|apply leq_refl].
  split; intros m; cbn [wcat intros_l].
  - change (write (Txt "DISTINCT ") m) with ("DISTINCT ", m). cbv iota beta. rewrite !write_Commas, write_Cat. cbn [wcat].
    change (write (Txt "DISTINCT ") m) with ("DISTINCT ", m). cbv iota beta. destruct (write (shows E e) m) as [x m1].
    destruct (wrest l m1) as [y m2]. now rewrite !sapp_nil_r, sapp_assoc.
  - rewrite !intro_Commas. cbn [intros_l]. rewrite intro_Cat. reflexivity.
Qed.

Lemma given_some : forall v e, given v = Some e -> (exists i, v = Elem (Good e) i) /\ silent e = false.
Proof.
  intros v e H. unfold given in H. destruct v as [|[e'| | |] i]; try discriminate. destruct (silent e') eqn:S; [discriminate|].
  injection H as <-. eauto.
Qed.

Definition goods (vs : list value) (es : list expr) : Prop := Forall2 (fun v e => exists i, v = Elem (Good e) i) vs es.

Lemma all_given_some : forall vs es, all_given vs = Some es -> goods vs es /\ loud es = true.
Proof.
  induction vs as [|v vs IH]; intros es H; cbn in H.
  - injection H as <-. now repeat constructor.
  - destruct (given v) as [e|] eqn:G; [|discriminate]. destruct (all_given vs) as [es'|] eqn:A; [|discriminate]. injection H as <-.
    apply given_some in G as [G S]. destruct (IH es' eq_refl) as [IG IL]. split; [constructor; assumption|]. cbn. now rewrite S.
Qed.

Lemma goods_err : forall vs es, goods vs es -> first_err vs = Returns None.
Proof. induction 1 as [|v e vs es [i ->] H IH]; [reflexivity|exact IH]. Qed.
Lemma goods_parts : forall f vs es, goods vs es -> of_parts f vs = Good (f es).
Proof.
  intros f vs es G. unfold of_parts.
  replace (fold_right _ (Some []) vs) with (Some es); [reflexivity|].
  induction G as [|v e vs es [i ->] H IH]; [reflexivity|]. cbn in *. now rewrite <- IH.
Qed.
Lemma goods_first : forall vs es, goods vs es -> es <> [] -> first_missing vs = false.
Proof. destruct 1 as [|v e vs es [i ->] H]; [congruence|reflexivity]. Qed.

Lemma function_ok : forall ks n vs es, goods vs es -> es <> [] -> named_function_create ks n vs = Returns (made (Good (EFun (ks 0) n (ks 1) es))).
Proof.
  intros ks n vs es G N. unfold named_function_create. rewrite (goods_err _ _ G), (goods_first _ _ G N).
  unfold invocation. now rewrite (goods_parts _ _ _ G).
Qed.
Lemma distinct_ok : forall ks f v vs e es, goods (v :: vs) (e :: es) -> is_aggregate f = true ->
  create_distinct ks f (v :: vs) = Returns (made (Good (EFun (ks 0) (impl_name f) (ks 1) (EDistinct "" e :: es)))).
Proof.
  intros ks f v vs e es G A. unfold create_distinct. rewrite (goods_err _ _ G), (goods_first _ _ G), A by discriminate. cbn [negb].
  inversion G as [|? ? ? ? [i ->] G']; subst. unfold invocation. rewrite (goods_parts _ _ (EDistinct "" e :: es)); [reflexivity|].
  constructor; [|exact G']. eexists. reflexivity.
Qed.

Definition writes (E : env) (o : outcome value) (d : doc) : Prop :=
  exists e i, o = Returns (Elem (Good e) i) /\ forall m, transparent (print E e) m -> write (print E e) m = write d m.

Lemma writes_deq : forall E o e i d, o = Returns (Elem (Good e) i) -> deq (plain (print E e)) d -> writes E o d.
Proof. intros E o e i d -> D. exists e, i. split; [reflexivity|]. intros m T. rewrite plain_write by exact T. apply D. Qed.

Lemma function_writes : forall E ks n vs es, goods vs es -> loud es = true -> es <> [] ->
  writes E (named_function_create ks n vs) (call_doc n false (map (shows E) es)).
Proof. intros E ks n vs es G L N. eapply writes_deq; [rewrite (function_ok ks n vs es G N); reflexivity|]. now apply call_text. Qed.
Lemma distinct_writes : forall E ks f v vs e es, goods (v :: vs) (e :: es) -> loud (e :: es) = true -> is_aggregate f = true ->
  writes E (create_distinct ks f (v :: vs)) (call_doc (impl_name f) true (map (shows E) (e :: es))).
Proof. intros E ks f v vs e es G L A. eapply writes_deq; [rewrite (distinct_ok ks f v vs e es G A); reflexivity|]. now apply distinct_text. Qed.

Lemma good_one : forall e i, goods [Elem (Good e) i] [e].
Proof. intros. constructor; [eauto|constructor]. Qed.

Lemma percentile_range : forall p, between_0_and_1 p -> (below_zero (Finite p) || above_one (Finite p))%bool = false.
Proof.
  intros p (M & S & R). cbn [below_zero above_one]. apply orb_false_iff. split.
  - destruct S as [-> | ->]; [apply andb_false_r|reflexivity].
  - destruct (n_neg p); [reflexivity|]. cbn [negb andb]. destruct (Z.leb 0 (n_exp p)); apply Z.ltb_ge; exact R.
Qed.

Lemma fields_text : forall E k es, loud es = true -> deq (plain (print E (EMap k es))) (Cat [Txt "{"; Commas (map (shows E) es); Txt "}"]).
Proof. intros E k es L. cbn [print plain map]. rewrite listing_loud by exact L. cbn [plain]. rewrite map_map. apply deq_refl. Qed.

Lemma call_doc_deq : forall n d a b, deq a b -> deq (call_doc n d [a]) (call_doc n d [b]).
Proof.
  intros n d a b D. unfold call_doc. do 3 (apply deq_cat_cons; [apply deq_refl|]). apply deq_cat_cons; [|apply deq_refl].
  intros m. destruct (D m) as [X Y]. rewrite !write_Commas, !intro_Commas. cbn [intros_l wrest]. now rewrite X, Y.
Qed.

Lemma map_writes : forall E ks n k es,
  writes E (named_function_create ks n [map_value (MapOk k es)]) (call_doc n false [plain (print E (EMap k es))]).
Proof.
  intros E ks n k es. apply (function_writes E ks n [map_value (MapOk k es)] [EMap k es]); [constructor; [eexists; reflexivity|constructor]|reflexivity|discriminate].
Qed.

Lemma fn_writes : forall E ks K u d, intended E u = Some d -> well_called (Calling u) -> (forall v, u <> Of1 CollectDistinct v) ->
  writes E (fn_run ks K u) d.
Proof.
  intros E ks K u d I W ND. destruct u as [f v|vs|a b|disc di v p|a b|a b s|f n|g|g|t g|t s|t v|y m d'|y w d'|y q d'|y d'|t z]; cbn [intended fn_run] in *.
  - destruct (given v) as [e|] eqn:G; [|discriminate]. cbn in I. injection I as <-. apply given_some in G as [[i ->] S].
    assert (L : loud [e] = true) by (cbn; now rewrite S).
    destruct f; try (now destruct (ND (Elem (Good e) i))); cbn [fn1_name fst snd fn1_call fn1_distinct fn1_builtin];
      first [apply (function_writes E ks _ _ [e] (good_one e i) L); discriminate
            |match goal with |- writes _ (create_distinct _ ?f _) _ => exact (distinct_writes E ks f _ [] e [] (good_one e i) L eq_refl) end].
  - destruct vs as [|v vs]; [discriminate|]. destruct (all_given (v :: vs)) as [es|] eqn:G; [|discriminate]. injection I as <-.
    apply all_given_some in G as [G L]. apply (function_writes E ks "coalesce" _ es G L). inversion G. discriminate.
  - destruct (all_given [a; b]) as [es|] eqn:G; [|discriminate]. injection I as <-. apply all_given_some in G as [G L].
    inversion G as [|? ea ? ? [ia ->] G']; subst. inversion G' as [|? eb ? ? [ib ->] G'']; subst. inversion G''; subst.
    apply (function_writes E ks "distance" _ _ G L). discriminate.
  - destruct (given v) as [e|] eqn:G; [|discriminate]. injection I as <-. apply given_some in G as [[i ->] S].
    unfold percentile. cbn [value_err value_ok negb]. rewrite percentile_range by exact W.
    assert (L : loud [e; ENum (ks 2) p] = true) by (cbn; now rewrite S).
    assert (G : goods [Elem (Good e) i; float_value (ks 2) p] [e; ENum (ks 2) p]) by (constructor; [eauto|constructor; [eexists; reflexivity|constructor]]).
    change [shows E e; Txt (number_text p)] with (map (shows E) [e; ENum (ks 2) p]).
    destruct di.
    + pose proof (distinct_writes E ks (if disc then FPercentileDisc else FPercentileCont) _ _ _ _ G L) as X. destruct disc; apply X; reflexivity.
    + destruct disc; apply (function_writes E ks _ _ _ G L); discriminate.
  - destruct (all_given [a; b]) as [es|] eqn:G; [|discriminate]. injection I as <-. apply all_given_some in G as [G L].
    inversion G as [|? ea ? ? [ia ->] G']; subst. inversion G' as [|? eb ? ? [ib ->] G'']; subst. inversion G''; subst.
    apply (function_writes E ks "range" _ _ G L). discriminate.
  - destruct (all_given [a; b; s]) as [es|] eqn:G; [|discriminate]. injection I as <-. apply all_given_some in G as [G L].
    inversion G as [|? ea ? ? [ia ->] G']; subst. inversion G' as [|? eb ? ? [ib ->] G'']; subst. inversion G'' as [|? ec ? ? [ic ->] G3]; subst. inversion G3; subst.
    apply (function_writes E ks "range" _ _ G L). discriminate.
  - destruct n as [s ok er mi]. cbn in I. destruct s as [k x| |]; try discriminate. destruct ok; [|discriminate]. destruct er; [discriminate|]. injection I as <-.
    change [Txt (resolve E x)] with (map (shows E) [ESym k x]).
    assert (G : goods [sym_value (Sym k x)] [ESym k x]) by (constructor; [eexists; reflexivity|constructor]).
    destruct f; cbn [named_fn_name fst snd named_call n_err n_ok n_sym with_required required_name negb];
      first [apply (function_writes E ks _ _ [ESym k x] G eq_refl); discriminate
            |match goal with |- writes _ (create_distinct _ ?f _) _ => exact (distinct_writes E ks f _ [] (ESym k x) [] G eq_refl eq_refl) end].
  - destruct g as [k es| |]; try discriminate. injection I as <-. exact (map_writes E ks _ k es).
  - destruct g as [k es| |]; try discriminate. injection I as <-. exact (map_writes E ks _ k es).
  - destruct g as [k es| |]; try discriminate. injection I as <-. destruct t; exact (map_writes E ks _ k es).
  - unfold temporal_text. destruct (String.eqb s ""); [discriminate|]. injection I as <-.
    change [Txt (string_literal s)] with (map (shows E) [EStr (ks 2) s]).
    destruct t; (eapply function_writes; [constructor; [eexists; reflexivity|constructor]|reflexivity|discriminate]).
  - destruct (given v) as [e|] eqn:G; [|discriminate]. injection I as <-. apply given_some in G as [[i ->] S].
    assert (L : loud [e] = true) by (cbn; now rewrite S).
    destruct t; (apply (function_writes E ks _ _ [e] (good_one e i) L); discriminate).
  - injection I as <-. eapply writes_deq; [reflexivity|]. eapply deq_trans; [apply call_text; reflexivity|]. apply call_doc_deq. now apply fields_text.
  - injection I as <-. eapply writes_deq; [reflexivity|]. eapply deq_trans; [apply call_text; reflexivity|]. apply call_doc_deq. now apply fields_text.
  - injection I as <-. eapply writes_deq; [reflexivity|]. eapply deq_trans; [apply call_text; reflexivity|]. apply call_doc_deq. now apply fields_text.
  - injection I as <-. eapply writes_deq; [reflexivity|]. eapply deq_trans; [apply call_text; reflexivity|]. apply call_doc_deq. now apply fields_text.
  - injection I as <-. destruct t; (eapply writes_deq; [reflexivity|]; eapply deq_trans; [apply call_text; reflexivity|]; apply call_doc_deq; now apply fields_text).
Qed.

(** ** Errors *)

Definition never_nil (vs : list value) : Prop := Forall (fun v => is_nil v = false) vs.

Lemma first_err_failure : forall vs, never_nil vs -> first_err vs = Returns (first_failure vs).
Proof.
  induction 1 as [|v vs N H IH]; [reflexivity|]. cbn. destruct v as [|c i]; [discriminate|]. now destruct (value_err (Elem c i)).
Qed.

Lemma named_function_err : forall ks n vs m, never_nil vs -> first_failure vs = Some m -> named_function_create ks n vs = Returns (function_error m).
Proof. intros ks n vs m N F. unfold named_function_create. now rewrite first_err_failure, F. Qed.
Lemma distinct_err : forall ks f vs m, never_nil vs -> first_failure vs = Some m -> create_distinct ks f vs = Returns (function_error m).
Proof. intros ks f vs m N F. unfold create_distinct. now rewrite first_err_failure, F. Qed.
Lemma fn1_err : forall ks f v m, is_nil v = false -> value_err v = Some m -> fn1_call ks f v = Returns (function_error m).
Proof.
  intros ks f v m N F. assert (NN : never_nil [v]) by (constructor; [exact N|constructor]). assert (FF : first_failure [v] = Some m) by (cbn; now rewrite F).
  unfold fn1_call. destruct (fn1_distinct f); [now apply distinct_err|now apply named_function_err].
Qed.

Definition aliasing (u : use) : bool := match u with Aliasing _ _ => true | _ => false end.

Lemma use_err : forall ks K u m, never_nil (use_operands u) -> first_failure (use_operands u) = Some m ->
  exists v m', use_run ks K u = Returns v /\ value_err v = Some m' /\ (aliasing u = false -> m' = m).
Proof.
  intros ks K u m N F.
  destruct u as [c x y|c x y|b x|b x|x s|x|x a|t a b|t a|t b|t i|vs|v n|u]; cbn [use_run use_operands fn_operands first_failure] in *.
  - unfold compute, operation_create. destruct (value_err x), (value_err y); inversion F; eexists; eexists; repeat split; reflexivity.
  - unfold compare, comparison_create. destruct (value_err x), (value_err y); inversion F; eexists; eexists; repeat split; reflexivity.
  - destruct b; cbn beta iota; unfold is_null, is_not_null, postfix_create; destruct (value_err x); inversion F; eexists; eexists; repeat split; reflexivity.
  - unfold is_bool, compare, comparison_create. destruct (value_err x); inversion F. eexists; eexists; repeat split; reflexivity.
  - unfold matches_pattern, compare, comparison_create. destruct (value_err x); inversion F. eexists; eexists; repeat split; reflexivity.
  - destruct (value_err x) eqn:X; inversion F; subst. unfold is_empty. inversion N; subst. rewrite (fn1_err _ Size x m) by assumption.
    eexists; eexists; repeat split; reflexivity.
  - destruct x as [|[e|e|m' z|] i]; try discriminate. eexists. eexists. split; [reflexivity|]. split; [reflexivity|discriminate].
  - unfold sub_list. destruct (value_err t), (value_err a), (value_err b); inversion F; eexists; eexists; repeat split; reflexivity.
  - unfold sub_list_from. destruct (value_err t), (value_err a); inversion F; eexists; eexists; repeat split; reflexivity.
  - unfold sub_list_until. destruct (value_err t), (value_err b); inversion F; eexists; eexists; repeat split; reflexivity.
  - unfold value_at. destruct (value_err t), (value_err i); inversion F; eexists; eexists; repeat split; reflexivity.
  - unfold list_of. rewrite first_err_failure, F by exact N. eexists; eexists; repeat split; reflexivity.
  - unfold property_by_expression. destruct (value_err v); inversion F; eexists; eexists; repeat split; reflexivity.
  - cut (fn_run ks K u = Returns (function_error m)); [intros ->; eexists; eexists; repeat split; reflexivity|].
    destruct u as [f v|vs|a b|disc di v p|a b|a b s|f n|g|g|t g|t s|t v|y m' d'|y w d'|y q d'|y d'|t z]; cbn [fn_run fn_operands first_failure] in *; try discriminate.
    + destruct (value_err v) eqn:X; inversion F; subst. inversion N; subst. now apply fn1_err.
    + now apply named_function_err.
    + unfold distance. destruct (value_err a), (value_err b); inversion F; reflexivity.
    + unfold percentile. destruct (value_err v); inversion F; reflexivity.
    + unfold range, range_with_step. destruct (value_err a), (value_err b); inversion F; reflexivity.
    + unfold range_with_step. destruct (value_err a), (value_err b), (value_err s); inversion F; reflexivity.
    + now apply named_function_err.
    + now apply named_function_err.
    + destruct g as [k es| |mg]; try discriminate. inversion F; reflexivity.
    + inversion N; subst. unfold temporal_expression. destruct v as [|c i]; [discriminate|]. destruct (value_err (Elem c i)); inversion F; reflexivity.
Qed.

(** ** No panics *)

Definition returns (o : outcome value) : Prop := exists v, o = Returns v.

Lemma function_returns : forall ks n vs, never_nil vs -> returns (named_function_create ks n vs).
Proof. intros ks n vs N. unfold returns, named_function_create. rewrite first_err_failure by exact N. destruct (first_failure vs); eauto. Qed.
Lemma distinct_returns : forall ks f vs, never_nil vs -> returns (create_distinct ks f vs).
Proof. intros ks f vs N. unfold returns, create_distinct. rewrite first_err_failure by exact N. destruct (first_failure vs); eauto. Qed.
Lemma one_returns : forall ks f v, is_nil v = false -> returns (fn1_call ks f v).
Proof.
  intros ks f v N. assert (NN : never_nil [v]) by (constructor; [exact N|constructor]). unfold fn1_call.
  destruct (fn1_distinct f); [now apply distinct_returns|now apply function_returns].
Qed.
Lemma sym_nil : forall s, is_nil (sym_value s) = false.
Proof. now destruct s. Qed.
Lemma map_nil : forall m, is_nil (map_value m) = false.
Proof. now destruct m. Qed.
Lemma nil_one : forall v, is_nil v = false -> never_nil [v].
Proof. intros. constructor; [assumption|constructor]. Qed.

Lemma use_returns : forall ks K u, never_nil (use_operands u) -> returns (use_run ks K u).
Proof.
  intros ks K u N.
  destruct u as [c x y|c x y|b x|b x|x s|x|x a|t a b|t a|t b|t i|vs|v n|u]; cbn [use_run use_operands] in *; try (eexists; reflexivity).
  - unfold is_empty. inversion N; subst. destruct (one_returns (fun n => ks (4 + n)) Size x) as [v ->]; [assumption|]. eexists; reflexivity.
  - unfold returns, list_of. rewrite first_err_failure by exact N. destruct (first_failure vs); eauto.
  - destruct u as [f v|vs|a b|disc di v p|a b|a b s|f n|g|g|t g|t s|t v|y m' d'|y w d'|y q d'|y d'|t z]; cbn [fn_run fn_operands] in *.
    + inversion N; subst. now apply one_returns.
    + now apply function_returns.
    + unfold distance. destruct (value_err a), (value_err b); try (eexists; reflexivity). destruct (value_ok a && value_ok b)%bool; [now apply function_returns|eexists; reflexivity].
    + unfold percentile. inversion N; subst. destruct (value_err v); [eexists; reflexivity|]. destruct (value_ok v); cbn [negb]; [|eexists; reflexivity].
      destruct (_ || _)%bool; [eexists; reflexivity|].
      assert (NN : never_nil [v; float_value (ks 2) p]) by (constructor; [assumption|now apply nil_one]).
      destruct di; [now apply distinct_returns|now apply function_returns].
    + unfold range, range_with_step. destruct (value_err a), (value_err b); try (eexists; reflexivity). cbn [value_err value_ok].
      destruct (value_ok a); cbn [negb]; [|eexists; reflexivity]. destruct (value_ok b); cbn [negb]; [|eexists; reflexivity]. now apply function_returns.
    + unfold range_with_step. destruct (value_err a), (value_err b), (value_err s); try (eexists; reflexivity).
      destruct (value_ok a); cbn [negb]; [|eexists; reflexivity]. destruct (value_ok b); cbn [negb]; [|eexists; reflexivity].
      apply function_returns. destruct (value_ok s); [exact N|]. inversion N as [|? ? N1 N2]; subst. inversion N2; subst. constructor; [assumption|now apply nil_one].
    + assert (S : never_nil [sym_value (n_sym n)]) by apply nil_one, sym_nil. assert (R : never_nil [sym_value (required_name n)]) by apply nil_one, sym_nil.
      assert (Q : forall s, returns (function_create ks FNodes [sym_value s]) /\ returns (function_create ks FRelationships [sym_value s])
                            /\ returns (function_create ks FStartNode [sym_value s]) /\ returns (function_create ks FEndNode [sym_value s])).
      { intros s. repeat split; apply function_returns, nil_one, sym_nil. }
      destruct f; cbn [named_call]; unfold with_required; destruct (n_err n); try (eexists; reflexivity);
        try (now apply function_returns); try (now apply distinct_returns);
        destruct (n_ok n); cbn [negb]; try (eexists; reflexivity); try (now apply function_returns); try (now apply distinct_returns);
        destruct (required_name n) as [k x| |m]; try apply Q; eexists; reflexivity.
    + apply function_returns, nil_one, map_nil.
    + apply function_returns, nil_one, map_nil.
    + destruct g as [k es| |mg]; try (eexists; reflexivity).
    + unfold temporal_text. destruct (String.eqb s ""); [eexists; reflexivity|]. now apply function_returns, nil_one.
    + inversion N; subst. unfold temporal_expression. destruct v as [|c i]; [discriminate|]. destruct (value_err (Elem c i)); [eexists; reflexivity|].
      destruct (value_ok (Elem c i)); [|eexists; reflexivity]. now apply function_returns.
    + eexists; reflexivity.
    + eexists; reflexivity.
    + eexists; reflexivity.
    + eexists; reflexivity.
    + destruct t; eexists; reflexivity.
Qed.

(** ** Sound operands make sound results *)

Definition good_result (o : outcome value) : Prop := exists e i, o = Returns (Elem (Good e) i).

Lemma sound_good : forall v, sound_value v -> exists e i, v = Elem (Good e) i.
Proof. intros [|[e| | |] i] S; try easy. eauto. Qed.
Lemma sound_goods : forall vs, Forall sound_value vs -> exists es, goods vs es /\ length es = length vs.
Proof.
  induction 1 as [|v vs S H (es & G & L)]; [exists []; split; [constructor|reflexivity]|].
  destruct (sound_good v S) as (e & i & ->). exists (e :: es). split; [constructor; eauto|cbn; now rewrite L].
Qed.
Lemma function_good : forall ks n vs, Forall sound_value vs -> vs <> [] -> good_result (named_function_create ks n vs).
Proof.
  intros ks n vs S N. destruct (sound_goods vs S) as (es & G & L). eexists. eexists. rewrite (function_ok ks n vs es); [reflexivity|exact G|].
  intros ->. destruct vs; [congruence|discriminate].
Qed.
Lemma distinct_good : forall ks f vs, Forall sound_value vs -> vs <> [] -> is_aggregate f = true -> good_result (create_distinct ks f vs).
Proof.
  intros ks f vs S N A. destruct (sound_goods vs S) as (es & G & L). destruct G as [|v e vs es X G]; [congruence|].
  eexists. eexists. rewrite (distinct_ok ks f v vs e es); [reflexivity|now constructor|exact A].
Qed.

Lemma nested_if_good : forall k e i, exists e' j, nested_if_condition k (Elem (Good e) i) = Elem (Good e') j.
Proof. intros k e i. cbn. destruct (is_condition e); eexists; eexists; reflexivity. Qed.
Lemma comparison_good : forall ks e i o e' i', good_result (Returns (comparison_create ks (Elem (Good e) i) o (Elem (Good e') i'))).
Proof.
  intros. unfold comparison_create. cbn [value_err value_ok is_nil negb orb].
  destruct (nested_if_good (ks 1) e i) as (a & j & ->), (nested_if_good (ks 2) e' i') as (b & j' & ->). eexists. eexists. reflexivity.
Qed.
Lemma postfix_good : forall ks o e i, good_result (Returns (postfix_create ks o (Elem (Good e) i))).
Proof.
  intros. unfold postfix_create. cbn [value_err value_ok negb].
  destruct (nested_if_good (ks 1) e i) as (a & j & ->). eexists. eexists. reflexivity.
Qed.

Ltac goods_of S :=
  repeat match type of S with Forall _ (_ :: _) =>
    let H := fresh "G" in inversion S as [|? ? H S']; subst; clear S; rename S' into S; apply sound_good in H as (? & ? & ->) end.
Ltac good := eexists; eexists; reflexivity.

Lemma use_good : forall ks K u, Forall sound_value (use_operands u) -> well_called u -> good_result (use_run ks K u).
Proof.
  intros ks K u S W.
  destruct u as [c x y|c x y|b x|b x|x s|x|x a|t a b|t a|t b|t i|vs|v n|u]; cbn [use_run use_operands well_called] in *.
  - goods_of S. good.
  - goods_of S. apply comparison_good.
  - goods_of S. destruct b; apply postfix_good.
  - goods_of S. apply comparison_good.
  - goods_of S. apply comparison_good.
  - unfold is_empty. destruct (function_good (fun n => ks (4 + n)) "size" [x]) as (e & i & H); [assumption|discriminate|].
    change (fn1_call (fun n => ks (4 + n)) Size x) with (named_function_create (fun n => ks (4 + n)) "size" [x]). rewrite H. apply comparison_good.
  - goods_of S. unfold as_, aliased_create. apply String.eqb_neq in W. rewrite W. good.
  - goods_of S. good.
  - goods_of S. good.
  - goods_of S. good.
  - goods_of S. good.
  - destruct (sound_goods vs S) as (es & G & _). unfold list_of. rewrite (goods_err _ _ G), (goods_parts _ _ _ G). good.
  - goods_of S. unfold property_by_expression. apply String.eqb_neq in W. rewrite W. good.
  - destruct u as [f v|vs|a b|disc di v p|a b|a b s|f n|g|g|t g|t s|t v|y m' d'|y w d'|y q d'|y d'|t z]; cbn [fn_run fn_operands] in *.
    + unfold fn1_call. destruct f; cbn [fn1_distinct]; first [apply function_good; [exact S|discriminate] | apply distinct_good; [exact S|discriminate|reflexivity]].
    + now apply function_good.
    + assert (X : good_result (named_function_create ks "distance" [a; b])) by (apply function_good; [exact S|discriminate]). goods_of S. exact X.
    + assert (X : Forall sound_value [v; float_value (ks 2) p]) by (inversion S; subst; constructor; [assumption|constructor; [exact Logic.I|constructor]]).
      assert (Y : forall f, is_aggregate f = true -> good_result ((if di then create_distinct else function_create) ks f [v; float_value (ks 2) p])).
      { intros f A. destruct di; [apply distinct_good|apply function_good]; try assumption; discriminate. }
      clear X. goods_of S. unfold percentile. cbn [value_err value_ok negb]. rewrite percentile_range by exact W. apply Y. now destruct disc.
    + assert (X : good_result (named_function_create ks "range" [a; b])) by (apply function_good; [exact S|discriminate]). goods_of S. exact X.
    + assert (X : good_result (named_function_create ks "range" [a; b; s])) by (apply function_good; [exact S|discriminate]). goods_of S. exact X.
    + destruct n as [sm ok er mi]. cbn [n_ok n_err n_sym] in W. destruct W as (-> & -> & NN). destruct sm as [k x| |]; try discriminate.
      destruct f; good.
    + destruct g as [k es| |mg]; [good| |]; inversion S; contradiction.
    + destruct g as [k es| |mg]; [good| |]; inversion S; contradiction.
    + destruct g as [k es| |mg]; [destruct t; good| |]; inversion S; contradiction.
    + apply String.eqb_neq in W. unfold temporal_text. rewrite W. destruct t; good.
    + goods_of S. destruct t; good.
    + good.
    + good.
    + good.
    + good.
    + destruct t; good.
Qed.

(** ** Operands that are missing *)

Definition error_result (o : outcome value) : Prop := exists v m, o = Returns v /\ value_err v = Some m.

Lemma function_missing : forall ks n v vs, never_nil (v :: vs) -> missing v = true -> error_result (named_function_create ks n (v :: vs)).
Proof.
  intros ks n v vs N M. unfold named_function_create. rewrite first_err_failure by exact N. unfold first_missing, missing in *.
  destruct (first_failure (v :: vs)); [|rewrite M]; eexists; eexists; split; reflexivity.
Qed.
Lemma distinct_missing : forall ks f v vs, never_nil (v :: vs) -> missing v = true -> error_result (create_distinct ks f (v :: vs)).
Proof.
  intros ks n v vs N M. unfold create_distinct. rewrite first_err_failure by exact N. unfold first_missing, missing in *.
  destruct (first_failure (v :: vs)); [|rewrite M; destruct (negb (is_aggregate n))]; eexists; eexists; split; reflexivity.
Qed.

Ltac errs := eexists; eexists; split; reflexivity.

Lemma use_missing : forall ks K u, never_nil (use_operands u) -> Exists (fun v => missing v = true) (demanded u) -> error_result (use_run ks K u).
Proof.
  intros ks K u N M.
  assert (Two : forall a b, Exists (fun v => missing v = true) [a; b] -> missing a = true \/ missing b = true).
  { intros a b H. inversion H as [? ? X|? ? X]; subst; [now left|]. inversion X as [? ? Y|? ? Y]; subst; [now right|inversion Y]. }
  assert (One : forall a, Exists (fun v => missing v = true) [a] -> missing a = true).
  { intros a H. inversion H as [? ? X|? ? X]; subst; [assumption|inversion X]. }
  destruct u as [c x y|c x y|b x|b x|x s|x|x a|t a b|t a|t b|t i|vs|v n|u]; cbn [use_run use_operands demanded] in *.
  - apply Two in M. unfold missing in M. unfold compute, operation_create. destruct (value_err x), (value_err y); try errs.
    destruct (value_ok x), (value_ok y); cbn [negb] in *; try errs. destruct M; discriminate.
  - apply One in M. unfold missing in M. unfold compare, comparison_create. rewrite M. destruct (value_err x), (value_err y); errs.
  - apply One in M. unfold missing in M. destruct b; cbn beta iota; unfold is_null, is_not_null, postfix_create; rewrite M; destruct (value_err x); errs.
  - apply One in M. unfold missing in M. unfold is_bool, compare, comparison_create. rewrite M. destruct (value_err x); errs.
  - apply One in M. unfold missing in M. unfold matches_pattern, compare, comparison_create. rewrite M. destruct (value_err x); errs.
  - apply One in M. unfold is_empty. destruct (function_missing (fun n => ks (4 + n)) "size" x []) as (v & m & H & V); [exact N|exact M|].
    change (fn1_call (fun n => ks (4 + n)) Size x) with (named_function_create (fun n => ks (4 + n)) "size" [x]). rewrite H.
    unfold compare, comparison_create. rewrite V. errs.
  - apply One in M. unfold missing in M. unfold as_, aliased_create. rewrite M. errs.
  - unfold sub_list. destruct (value_err t), (value_err a), (value_err b); try errs.
    destruct (value_ok t) eqn:T; cbn [negb]; [|errs]. destruct (value_ok a) eqn:A; cbn [negb]; [|errs]. destruct (value_ok b) eqn:B; cbn [negb]; [|errs].
    unfold missing in M. inversion M as [? ? X|? ? X]; subst; [rewrite T in X; discriminate|]. apply Two in X. unfold missing in X. rewrite A, B in X. destruct X; discriminate.
  - apply Two in M. unfold missing in M. unfold sub_list_from. destruct (value_err t), (value_err a); try errs.
    destruct (value_ok t), (value_ok a); cbn [negb] in *; try errs. destruct M; discriminate.
  - apply Two in M. unfold missing in M. unfold sub_list_until. destruct (value_err t), (value_err b); try errs.
    destruct (value_ok t), (value_ok b); cbn [negb] in *; try errs. destruct M; discriminate.
  - apply Two in M. unfold missing in M. unfold value_at. destruct (value_err t), (value_err i); try errs.
    destruct (value_ok t), (value_ok i); cbn [negb] in *; try errs. destruct M; discriminate.
  - inversion M.
  - inversion M.
  - destruct u as [f v|vs|a b|disc di v p|a b|a b s|f n|g|g|t g|t s|t v|y m' d'|y w d'|y q d'|y d'|t z]; cbn [fn_run fn_operands fn_demanded] in *; try (inversion M; fail).
    + apply One in M. unfold fn1_call. destruct (fn1_distinct f); [now apply distinct_missing|now apply function_missing].
    + destruct vs as [|v vs]; [inversion M|]. apply One in M. now apply function_missing.
    + apply Two in M. unfold missing in M. unfold distance. destruct (value_err a), (value_err b); try errs.
      destruct (value_ok a), (value_ok b); cbn [negb andb] in *; try errs. destruct M; discriminate.
    + apply One in M. unfold missing in M. unfold percentile. rewrite M. destruct (value_err v); errs.
    + apply Two in M. unfold missing in M. unfold range, range_with_step. destruct (value_err a), (value_err b); try errs. cbn [value_err].
      destruct (value_ok a), (value_ok b); cbn [negb] in *; try errs. destruct M; discriminate.
    + apply Two in M. unfold missing in M. unfold range_with_step. destruct (value_err a), (value_err b), (value_err s); try errs.
      destruct (value_ok a), (value_ok b); cbn [negb] in *; try errs. destruct M; discriminate.
    + apply One in M. destruct g; [discriminate| |]; errs.
    + apply One in M. destruct g; [discriminate| |]; errs.
    + apply One in M. destruct g; [discriminate| |]; errs.
    + apply One in M. inversion N; subst. unfold temporal_expression. destruct v as [|c i]; [discriminate|]. unfold missing in M.
      destruct (value_err (Elem c i)); [errs|]. destruct (value_ok (Elem c i)); [discriminate|]. errs.
Qed.

(** ** Nil *)

Lemma use_nil : forall ks K u, nil_safe u = true -> Exists (fun v => v = NilValue) (use_operands u) -> error_result (use_run ks K u).
Proof.
  intros ks K u S M.
  assert (Two : forall a b, Exists (fun v => v = NilValue) [a; b] -> a = NilValue \/ b = NilValue).
  { intros a b H. inversion H as [? ? X|? ? X]; subst; [now left|]. inversion X as [? ? Y|? ? Y]; subst; [now right|inversion Y]. }
  assert (One : forall a, Exists (fun v => v = NilValue) [a] -> a = NilValue).
  { intros a H. inversion H as [? ? X|? ? X]; subst; [reflexivity|inversion X]. }
  destruct u as [c x y|c x y|b x|b x|x s|x|x a|t a b|t a|t b|t i|vs|v n|u]; try discriminate; cbn [use_run use_operands] in *.
  - apply Two in M as [-> | ->]; unfold compute, operation_create.
    + destruct (value_err y); errs.
    + destruct (value_err x); [errs|]. destruct (value_ok x); errs.
  - apply Two in M as [-> | ->]; unfold compare, comparison_create.
    + destruct (value_err y); errs.
    + destruct (value_err x); [errs|]. destruct (value_ok x); errs.
  - apply One in M as ->. destruct b; errs.
  - apply One in M as ->. errs.
  - apply One in M as ->. errs.
  - apply One in M as ->. errs.
  - unfold sub_list. inversion M as [? ? X|? ? X]; subst; [destruct (value_err a), (value_err b); errs|]. apply Two in X as [-> | ->].
    + destruct (value_err t), (value_err b); try errs. destruct (value_ok t); errs.
    + destruct (value_err t), (value_err a); try errs. destruct (value_ok t), (value_ok a); errs.
  - apply Two in M as [-> | ->]; unfold sub_list_from; [destruct (value_err a); errs|]. destruct (value_err t); [errs|]. destruct (value_ok t); errs.
  - apply Two in M as [-> | ->]; unfold sub_list_until; [destruct (value_err b); errs|]. destruct (value_err t); [errs|]. destruct (value_ok t); errs.
  - apply Two in M as [-> | ->]; unfold value_at; [destruct (value_err i); errs|]. destruct (value_err t); [errs|]. destruct (value_ok t); errs.
  - apply One in M as ->. errs.
  - destruct u as [f v|vs|a b|disc di v p|a b|a b s|f n|g|g|t g|t s|t v|y m' d'|y w d'|y q d'|y d'|t z]; try discriminate; cbn [fn_run fn_operands] in *.
    + unfold distance. apply Two in M as [-> | ->]; cbn [value_err value_ok andb].
      * destruct (value_err b); errs.
      * destruct (value_err a); [errs|]. destruct (value_ok a); errs.
    + apply One in M as ->. errs.
    + unfold range, range_with_step. apply Two in M as [-> | ->]; cbn [value_err value_ok negb].
      * destruct (value_err b); errs.
      * destruct (value_err a); [errs|]. destruct (value_ok a); errs.
Qed.
