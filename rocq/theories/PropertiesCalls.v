(** Headline theorems about function calls, operands, list operators,
    comprehensions, list predicates, named paths and sort items: C47-C54. *)

From Coq Require Import Ascii String List ZArith Bool Lia.
From Verif Require Import GoStr Escape Num VTree Ast GoVal Maps SpecDoc SpecPrint Patterns SpecPattern SpecCond Cond Builder Exprs Functions SpecExpr SpecCalls.
From Verif Require Import EscapeProofs DocProofs PatternProofs CondProofs BuilderProofs ExprProofs FunctionProofs PropertiesText PropertiesExpr.
From Verif Require PropertiesCond.
Import ListNotations.
Open Scope string_scope.
Open Scope list_scope.

(** Keys of maps in the concrete cases. *)
Definition KK : keys := Keys "map" (fun n => "lit" ++ kk n)%string (fun n => "entry" ++ kk n)%string "null".
Definition result_text (o : outcome value) : option string := match o with Returns v => says v | _ => None end.
Definition unset_name : value := sym_value NoSym.
Definition bad_name : value := sym_value (BadSym "a name is required").

(** ** C47 *)

(** A function call on arguments that were set writes the function, DISTINCT if
    asked for, and the arguments in their order. *)
Theorem C47_function_calls_partial : forall E ks K u d,
  intended E u = Some d -> well_called (Calling u) -> (forall v, u <> Of1 CollectDistinct v) ->
  exists e i, fn_run ks K u = Returns (Elem (Good e) i)
  /\ forall m, transparent (print E e) m -> write (print E e) m = write d m.
Proof. exact fn_writes. Qed.
Print Assumptions C47_function_calls_partial.

Example C47_case :
  let u1 := OfPercentile true true (nm "x") (Num false 5 (-1)) in
  let u2 := OfCoalesce [nm "a"; int_value "i" 3; compute kk Add (nm "b") (nm "c")] in
  let u3 := OfCalendar 2020 2 29 in
  well_called (Calling u1) /\ (exists d, intended env0 u1 = Some d) /\ result_text (fn_run (kt "f") KK u1) = Some "percentileDisc(DISTINCT x, 0.5)"
  /\ (exists d, intended env0 u2 = Some d) /\ result_text (fn_run (kt "f") KK u2) = Some "coalesce(a, 3, (b + c))"
  /\ (exists d, intended env0 u3 = Some d) /\ result_text (fn_run (kt "f") KK u3) = Some "date({year: 2020, month: 2, day: 29})".
Proof.
  repeat split; try (eexists; vm_compute; reflexivity); try (vm_compute; reflexivity); cbn; try lia; try (now right).
Qed.

(** CollectDistinct averages. *)
Theorem C47_collect_distinct_refuted : forall ks e i, exists z,
  fn1_call ks CollectDistinct (Elem (Good e) i) = fn1_call ks AvgDistinct (Elem (Good e) i)
  /\ fn1_call ks CollectDistinct (Elem (Good e) i) = Returns z
  /\ says (match fn1_call kk CollectDistinct (nm "x") with Returns v => v | _ => NilValue end) = Some "avg(DISTINCT x)".
Proof. intros ks e i. eexists. split; [reflexivity|]. split; [reflexivity|]. vm_compute. reflexivity. Qed.
Print Assumptions C47_collect_distinct_refuted.

(** The current date panics, the other current times are errors. *)
Theorem C47_now_refuted : forall ks t, t <> TDuration ->
  (t = TDate /\ temporal_now ks t = Panics)
  \/ exists m, temporal_now ks t = Returns (function_error m).
Proof. intros ks t D. destruct t; try congruence; [now left| | | |]; right; eexists; reflexivity. Qed.
Print Assumptions C47_now_refuted.

(** ** C48 *)

(** The first error among the operands is the error of the result; for aliases,
    there is an error. *)
Theorem C48_errors_reach_the_result : forall ks K u m,
  Forall (fun v => v <> NilValue) (use_operands u) -> first_failure (use_operands u) = Some m ->
  exists v m', use_run ks K u = Returns v /\ value_err v = Some m' /\ ((forall x a, u <> Aliasing x a) -> m' = m).
Proof.
  intros ks K u m N F. destruct (use_err ks K u m) as (v & m' & R & V & A); [|exact F|].
  - eapply Forall_impl; [|exact N]. now intros [].
  - exists v, m'. split; [exact R|]. split; [exact V|]. intros X. apply A. destruct u; try reflexivity. now destruct (X x alias).
Qed.
Print Assumptions C48_errors_reach_the_result.

(** Calls on operands that are not nil do not panic. *)
Theorem C48_no_panic : forall ks K u, Forall (fun v => v <> NilValue) (use_operands u) -> exists v, use_run ks K u = Returns v.
Proof. intros ks K u N. apply use_returns. eapply Forall_impl; [|exact N]. now intros []. Qed.
Print Assumptions C48_no_panic.

(** Calls on operands that were set, without errors, succeed. *)
Theorem C48_no_false_errors : forall ks K u, Forall sound_value (use_operands u) -> well_called u ->
  exists e i, use_run ks K u = Returns (Elem (Good e) i).
Proof. exact use_good. Qed.
Print Assumptions C48_no_false_errors.

(** Operands that were not set are reported, where they are demanded. *)
Theorem C48_missing_operands_partial : forall ks K u,
  Forall (fun v => v <> NilValue) (use_operands u) -> Exists (fun v => missing v = true) (demanded u) ->
  exists v m, use_run ks K u = Returns v /\ value_err v = Some m.
Proof. intros ks K u N. apply use_missing. eapply Forall_impl; [|exact N]. now intros []. Qed.
Print Assumptions C48_missing_operands_partial.

(** Nil operands are reported by operators, slices, properties, aliases and the
    functions distance, percentile and range. *)
Theorem C48_nil_operands_partial : forall ks K u, nil_safe u = true -> Exists (fun v => v = NilValue) (use_operands u) ->
  exists v m, use_run ks K u = Returns v /\ value_err v = Some m.
Proof. exact use_nil. Qed.
Print Assumptions C48_nil_operands_partial.

(** Maps given to temporal functions, to point and to properties: the error of the
    map is reported, and so is a map that was not set. *)
Definition map_calls (ks : nat -> key) (m : gmap) : list (outcome value) :=
  properties_of_map ks m :: point ks m
  :: map (fun t => temporal_components ks t m) [TDate; TDatetime; TLocaldatetime; TLocaltime; TTime; TDuration].
Theorem C48_map_arguments : forall ks m o, List.In o (map_calls ks m) ->
  match m with
  | MapOk k es => exists k1 n k2, o = Returns (Exprs.made (Good (EFun k1 n k2 [EMap k es])))
  | NoMap => exists v x, o = Returns v /\ value_err v = Some x
  | BadMap x => exists v, o = Returns v /\ value_err v = Some x
  end.
Proof.
  intros ks m o I. destruct m; cbn in I; repeat (destruct I as [<-|I]; [repeat eexists; reflexivity|]); destruct I.
Qed.
Print Assumptions C48_map_arguments.

Example C48_case :
  let broken := property_by_expression kk (nm "n") "" in
  let u := Computing Add (nm "a") (compare kk IsEqualTo broken (nm "b")) in
  Forall (fun v => v <> NilValue) (use_operands u) /\ first_failure (use_operands u) = Some "property name is required"
  /\ (exists v, use_run kk KK u = Returns v /\ value_err v = Some "property name is required")
  /\ Exists (fun v => missing v = true) (demanded (Slicing (nm "l") unset_name (int_value "i" 3)))
  /\ Exists (fun v => v = NilValue) (use_operands (Comparing Lt (nm "l") NilValue)).
Proof.
  split; [repeat constructor; discriminate|]. split; [reflexivity|]. split; [eexists; split; reflexivity|]. split; [right; left; reflexivity|right; left; reflexivity].
Qed.

(** The right operand of a comparison, later arguments, list elements and the
    container of a property need not be set: the text is wrong instead. *)
Theorem C48_missing_operands_refuted :
  result_text (use_run (kt "c") KK (Comparing IsEqualTo (nm "a") unset_name)) = Some "a = "
  /\ result_text (use_run (kt "c") KK (Calling (OfCoalesce [nm "a"; unset_name]))) = Some "coalesce(a, guid)"
  /\ result_text (use_run (kt "c") KK (Listing [unset_name; nm "a"])) = Some "[guid, a]"
  /\ result_text (use_run (kt "c") KK (Selecting unset_name "p")) = Some "guid.p"
  /\ result_text (use_run (kt "c") KK (Calling (OfRangeStep (nm "a") (nm "b") unset_name))) = Some "range(a, b)".
Proof. repeat split. all: vm_compute; reflexivity. Qed.
Print Assumptions C48_missing_operands_refuted.

(** Nil arguments of functions and lists panic; so does a percentile that is not a number. *)
Theorem C48_nil_arguments_refuted : forall ks K f t,
  use_run ks K (Calling (Of1 f NilValue)) = Panics
  /\ use_run ks K (Emptiness NilValue) = Panics
  /\ use_run ks K (Calling (OfCoalesce [NilValue])) = Panics
  /\ use_run ks K (Calling (OfExpression t NilValue)) = Panics
  /\ use_run ks K (Listing [NilValue]) = Panics
  /\ percentile ks false false (nm "x") NotANumber = Panics.
Proof. intros ks K f t. repeat split. now destruct f. Qed.
Print Assumptions C48_nil_arguments_refuted.

(** Count of a node that has an error: the error is lost, unless the name has it. *)
Theorem C48_count_of_error_refuted : exists n m,
  n_err n = Some m /\ result_text (named_call kk "node" CountOf n) = Some "count(n)".
Proof. exists (Named (Sym "n" "n") false (Some "properties are broken") "none"), "properties are broken". split; [reflexivity|vm_compute; reflexivity]. Qed.
Print Assumptions C48_count_of_error_refuted.

(** The other functions of nodes, relationships and paths report it. *)
Theorem C48_named_errors : forall ks what f n m, f <> CountOf -> f <> CountDistinctOf -> n_err n = Some m ->
  named_call ks what f n = Returns (function_error m).
Proof. intros ks what f n m A B H. destruct f; try congruence; cbn [named_call]; unfold with_required; rewrite H; reflexivity. Qed.
Print Assumptions C48_named_errors.

(** ** C49 *)

Lemma writes_value : forall E v e i d, v = Elem (Good e) i -> deq (plain (print E e)) d ->
  exists e i, v = Elem (Good e) i /\ forall m, transparent (print E e) m -> write (print E e) m = write d m.
Proof. intros E v e i d -> D. exists e, i. split; [reflexivity|]. intros m T. rewrite plain_write by exact T. apply D. Qed.

Theorem C49_slices : forall E ks t a b it ia ib,
  let T := Elem (Good t) it in let A := Elem (Good a) ia in let B := Elem (Good b) ib in
  let writes v d := exists e i, v = Elem (Good e) i /\ forall m, transparent (print E e) m -> write (print E e) m = write d m in
  writes (sub_list ks T A B) (slice_doc E t (Some a) (Some b))
  /\ writes (sub_list_from ks T A) (slice_doc E t (Some a) None)
  /\ writes (sub_list_until ks T B) (slice_doc E t None (Some b))
  /\ writes (value_at ks T A) (element_doc E t a).
Proof.
  intros E ks t a b it ia ib T A B W. subst T A B W. cbv beta.
  repeat split; (eapply writes_value; [reflexivity|]); cbn [print plain map app maybe option_map slice_doc element_doc]; unfold slice_doc, element_doc, shows;
    cbn [app maybe option_map]; apply leq_deq; (apply leq_cons; [apply deq_refl|]); (eapply leq_trans; [apply leq_nest|]); rewrite app_nil_r; apply leq_refl.
Qed.
Print Assumptions C49_slices.

Example C49_case : says (sub_list (kt "s") (nm "l") (int_value "i" 1) (compute (kt "t") Add (nm "a") (nm "b"))) = Some "l[1..(a + b)]"
  /\ says (value_at (kt "s") (nm "l") (int_value "i" (-1))) = Some "l[-1]".
Proof. split; vm_compute; reflexivity. Qed.

(** An element of a power is written as a power of an element. *)
Theorem C49_target_refuted :
  says (value_at (kt "s") (compute (kt "t") Pow (nm "a") (nm "b")) (nm "i")) = Some "a^b[i]"
  /\ says (compute (kt "t") Pow (nm "a") (value_at (kt "s") (nm "b") (nm "i"))) = Some "a^b[i]".
Proof. split; vm_compute; reflexivity. Qed.
Print Assumptions C49_target_refuted.

(** ** C50 *)

(** The condition, if there is one, was set without error. *)
Definition where_as (k : key) (b : comprehension) (w : option value) : comprehension :=
  match w with Some c => list_where k b c | None => b end.
Definition given_where (w : option value) : option (option expr) :=
  match w with None => Some None | Some (Elem (Good c) _) => Some (Some c) | _ => None end.

Lemma list_definition : forall ks ds es, all_given ds = Some es -> es <> [] ->
  exists e i, list_or_single ks ds = Returns (Elem (Good e) i) /\ forall E, deq (shows E e) (definitions_doc E es).
Proof.
  intros ks ds es G N. apply all_given_some in G as [G L]. destruct G as [|v e vs es' [i ->] G]; [congruence|]. destruct G as [|v2 e2 vs' es2 X G].
  - exists e, i. split; [reflexivity|]. intros E. apply deq_refl.
  - assert (GG : goods (Elem (Good e) i :: v2 :: vs') (e :: e2 :: es2)) by (constructor; [eauto|constructor; assumption]).
    exists (EListExpr (ks 0) (EExprs (ks 1) (e :: e2 :: es2))). eexists. split.
    + cbn [list_or_single]. unfold list_of. rewrite (goods_err _ _ GG), (goods_parts _ _ _ GG). reflexivity.
    + intros E. unfold shows. cbn [print plain map definitions_doc]. rewrite listing_loud by exact L. cbn [plain]. rewrite map_map. apply deq_refl.
Qed.

Lemma comprehension_text : forall E k kx x l w d,
  deq (plain (print E (EListComp k (ESym kx x) l (option_map (EWhere k) w) d)))
      (list_comprehension_doc E x l (option_map (shows E) w) (option_map (shows E) d)).
Proof.
  intros E k kx x l w d. unfold list_comprehension_doc, shows. destruct w as [w|], d as [d|]; cbn [print plain map app maybe option_map print_op op_word];
    try apply deq_refl; apply (deq_nested [Txt "["; Txt (resolve E x); Txt " IN "; plain (print E l)] [Txt " WHERE "; plain (print E w)]).
Qed.

(** [x IN list WHERE condition | definitions]. *)
Theorem C50_list_comprehension : forall E ks k kx x l il w c ds es,
  given_where w = Some c -> all_given ds = Some es -> es <> [] ->
  exists e i, list_returning ks (where_as k (list_in (list_with (Sym kx x)) (Elem (Good l) il)) w) ds = Returns (Elem (Good e) i)
  /\ forall m, transparent (print E e) m ->
     write (print E e) m = write (list_comprehension_doc E x l (option_map (shows E) c) (Some (definitions_doc E es))) m.
Proof.
  intros E ks k kx x l il w c ds es W G N.
  destruct (list_definition (fun n => ks (Datatypes.S n)) ds es G N) as (d & id & R & D).
  unfold list_returning. rewrite R.
  assert (X : exists k', list_comprehension_create (ks 0) (where_as k (list_in (list_with (Sym kx x)) (Elem (Good l) il)) w) (Elem (Good d) id)
            = made (Good (EListComp (ks 0) (ESym kx x) l (option_map (EWhere k') c) (Some d)))).
  { exists k. destruct w as [[|[cc| | |] ic]|]; try discriminate; injection W as <-; reflexivity. }
  destruct X as [k' ->]. eexists. eexists. split; [reflexivity|]. intros m T. rewrite plain_write by exact T.
  transitivity (write (plain (print E (EListComp k' (ESym kx x) l (option_map (EWhere k') c) (Some d)))) m).
  { destruct c; reflexivity. }
  etransitivity; [apply comprehension_text|]. unfold list_comprehension_doc. cbn [option_map].
  apply leq_deq. apply leq_app; [apply leq_refl|]. apply leq_app; [apply leq_refl|]. apply leq_cons; [apply deq_refl|]. apply leq_cons; [apply D|apply leq_refl].
Qed.
Print Assumptions C50_list_comprehension.

(** [x IN list WHERE condition]. *)
Theorem C50_list_comprehension_default : forall E ks k kx x l il w c,
  given_where w = Some c ->
  exists e i, list_returning_default ks (where_as k (list_in (list_with (Sym kx x)) (Elem (Good l) il)) w) = Elem (Good e) i
  /\ forall m, transparent (print E e) m -> write (print E e) m = write (list_comprehension_doc E x l (option_map (shows E) c) None) m.
Proof.
  intros E ks k kx x l il w c W.
  assert (X : list_returning_default ks (where_as k (list_in (list_with (Sym kx x)) (Elem (Good l) il)) w)
            = made (Good (EListComp (ks 0) (ESym kx x) l (option_map (EWhere k) c) None))).
  { destruct w as [[|[cc| | |] ic]|]; try discriminate; injection W as <-; reflexivity. }
  rewrite X. eexists. eexists. split; [reflexivity|]. intros m T. rewrite plain_write by exact T.
  transitivity (write (plain (print E (EListComp k (ESym kx x) l (option_map (EWhere k) c) None))) m).
  { destruct c; reflexivity. }
  apply (comprehension_text E k kx x l c None).
Qed.
Print Assumptions C50_list_comprehension_default.

(** Conditions made by calls of the API are without errors. *)
Lemma makes_sound : forall c x, makes c x -> sound_cnd x = true.
Proof.
  induction 1 as [e| |ks o c d x y z Hx IHx Hy IHy Z|ks o c d x y z Hx IHx Hy IHy Z|ks o c e x z Hx IHx Z|ks c x z Hx IHx Z]; try reflexivity.
  - assert (C : sound_cnd (create ks x (bop_of_conn o) y) = true) by now apply create_sound.
    assert (A : sound_cnd (add ks x (bop_of_conn o) y) = true) by now apply add_sound.
    destruct x; cbn [container_chain] in Z; try discriminate; injection Z as <-; assumption.
  - destruct (condition_chain_sound ks (bop_of_conn o) x y IHx IHy) as (z' & Z' & S). rewrite Z in Z'. injection Z' as <-. exact S.
  - assert (C : sound_cnd (create ks x (bop_of_conn o) (Atom e)) = true) by now apply create_sound.
    destruct x; cbn [container_pattern] in Z; try discriminate; injection Z as <-; assumption.
  - unfold container_not, comparison_not in Z. rewrite (sound_no_err x IHx) in Z. destruct x; try discriminate; injection Z as <-; exact IHx.
Qed.

(** [pattern WHERE condition | definitions]; the condition is made by any calls.
    A condition that is blank is not written. *)
Theorem C50_pattern_comprehension : forall E ks p ip c x ds es,
  makes c x -> proper c = true -> all_given ds = Some es -> es <> [] ->
  exists e i, pattern_comprehension ks (Elem (Good p) ip) x ds = Returns (Elem (Good e) i)
  /\ forall m, transparent (print E e) m ->
     write (print E e) m = write (pattern_comprehension_doc (shows E p) (if blank c then None else Some (shows E (cond_expr x))) (definitions_doc E es)) m.
Proof.
  intros E ks p ip c x ds es M P G N.
  destruct (list_definition (fun n => ks (2 + n)) ds es G N) as (d & id & R & D).
  unfold pattern_comprehension. cbn [is_nil]. rewrite R. cbn [value_ok shown].
  pose proof (makes_sound c x M) as S.
  assert (B : build_where (ks 1) x = if blank c then NoWhere else WhereOk (EWhere (ks 1) (cond_expr x))).
  { pose proof (PropertiesCond.C18_no_where c x M P) as BL. unfold build_where. destruct (build_condition x) as [z|] eqn:BC.
    - assert (z = x) by (destruct x; cbn in BC; try discriminate; [congruence|congruence|destruct cs; congruence]). subst z. rewrite S.
      destruct (blank c); [|reflexivity]. destruct BL as [_ BL]. specialize (BL eq_refl). discriminate.
    - destruct (blank c); [reflexivity|]. destruct BL as [BL _]. specialize (BL eq_refl). discriminate. }
  rewrite B. destruct (blank c).
  - eexists. eexists. split; [reflexivity|]. intros m T. rewrite plain_write by exact T. unfold pattern_comprehension_doc. cbn [print plain map app maybe option_map].
    apply leq_deq. do 3 (apply leq_cons; [apply deq_refl|]). apply leq_cons; [apply D|apply leq_refl].
  - eexists. eexists. split; [reflexivity|]. intros m T. rewrite plain_write by exact T. unfold pattern_comprehension_doc. cbn [print plain map app maybe option_map].
    apply leq_deq. do 2 (apply leq_cons; [apply deq_refl|]). eapply leq_trans; [apply leq_nest|]. cbn [app].
    do 3 (apply leq_cons; [apply deq_refl|]). apply leq_cons; [apply D|apply leq_refl].
Qed.
Print Assumptions C50_pattern_comprehension.

Example C50_case :
  let c := compare (kt "c") Gt (nm "x") (int_value "i" 0) in
  result_text (list_returning (kt "l") (list_where "w" (list_in (list_with (Sym "x" "x")) (nm "xs")) c) [compute (kt "d") Multiply (nm "x") (int_value "j" 2)])
    = Some "[x IN xs WHERE x > 0 | (x * 2)]"
  /\ given_where (Some c) <> None
  /\ result_text (pattern_comprehension (kt "p") (nm "pattern") (Atom (ESym "cond" "cond")) [nm "a"; nm "b"])
    = Some "[pattern WHERE cond | [a, b]]"
  /\ makes (Basic (ESym "cond" "cond")) (Atom (ESym "cond" "cond")).
Proof. split; [vm_compute; reflexivity|]. split; [discriminate|]. split; [vm_compute; reflexivity|constructor]. Qed.

(** The error of the variable is reported; the errors of the list, of the
    condition and of the definition are not. *)
Theorem C50_variable_error : forall k m l w d, value_err (list_comprehension_create k (Comprehension (BadSym m) l w) d) = Some m.
Proof. reflexivity. Qed.
Print Assumptions C50_variable_error.

Theorem C50_errors_refuted : forall k,
  let good := list_in (list_with (Sym "x" "x")) (nm "xs") in
  let broken := compare kk IsEqualTo bad_name (nm "b") in
  value_err broken = Some "a name is required"
  /\ says (list_returning_default kk (list_where k good broken)) = Some "[x IN xs]"
  /\ says (list_returning_default kk (list_in (list_with (Sym "x" "x")) bad_name)) = Some "[x IN guid]"
  /\ result_text (list_returning kk good [bad_name]) = Some "[x IN xs | guid]".
Proof. intros k. cbv zeta. repeat split; vm_compute; reflexivity. Qed.
Print Assumptions C50_errors_refuted.

(** ** C51 *)

Definition quantifiers : list (builtin * string) := [(FAll, "all"); (FAny, "any"); (FNone, "none"); (FSingle, "single")].

Lemma skip_empty : forall l, leq (Txt "" :: l) l.
Proof. intros l. split; intros m; cbn [wcat intros_l]; [cbn [write]; now destruct (wcat l m)|reflexivity]. Qed.
Lemma one_comma : forall d, deq (Commas [d]) d.
Proof. intros d m. rewrite write_Commas, intro_Commas. cbn [wrest intros_l]. destruct (write d m). now rewrite sapp_nil_r. Qed.

Theorem C51_list_predicates : forall E ks q kx x l il c ic, List.In q quantifiers ->
  exists e i, predicate_where ks (predicate_in (predicate_create (fst q) (Sym kx x)) (Elem (Good l) il)) (Elem (Good c) ic) = Returns (Elem (Good e) i)
  /\ is_condition e = true
  /\ forall m, transparent (print E e) m -> write (print E e) m = write (predicate_doc E (snd q) x l c) m.
Proof.
  intros E ks q kx x l il c ic Q.
  assert (X : predicate_where ks (predicate_in (predicate_create (fst q) (Sym kx x)) (Elem (Good l) il)) (Elem (Good c) ic)
    = Returns (made (Good (EBoolFun (EFun (ks 0) (snd q) (ks 1) [EListPred (ks 2) (ESym kx x) l (EWhere (ks 3) c)]))))).
  { cbn in Q. repeat destruct Q as [<-|Q]; try reflexivity. destruct Q. }
  rewrite X. eexists. eexists. split; [reflexivity|]. split; [reflexivity|]. intros m T. rewrite plain_write by exact T.
  change (plain (print E (EBoolFun (EFun (ks 0) (snd q) (ks 1) [EListPred (ks 2) (ESym kx x) l (EWhere (ks 3) c)]))))
    with (plain (print E (EFun (ks 0) (snd q) (ks 1) [EListPred (ks 2) (ESym kx x) l (EWhere (ks 3) c)]))).
  etransitivity; [apply call_text; reflexivity|]. unfold call_doc, predicate_doc, shows. cbn [map print plain print_op op_word].
  apply leq_deq. do 2 (apply leq_cons; [apply deq_refl|]).
  eapply leq_trans; [apply skip_empty|]. eapply leq_trans; [apply leq_cons; [apply one_comma|apply leq_refl]|].
  eapply leq_trans; [apply leq_nest|]. cbn [app]. do 3 (apply leq_cons; [apply deq_refl|]).
  eapply leq_trans; [apply leq_nest|]. apply leq_refl.
Qed.
Print Assumptions C51_list_predicates.

Theorem C51_exists : forall E ks v p, given v = Some p ->
  exists e i, predicate_exists ks v = Returns (Elem (Good e) i) /\ is_condition e = true
  /\ forall m, transparent (print E e) m -> write (print E e) m = write (call_doc "exists" false [shows E p]) m.
Proof.
  intros E ks v p G. apply given_some in G as [[i ->] S]. eexists. eexists. split; [reflexivity|]. split; [reflexivity|].
  intros m T. rewrite plain_write by exact T. apply (call_text E (ks 0) "exists" (ks 1) [p]). cbn. now rewrite S.
Qed.
Print Assumptions C51_exists.

Example C51_case :
  result_text (predicate_where (kt "p") (predicate_in (predicate_create FSingle (Sym "x" "x")) (nm "xs")) (compare (kt "c") IsEqualTo (nm "x") (nm "y")))
    = Some "single(x IN xs WHERE x = y)"
  /\ List.In (FSingle, "single") quantifiers
  /\ result_text (predicate_exists (kt "p") (property_by_expression (kt "q") (nm "n") "name")) = Some "exists(n.name)".
Proof. split; [vm_compute; reflexivity|]. split; [cbn; tauto|vm_compute; reflexivity]. Qed.

(** A condition that is missing is reported; a missing list loses the predicate
    and its name without an error, and rendering panics; the error of a property
    is lost. *)
Theorem C51_missing_condition : forall ks b c, value_ok c = false ->
  exists v m, predicate_where ks b c = Returns v /\ value_err v = Some m.
Proof. intros ks b c H. unfold predicate_where. rewrite H. eexists. eexists. split; reflexivity. Qed.
Print Assumptions C51_missing_condition.

Theorem C51_errors_refuted : forall ks f s l c ic, value_ok l = false ->
  predicate_where ks (predicate_in (predicate_create f s) l) (Elem (Good c) ic) = Returns (made Hollow)
  /\ result_text (predicate_exists kk bad_name) = Some "()".
Proof. intros ks f s l c ic H. unfold predicate_in. rewrite H. split; [reflexivity|vm_compute; reflexivity]. Qed.
Print Assumptions C51_errors_refuted.

(** ** C52 *)

Theorem C52_named_path : forall E k kx x p ip, x <> "" ->
  let q := path_create k (a_path kx x) (Elem (Good p) ip) in
  pt_err q = None /\ n_sym (path_as_named q) = Sym kx x
  /\ exists e, path_value q = Elem (Good e) NilValue
     /\ forall m, transparent (print E e) m -> write (print E e) m = write (named_path_doc E x (shows E p)) m.
Proof.
  intros E k kx x p ip N q. subst q. unfold a_path. apply String.eqb_neq in N. rewrite N. split; [reflexivity|]. split; [reflexivity|].
  eexists. split; [reflexivity|]. intros m T. rewrite plain_write by exact T. reflexivity.
Qed.
Print Assumptions C52_named_path.

Theorem C52_shortest_path : forall E ks x r, x <> "" -> Patterns.r_err r = None -> r_not_nil r = true ->
  let q := a_shortest_path ks x r in
  pt_err q = None
  /\ exists e, path_value q = Elem (Good e) NilValue
     /\ forall m, transparent (print E e) m ->
        write (print E e) m = write (named_path_doc E x (call_doc "shortestPath" false [shows E (rel_expr r)])) m.
Proof.
  intros E ks x r N R O q. subst q. unfold a_shortest_path, rel_as_value. apply String.eqb_neq in N. rewrite N, R, O. split; [reflexivity|].
  eexists. split; [reflexivity|]. intros m T. rewrite plain_write by exact T. unfold named_path_doc. cbn [print plain map].
  apply leq_deq. do 2 (apply leq_cons; [apply deq_refl|]). apply leq_cons; [|apply leq_refl].
  apply (call_text E (ks 2) "shortestPath" (ks 3) [rel_expr r]). reflexivity.
Qed.
Print Assumptions C52_shortest_path.

(** A path or a list comprehension whose name is a symbolic name. *)
Theorem C52_path_of_symbolic_name : forall k kx x p, x <> "" ->
  path_create k (a_path_of (Sym kx x)) p = path_create k (a_path kx x) p.
Proof. intros k kx x p N. unfold a_path. apply String.eqb_neq in N. now rewrite N. Qed.
Print Assumptions C52_path_of_symbolic_name.
Theorem C50_symbolic_name : forall kx x, list_comprehension_with (Sym kx x) = list_with (Sym kx x).
Proof. reflexivity. Qed.
Print Assumptions C50_symbolic_name.
(** The error of the symbolic name is forgotten. *)
Theorem C52_symbolic_name_error_refuted : forall k m, sym_err (BadSym m) = Some m
  /\ pt_err (path_create k (a_path_of (BadSym m)) (nm "pattern")) = None
  /\ value_err (list_comprehension_create k (list_in (list_comprehension_with (BadSym m)) (nm "xs")) (nm "y")) <> Some m.
Proof. intros k m. repeat split; try reflexivity. intros H. vm_compute in H. congruence. Qed.
Print Assumptions C52_symbolic_name_error_refuted.

(** Errors of the name and of the pattern are reported, by the path and wherever
    it is used. *)
Theorem C52_errors : forall ks k s p x r m,
  (value_err p = Some m -> exists m', pt_err (path_create k s p) = Some m' /\ (sym_err s = None -> m' = m))
  /\ pt_err (path_create k (BadSym m) p) = Some m
  /\ (exists m', pt_err (a_shortest_path ks "" r) = Some m')
  /\ (x <> "" -> Patterns.r_err r = Some m -> pt_err (a_shortest_path ks x r) = Some m)
  /\ (forall q, pt_err q = Some m -> value_err (path_value q) = Some m).
Proof.
  intros ks k s p x r m. split; [|split; [|split; [|split]]].
  - intros H. unfold path_create. rewrite H. destruct (sym_err s); eexists; (split; [reflexivity|]); congruence.
  - reflexivity.
  - eexists. reflexivity.
  - intros N R. unfold a_shortest_path. apply String.eqb_neq in N. now rewrite N, R.
  - intros q Q. unfold path_value. now rewrite Q.
Qed.
Print Assumptions C52_errors.

Example C52_case : says (path_value (path_create "k" (a_path "p" "p") (nm "pattern"))) = Some "p = pattern".
Proof. vm_compute. reflexivity. Qed.

(** A path without a name is accepted. *)
Theorem C52_empty_name_refuted : forall k kx, pt_err (path_create k (a_path kx "") (nm "pattern")) = None
  /\ says (path_value (path_create "k" (a_path "p" "") (nm "pattern"))) = Some "guid = pattern".
Proof. intros. split; [reflexivity|vm_compute; reflexivity]. Qed.
Print Assumptions C52_empty_name_refuted.

(** ** C53 *)

Lemma status_err : forall v w, status_of v = status_of w -> value_err v = value_err w.
Proof. intros [|c i] [|c' i'] H; try discriminate; [reflexivity|]. injection H as ->. reflexivity. Qed.
Lemma status_ok : forall v w, status_of v = status_of w -> value_ok v = value_ok w.
Proof. intros [|c i] [|c' i'] H; try discriminate; [reflexivity|]. injection H as ->. reflexivity. Qed.
Lemma status_shown : forall v w, status_of v = status_of w -> shown v = shown w.
Proof. intros [|c i] [|c' i'] H; try discriminate; [reflexivity|]. injection H as ->. reflexivity. Qed.
Lemma status_nil : forall v w, status_of v = status_of w -> is_nil v = is_nil w.
Proof. intros [|c i] [|c' i'] H; try discriminate; reflexivity. Qed.
Lemma status_operand : forall k v w, status_of v = status_of w -> operand (nested_if_condition k v) = operand (nested_if_condition k w).
Proof. intros k [|c i] [|c' i'] H; try discriminate; [reflexivity|]. injection H as ->. cbn. destruct c'; try reflexivity; destruct (is_condition e); reflexivity. Qed.

Section Copies.
Context (f : value -> value) (F : forall v, status_of (f v) = status_of v).

Lemma copies_err : forall vs, first_err (map f vs) = first_err vs.
Proof.
  induction vs as [|v vs IH]; [reflexivity|]. cbn [map first_err]. specialize (F v). destruct v as [|c i], (f _) as [|c' i']; try discriminate; [reflexivity|].
  injection F as ->. rewrite IH. reflexivity.
Qed.
Lemma copies_parts : forall g vs, of_parts g (map f vs) = of_parts g vs.
Proof.
  intros g vs. unfold of_parts. replace (fold_right _ (Some []) (map f vs)) with
    (fold_right (fun (v : value) (acc : option (list expr)) => match shown v, acc with Some e, Some l => Some (e :: l) | _, _ => None end) (Some []) vs); [reflexivity|].
  induction vs as [|v vs IH]; [reflexivity|]. cbn [map fold_right]. now rewrite (status_shown _ _ (F v)), IH.
Qed.
Lemma copies_missing : forall vs, first_missing (map f vs) = first_missing vs.
Proof. intros [|v vs]; [reflexivity|]. cbn. now rewrite (status_ok _ _ (F v)). Qed.
Lemma copies_function : forall ks n vs, named_function_create ks n (map f vs) = named_function_create ks n vs.
Proof. intros ks n vs. unfold named_function_create, invocation. now rewrite copies_err, copies_missing, copies_parts. Qed.
Lemma copies_distinct : forall ks b v vs vs', first_err (f v :: vs') = first_err (v :: vs) ->
  (forall g w, of_parts g (w :: vs') = of_parts g (w :: vs)) -> create_distinct ks b (f v :: vs') = create_distinct ks b (v :: vs).
Proof.
  intros ks b v vs vs' He P. unfold create_distinct, invocation, distinct_of. rewrite He. cbn [first_missing]. rewrite (status_ok _ _ (F v)).
  rewrite P. unfold of_part. now rewrite (status_shown _ _ (F v)).
Qed.
Lemma copies_fn1 : forall ks g v, fn1_call ks g (f v) = fn1_call ks g v.
Proof.
  intros ks g v. unfold fn1_call. destruct (fn1_distinct g); [|apply (copies_function ks _ [v])].
  apply copies_distinct; [apply (copies_err [v])|reflexivity].
Qed.

Lemma copies : forall ks K u, use_run ks K (use_with f u) = use_run ks K u.
Proof.
  intros ks K u.
  destruct u as [c x y|c x y|b x|b x|x s|x|x a|t a b|t a|t b|t i|vs|v n|u]; cbn [use_run use_with].
  - unfold compute, operation_create, of_two. now rewrite (status_err _ _ (F x)), (status_err _ _ (F y)), (status_ok _ _ (F x)), (status_ok _ _ (F y)), (status_shown _ _ (F x)), (status_shown _ _ (F y)).
  - unfold compare, comparison_create. now rewrite (status_err _ _ (F x)), (status_err _ _ (F y)), (status_ok _ _ (F x)), (status_nil _ _ (F y)), !(status_operand _ _ _ (F _)).
  - destruct b; unfold is_null, is_not_null, postfix_create; now rewrite (status_err _ _ (F x)), (status_ok _ _ (F x)), !(status_operand _ _ _ (F _)).
  - unfold is_bool, compare, comparison_create. now rewrite (status_err _ _ (F x)), (status_ok _ _ (F x)), !(status_operand _ _ _ (F _)).
  - unfold matches_pattern, compare, comparison_create. now rewrite (status_err _ _ (F x)), (status_ok _ _ (F x)), !(status_operand _ _ _ (F _)).
  - unfold is_empty. now rewrite copies_fn1.
  - unfold as_, aliased_create, of_part. now rewrite (status_ok _ _ (F x)), (status_shown _ _ (F x)).
  - unfold sub_list, list_operator_create. cbn [option_map].
    now rewrite (status_err _ _ (F t)), (status_err _ _ (F a)), (status_err _ _ (F b)), (status_ok _ _ (F t)), (status_ok _ _ (F a)), (status_ok _ _ (F b)), (status_shown _ _ (F t)), (status_shown _ _ (F a)), (status_shown _ _ (F b)).
  - unfold sub_list_from, list_operator_create. cbn [option_map].
    now rewrite (status_err _ _ (F t)), (status_err _ _ (F a)), (status_ok _ _ (F t)), (status_ok _ _ (F a)), (status_shown _ _ (F t)), (status_shown _ _ (F a)).
  - unfold sub_list_until, list_operator_create. cbn [option_map].
    now rewrite (status_err _ _ (F t)), (status_err _ _ (F b)), (status_ok _ _ (F t)), (status_ok _ _ (F b)), (status_shown _ _ (F t)), (status_shown _ _ (F b)).
  - unfold value_at, list_operator_create. cbn [option_map].
    now rewrite (status_err _ _ (F t)), (status_err _ _ (F i)), (status_ok _ _ (F t)), (status_ok _ _ (F i)), (status_shown _ _ (F t)), (status_shown _ _ (F i)).
  - unfold list_of. now rewrite copies_err, copies_parts.
  - unfold property_by_expression, of_part. now rewrite (status_err _ _ (F v)), (status_nil _ _ (F v)), (status_shown _ _ (F v)).
  - destruct u as [g v|vs|a b|disc di v p|a b|a b s|g n|g|g|t g|t s|t v|y m' d'|y w d'|y q d'|y d'|t z]; cbn [fn_run fn_with]; try reflexivity.
    + apply copies_fn1.
    + apply copies_function.
    + unfold distance. rewrite (status_err _ _ (F a)), (status_err _ _ (F b)), (status_ok _ _ (F a)), (status_ok _ _ (F b)).
      unfold function_create. now rewrite (copies_function ks _ [a; b]).
    + unfold percentile. rewrite (status_err _ _ (F v)), (status_ok _ _ (F v)).
      set (bf := if disc then FPercentileDisc else FPercentileCont).
      assert (X : (if di then create_distinct else function_create) ks bf [f v; float_value (ks 2) p] = (if di then create_distinct else function_create) ks bf [v; float_value (ks 2) p]).
      { assert (E1 : first_err [f v; float_value (ks 2) p] = first_err [v; float_value (ks 2) p]).
        { specialize (F v). destruct v as [|c i], (f _) as [|c' i']; try discriminate; [reflexivity|]. injection F as ->. reflexivity. }
        destruct di; [now apply copies_distinct|]. unfold function_create, named_function_create, invocation. rewrite E1. cbn [first_missing]. rewrite (status_ok _ _ (F v)).
        unfold of_parts. cbn [fold_right]. now rewrite (status_shown _ _ (F v)). }
      rewrite X. reflexivity.
    + unfold range, range_with_step. rewrite (status_err _ _ (F a)), (status_err _ _ (F b)), (status_ok _ _ (F a)), (status_ok _ _ (F b)). cbn [value_ok].
      unfold function_create. now rewrite (copies_function ks _ [a; b]).
    + unfold range_with_step. rewrite (status_err _ _ (F a)), (status_err _ _ (F b)), (status_err _ _ (F s)), (status_ok _ _ (F a)), (status_ok _ _ (F b)), (status_ok _ _ (F s)).
      unfold function_create. destruct (value_ok s); [rewrite (copies_function ks _ [a; b; s])|rewrite (copies_function ks _ [a; b])]; reflexivity.
    + unfold temporal_expression. pose proof (F v) as G. destruct v as [|c i], (f _) as [|c' i'] eqn:FV; try discriminate; [reflexivity|].
      injection G as ->. cbn [value_err value_ok]. unfold function_create. pose proof (copies_function ks (impl_name (temporal_builtin t)) [Elem c i]) as X. cbn [map] in X.
      rewrite FV in X. now rewrite X.
Qed.
End Copies.

(** What a call makes depends on its operands only by whether they were set, by
    their errors and by what they write. *)
Theorem C53_copies : forall f, (forall v, status_of (f v) = status_of v) ->
  forall ks K u, use_run ks K (use_with f u) = use_run ks K u.
Proof. exact copies. Qed.
Print Assumptions C53_copies.

(** A successful call makes an element on which methods may be called: its
    methods see what the element is. *)
Theorem C53_methods_of_results : forall ks K u e i, use_run ks K u = Returns (Elem (Good e) i) ->
  status_of (held (Elem (Good e) i)) = Some (Good e).
Proof.
  assert (MD : forall c e i, made c = Elem (Good e) i -> i = Elem (Good e) NilValue) by (unfold made; congruence).
  assert (RI : forall v w : value, Returns v = Returns w -> v = w) by congruence.
  assert (MF : forall ks n vs e i, named_function_create ks n vs = Returns (Elem (Good e) i) -> i = Elem (Good e) NilValue).
  { intros ks n vs e i H. unfold named_function_create in H. destruct (first_err vs) as [[|]| |]; try discriminate.
    destruct (first_missing vs); [discriminate|]. apply RI in H. now apply MD in H. }
  assert (MDi : forall ks b vs e i, create_distinct ks b vs = Returns (Elem (Good e) i) -> i = Elem (Good e) NilValue).
  { intros ks b vs e i H. unfold create_distinct in H. destruct (first_err vs) as [[|]| |]; try discriminate.
    destruct (negb (is_aggregate b)); [discriminate|]. destruct (first_missing vs); [discriminate|]. destruct vs; apply RI in H; now apply MD in H. }
  assert (MC : forall ks l o r e i, comparison_create ks l o r = Elem (Good e) i -> i = Elem (Good e) NilValue).
  { intros ks l o r e i H. unfold comparison_create in H. destruct (value_err l), (value_err r); try discriminate.
    destruct (negb (value_ok l)); [discriminate|]. destruct (_ || _)%bool; [discriminate|]. now apply MD in H. }
  assert (MM : forall ks K b fs e i, function_of_map ks K b fs = Returns (Elem (Good e) i) -> i = Elem (Good e) NilValue).
  { intros ks K b fs e i H. unfold function_of_map in H. destruct (literal_map K fs); try discriminate. now apply MF in H. }
  intros ks K u e i H. cut (i = Elem (Good e) NilValue); [now intros ->|].
  destruct u as [c x y|c x y|b x|b x|x s|x|x a|t a b|t a|t b|t j|vs|v n|u]; cbn [use_run] in H.
  - apply RI in H. unfold compute, operation_create in H. destruct (value_err x), (value_err y); try discriminate.
    destruct (negb (value_ok x)); [discriminate|]. destruct (negb (value_ok y)); [discriminate|]. now apply MD in H.
  - apply RI in H. now apply MC in H.
  - apply RI in H. destruct b; cbn beta iota in H; unfold is_null, is_not_null, postfix_create in H; destruct (value_err x); try discriminate; destruct (negb (value_ok x)); try discriminate; now apply MD in H.
  - apply RI in H. now apply MC in H.
  - apply RI in H. now apply MC in H.
  - unfold is_empty in H. destruct (fn1_call _ Size x); try discriminate. apply RI in H. now apply MC in H.
  - apply RI in H. unfold as_, aliased_create in H. destruct (negb (value_ok x)); [discriminate|]. destruct (String.eqb a ""); [discriminate|]. now apply MD in H.
  - apply RI in H. unfold sub_list in H. destruct (value_err t), (value_err a), (value_err b); try discriminate.
    destruct (negb (value_ok t)); [discriminate|]. destruct (negb (value_ok a)); [discriminate|]. destruct (negb (value_ok b)); [discriminate|]. now apply MD in H.
  - apply RI in H. unfold sub_list_from in H. destruct (value_err t), (value_err a); try discriminate.
    destruct (negb (value_ok t)); [discriminate|]. destruct (negb (value_ok a)); [discriminate|]. now apply MD in H.
  - apply RI in H. unfold sub_list_until in H. destruct (value_err t), (value_err b); try discriminate.
    destruct (negb (value_ok t)); [discriminate|]. destruct (negb (value_ok b)); [discriminate|]. now apply MD in H.
  - apply RI in H. unfold value_at in H. destruct (value_err t), (value_err j); try discriminate.
    destruct (negb (value_ok t)); [discriminate|]. destruct (negb (value_ok j)); [discriminate|]. now apply MD in H.
  - unfold list_of in H. destruct (first_err vs) as [[|]| |]; try discriminate. apply RI in H. now apply MD in H.
  - apply RI in H. unfold property_by_expression in H. destruct (value_err v); [discriminate|]. destruct (is_nil v); [discriminate|].
    destruct (String.eqb n ""); [discriminate|]. now apply MD in H.
  - destruct u as [g v|vs|a b|disc di v p|a b|a b s|g n|g|g|t g|t s|t v|y m' d'|y w d'|y q d'|y d'|t z]; cbn [fn_run] in H.
    + unfold fn1_call in H. destruct (fn1_distinct g); [now apply MDi in H|now apply MF in H].
    + now apply MF in H.
    + unfold distance in H. destruct (value_err a), (value_err b); try discriminate. destruct (_ && _)%bool; [|discriminate]. now apply MF in H.
    + unfold percentile in H. destruct (value_err v); [discriminate|]. destruct (negb (value_ok v)); [discriminate|]. destruct (_ || _)%bool; [discriminate|].
      destruct di; [now apply MDi in H|now apply MF in H].
    + unfold range, range_with_step in H. destruct (value_err a), (value_err b); try discriminate. cbn [value_err] in H.
      destruct (negb (value_ok a)); [discriminate|]. destruct (negb (value_ok b)); [discriminate|]. now apply MF in H.
    + unfold range_with_step in H. destruct (value_err a), (value_err b), (value_err s); try discriminate.
      destruct (negb (value_ok a)); [discriminate|]. destruct (negb (value_ok b)); [discriminate|]. now apply MF in H.
    + destruct g; cbn [named_call] in H; unfold with_required in H;
        repeat match type of H with
               | (match n_err n with _ => _ end) = _ => destruct (n_err n); [discriminate|]
               | (if n_ok n then _ else _) = _ => destruct (n_ok n); [|discriminate]
               | (if negb (n_ok n) then _ else _) = _ => destruct (negb (n_ok n)); [discriminate|]
               | (match required_name n with _ => _ end) = _ => destruct (required_name n); try discriminate
               end; first [now apply MF in H|now apply MDi in H].
    + now apply MF in H.
    + now apply MF in H.
    + destruct g; try discriminate. now apply MF in H.
    + unfold temporal_text in H. destruct (String.eqb s ""); [discriminate|]. now apply MF in H.
    + unfold temporal_expression in H. destruct v; [discriminate|]. destruct (value_err (Elem c v)); [discriminate|]. destruct (value_ok (Elem c v)); [|discriminate]. now apply MF in H.
    + now apply MM in H.
    + now apply MM in H.
    + now apply MM in H.
    + now apply MM in H.
    + now apply MM in H.
Qed.
Print Assumptions C53_methods_of_results.

Example C53_case :
  let sum := compute (kt "s") Add (nm "x") (nm "y") in
  says (compare (kt "c") Lt (get sum) (get sum)) = says (compare (kt "c") Lt sum sum)
  /\ says (compare (kt "c") Lt sum sum) = Some "(x + y) < (x + y)".
Proof. split; vm_compute; reflexivity. Qed.

(** What Get returns has no working methods, and a list literal has none either. *)
Theorem C53_get_twice_refuted : forall ks c y, exists m1 m2,
  value_err (compare ks IsEqualTo (held (get (made (Good c)))) y) = Some m1
  /\ value_err (compare ks IsEqualTo (held (list_literal_value "l" [GOk (ESym "a" "a")])) y) = Some m2.
Proof.
  intros ks c y. cbn [get made held list_literal_value first_error]. unfold compare, comparison_create. cbn [value_err value_ok negb].
  destruct (value_err y); eexists; eexists; split; reflexivity.
Qed.
Print Assumptions C53_get_twice_refuted.

(** ** C54 *)

Lemma sort_text : forall E k e d, deq (plain (print E (ESort k e d))) (sort_doc E e d).
Proof.
  intros E k e d. unfold sort_doc, shows. cbn [print plain map]. destruct d as [[|]|]; try apply deq_refl.
  apply deq_sym. apply (deq_empty [plain (print E e)] []).
Qed.

(** Sort items, and their Ascending and Descending, write the expression and the
    direction. *)
Theorem C54_sort_items : forall E k k' e i d,
  let s := sort_item_create k (Elem (Good e) i) d in
  let writes s d' := exists x, sort_item_shown s = Some x /\ forall m, transparent (print E x) m -> write (print E x) m = write (sort_doc E e d') m in
  si_err s = None /\ writes s d
  /\ writes (sort_item_ascending k' s) (Some false) /\ writes (sort_item_descending s) (Some true)
  /\ writes (Functions.descending k (Elem (Good e) i)) (Some true) /\ writes (Functions.ascending k (Elem (Good e) i)) (Some false).
Proof.
  intros E k k' e i d s W. subst s W. cbv beta. split; [reflexivity|].
  repeat split; (eexists; split; [reflexivity|]; intros m T; rewrite plain_write by exact T; apply sort_text).
Qed.
Print Assumptions C54_sort_items.

(** Errors of the expression are reported. *)
Theorem C54_sort_errors : forall k v m d, value_err v = Some m -> si_err (sort_item_create k v d) = Some m.
Proof. intros k v m d H. unfold sort_item_create. now rewrite H. Qed.
Print Assumptions C54_sort_errors.

Example C54_case : exists x, sort_item_shown (sort_item_descending (sort_item_create "k" (nm "n") None)) = Some x /\ text (print env0 x) = "n DESC".
Proof. eexists. split; [reflexivity|vm_compute; reflexivity]. Qed.

(** Ascending and Descending forget the error; then rendering panics. *)
Theorem C54_errors_refuted : forall k v m d, value_err v = Some m ->
  let s := sort_item_create k v d in
  si_err (sort_item_descending s) = None /\ si_err (sort_item_ascending k s) = None
  /\ sort_item_shown (sort_item_descending s) = None /\ sort_item_shown (sort_item_ascending k s) = None.
Proof. intros k v m d H s. subst s. unfold sort_item_create at 1 2 3 4. rewrite H. repeat split. Qed.
Print Assumptions C54_errors_refuted.

(** Sort items from texts sort by a constant; a text without a direction panics. *)
Theorem C54_raw_refuted :
  (exists s x, sort_item_of_raw kk "n.name DESC" = Returns s /\ sort_item_shown s = Some x /\ text (print env0 x) = "'n.name' DESC")
  /\ sort_item_of_raw kk "name" = Panics.
Proof. split; [eexists; eexists; split; [reflexivity|split; [reflexivity|vm_compute; reflexivity]]|reflexivity]. Qed.
Print Assumptions C54_raw_refuted.
