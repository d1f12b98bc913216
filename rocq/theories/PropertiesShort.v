(** Headline theorems about functions of patterns, refused calls, properties,
    aliases, label tests, lists, and patterns and subqueries as conditions:
    C47, C48, C55, C56. *)

From Coq Require Import Ascii String List ZArith Bool Lia.
From Verif Require Import GoStr Escape Num VTree Ast GoVal Maps SpecDoc SpecPrint Patterns SpecPattern SpecCond Cond Queries Builder Exprs Functions SpecExpr SpecCalls.
From Verif Require Import EscapeProofs DocProofs PatternProofs CondProofs ExprProofs FunctionProofs PropertiesText PropertiesExpr PropertiesCalls.
From Verif Require PropertiesCond.
Import ListNotations.
Open Scope string_scope.
Open Scope list_scope.

(** The value was set without error and writes the document wherever none of
    its parts has an alias. *)
Definition written_as (E : env) (v : value) (d : doc) : Prop :=
  exists e i, v = Elem (Good e) i /\ forall m, transparent (print E e) m -> write (print E e) m = write d m.

Lemma written_deq : forall E v e i d, v = Elem (Good e) i -> deq (plain (print E e)) d -> written_as E v d.
Proof. intros E v e i d -> D. exists e, i. split; [reflexivity|]. intros m T. rewrite plain_write by exact T. apply D. Qed.

(** ** C47: functions of patterns *)

Theorem C47_pattern_functions : forall E ks p i, silent p = false ->
  written_as E (size_by_pattern ks (Elem (Good p) i)) (call_doc "size" false [shows E p])
  /\ written_as E (predicate_exists_pattern ks (Elem (Good p) i)) (call_doc "exists" false [shows E p]).
Proof.
  intros E ks p i S. assert (L : loud [p] = true) by (cbn; now rewrite S). split; (eapply written_deq; [reflexivity|]); cbn [print];
    apply (call_text E (ks 0) _ (ks 1) [p] L).
Qed.
Print Assumptions C47_pattern_functions.

Theorem C47_shortest_path : forall E ks r, Patterns.r_err r = None -> r_not_nil r = true ->
  written_as E (shortest_path ks r) (call_doc "shortestPath" false [shows E (rel_expr r)]).
Proof.
  intros E ks r N O. unfold shortest_path, rel_as_value. rewrite N, O. eapply written_deq; [reflexivity|].
  apply (call_text E (ks 0) "shortestPath" (ks 1) [rel_expr r]). reflexivity.
Qed.
Print Assumptions C47_shortest_path.

Example C47_pattern_case :
  says (size_by_pattern (kt "s") (nm "pattern")) = Some "size(pattern)"
  /\ says (predicate_exists_pattern (kt "s") (nm "pattern")) = Some "exists(pattern)".
Proof. split; vm_compute; reflexivity. Qed.

(** ** C48: refused calls *)

(** A pattern that has an error or is not set is an error of size and
    shortestPath... *)
Theorem C48_pattern_arguments : forall ks p m,
  (value_err p = Some m -> value_err (size_by_pattern ks p) = Some m)
  /\ (value_ok p = false -> exists m', value_err (size_by_pattern ks p) = Some m')
  /\ forall r, (Patterns.r_err r = Some m -> value_err (shortest_path ks r) = Some m)
            /\ (r_not_nil r = false -> exists m', value_err (shortest_path ks r) = Some m').
Proof.
  intros ks p m. split; [|split; [|intros r; split]].
  - intros H. unfold size_by_pattern, create_with_element. now rewrite H.
  - intros H. unfold size_by_pattern, create_with_element. destruct (value_err p) eqn:V; [eexists; reflexivity|]. rewrite H. eexists. reflexivity.
  - intros H. unfold shortest_path, create_with_element, rel_as_value. now rewrite H.
  - intros H. unfold shortest_path, create_with_element, rel_as_value. destruct (Patterns.r_err r); [eexists; reflexivity|]. rewrite H. eexists. reflexivity.
Qed.
Print Assumptions C48_pattern_arguments.

(** ... but not of exists. *)
Theorem C48_exists_pattern_refuted : exists p m, value_err p = Some m /\ says (predicate_exists_pattern kk p) = Some "()".
Proof. exists bad_name, "a name is required". split; vm_compute; reflexivity. Qed.
Print Assumptions C48_exists_pattern_refuted.

(** Empty aliases and names of properties, no argument of coalesce, percentiles
    outside of 0 and 1, empty temporal texts and elements without a name are
    errors. *)
Theorem C48_refused_calls : forall ks K u,
  Forall (fun v => v <> NilValue) (use_operands u) -> ~ well_called u ->
  (forall n, u <> Calling (OfNamed CountOf n) /\ u <> Calling (OfNamed CountDistinctOf n)) ->
  (forall d b v p, u = Calling (OfPercentile d b v p) -> (0 <= n_mant p)%Z) ->
  exists v m, use_run ks K u = Returns v /\ value_err v = Some m.
Proof.
  intros ks K u N W C P.
  destruct u as [c x y|c x y|b x|b x|x s|x|x a|t a b|t a|t b|t i|vs|v n|u]; cbn [well_called use_run use_operands] in *; try (now destruct W).
  - unfold as_, aliased_create. destruct (value_ok x); cbn [negb]; [|eexists; eexists; split; reflexivity].
    destruct (String.eqb_spec a ""); [eexists; eexists; split; reflexivity|now destruct W].
  - unfold property_by_expression. destruct (value_err v); [eexists; eexists; split; reflexivity|]. destruct (is_nil v); [eexists; eexists; split; reflexivity|].
    destruct (String.eqb_spec n ""); [eexists; eexists; split; reflexivity|now destruct W].
  - destruct u as [f v|vs|a b|disc di v p|a b|a b s|f n|g|g|t g|t s|t v|y m d'|y w d'|y q d'|y d'|t z]; cbn [well_called fn_run fn_operands] in *; try (now destruct W).
    + destruct vs; [eexists; eexists; split; reflexivity|]. destruct W. discriminate.
    + unfold percentile. destruct (value_err v); [eexists; eexists; split; reflexivity|]. destruct (value_ok v); cbn [negb]; [|eexists; eexists; split; reflexivity].
      assert (X : (below_zero (Finite p) || above_one (Finite p))%bool = true).
      { specialize (P _ _ _ _ eq_refl). apply not_false_iff_true. intros F. apply W. apply orb_false_iff in F as [A B]. cbn [below_zero above_one] in *.
        split; [exact P|]. apply andb_false_iff in A. split.
        - destruct A as [->|A]; [now right|]. left. apply Z.ltb_ge in A. lia.
        - apply andb_false_iff in B. destruct (Z.leb 0 (n_exp p)) eqn:L.
          + destruct B as [B|B]; [|now apply Z.ltb_ge in B]. apply negb_false_iff in B. destruct A as [A|A]; [congruence|]. apply Z.ltb_ge in A.
            assert (M : n_mant p = 0%Z) by lia. rewrite M. lia.
          + destruct B as [B|B]; [|now apply Z.ltb_ge in B]. apply negb_false_iff in B. destruct A as [A|A]; [congruence|]. apply Z.ltb_ge in A.
            assert (M : n_mant p = 0%Z) by lia. rewrite M. apply Z.pow_nonneg. lia. }
      rewrite X. eexists. eexists. split; reflexivity.
    + destruct n as [s ok er mi]. cbn [n_ok n_err n_sym] in W.
      destruct f; cbn [named_call]; unfold with_required, required_name; cbn [n_err n_ok n_sym n_missing];
        try (destruct (C (Named s ok er mi)); congruence);
        destruct er; try (eexists; eexists; split; reflexivity); destruct ok; cbn [negb]; try (eexists; eexists; split; reflexivity);
        destruct s as [k x| |m0]; try (eexists; eexists; split; reflexivity); destruct W; repeat split; reflexivity.
    + unfold temporal_text. destruct (String.eqb_spec s ""); [eexists; eexists; split; reflexivity|now destruct W].
Qed.
Print Assumptions C48_refused_calls.

Example C48_refused_case :
  ~ well_called (Aliasing (nm "x") "") /\ ~ well_called (Calling (OfPercentile false true (nm "x") (Num false 11 (-1))))
  /\ ~ well_called (Calling (OfNamed NodesOf (Named NoSym true None "none"))).
Proof.
  split; [intros H; now apply H|]. split.
  - intros (_ & _ & H). cbn in H. lia.
  - intros (_ & _ & H). discriminate.
Qed.

(** A node made from labels counts as missing, even if it is named. *)
Theorem C48_labelled_node_refuted :
  let n := node_named_by_string kk (node_with_labels "Person" []) "n" in
  nd_err n = None /\ n_sym (node_as_named n) = Sym "k0" "n"
  /\ named_call kk "node" LabelsOf (node_as_named n) = Returns (function_error "node is required").
Proof. cbv zeta. repeat split. Qed.
Print Assumptions C48_labelled_node_refuted.

(** ** C49: bounds that are numbers *)

Theorem C49_number_bounds : forall E ks t i a b,
  let T := Elem (Good t) i in
  let range x y := Cat ([shows E t; Txt "["] ++ x ++ [Txt ".."] ++ y ++ [Txt "]"]) in
  written_as E (a_sub_list ks T a b) (range [Txt (int_text a)] [Txt (int_text b)])
  /\ written_as E (a_sub_list_from ks T a) (range [Txt (int_text a)] [])
  /\ written_as E (a_sub_list_until ks T b) (range [] [Txt (int_text b)])
  /\ written_as E (a_value_at ks T a) (Cat [shows E t; Txt "["; Txt (int_text a); Txt "]"]).
Proof.
  intros E ks t i a b T range. subst T range. cbv beta. repeat split; (eapply written_deq; [reflexivity|]); cbn [print plain map app maybe option_map];
    apply leq_deq; (apply leq_cons; [apply deq_refl|]); (eapply leq_trans; [apply leq_nest|]); rewrite app_nil_r; apply leq_refl.
Qed.
Print Assumptions C49_number_bounds.

(** ** C55 *)

(** The property of an expression, and of a node, relationship or path with a
    name. *)
Theorem C55_properties : forall E ks c i name, name <> "" -> name <> "*" ->
  written_as E (property_by_expression ks (Elem (Good c) i) name) (property_doc E (shows E c) name).
Proof.
  intros E ks c i name N S. unfold property_by_expression. cbn [value_err is_nil]. rewrite (proj2 (String.eqb_neq _ _) N).
  eapply written_deq; [reflexivity|]. cbn [print plain map]. unfold lookup_text, property_doc, shows. rewrite (proj2 (String.eqb_neq _ _) S).
  apply leq_deq. apply leq_cons; [apply deq_refl|]. split; intros m; cbn [wcat intros_l write]; [|reflexivity].
  now rewrite !sapp_nil_r.
Qed.
Print Assumptions C55_properties.

Theorem C55_named_properties : forall E ks n k x name, n_err n = None -> n_sym n = Sym k x -> name <> "" -> name <> "*" ->
  written_as E (property_of ks n name) (property_doc E (Txt (resolve E x)) name).
Proof.
  intros E ks n k x name A B N S. unfold property_of, required_name. rewrite A, B, (proj2 (String.eqb_neq _ _) N). cbn [sym_value made].
  exact (C55_properties E ks (ESym k x) (Elem (Good (ESym k x)) NilValue) name N S).
Qed.
Print Assumptions C55_named_properties.

(** Errors, missing names and empty property names are reported. *)
Theorem C55_property_errors : forall ks n name,
  (exists m, n_err n = Some m) \/ sym_not_nil (n_sym n) = false \/ name = "" ->
  exists m, value_err (property_of ks n name) = Some m.
Proof.
  intros ks n name H. unfold property_of, required_name. destruct (n_err n) as [m|]; [eexists; reflexivity|].
  destruct (n_sym n) as [k x| |m0]; try (eexists; reflexivity).
  destruct H as [[m H]|[H|H]]; try discriminate. subst name. eexists. reflexivity.
Qed.
Print Assumptions C55_property_errors.

(** The property of a variable given by its name, of a node and of a
    relationship with a name. *)
Theorem C55_properties_by_name : forall E ks x name, name <> "" -> name <> "*" ->
  (x <> "" -> written_as E (a_property ks x name) (property_doc E (Txt (resolve E x)) name))
  /\ (exists m, value_err (a_property ks "" name) = Some m) /\ (exists m, value_err (a_property ks x "") = Some m)
  /\ (forall n k, nd_err n = None -> nd_sym n = Sym k x -> written_as E (property_of ks (node_as_named n) name) (property_doc E (Txt (resolve E x)) name))
  /\ (forall r k, Patterns.r_err r = None -> dt_sym (r_details r) = Sym k x -> written_as E (property_of ks (rel_as_named r) name) (property_doc E (Txt (resolve E x)) name))
  /\ (forall r, Patterns.r_err r <> None \/ sym_not_nil (dt_sym (r_details r)) = false -> exists m, value_err (property_of ks (rel_as_named r) name) = Some m).
Proof.
  intros E ks x name N S. split; [|split; [|split; [|split; [|split]]]].
  - intros Nx. unfold a_property, symbolic_name_create. apply String.eqb_neq in Nx. rewrite Nx.
    exact (C55_properties E ks (ESym (ks 2) x) (Elem (Good (ESym (ks 2) x)) NilValue) name N S).
  - eexists. reflexivity.
  - unfold a_property, symbolic_name_create. destruct (String.eqb x ""); eexists; reflexivity.
  - intros n k H1 H2. now apply (C55_named_properties E ks (node_as_named n) k x).
  - intros r k H1 H2. now apply (C55_named_properties E ks (rel_as_named r) k x).
  - intros r H. apply C55_property_errors. cbn [rel_as_named n_err n_sym]. destruct (Patterns.r_err r) as [m|]; [left; now exists m|]. destruct H as [H|H]; [now destruct H|auto].
Qed.
Print Assumptions C55_properties_by_name.

(** property.To(value): an assignment for SET. *)
Theorem C55_assignments : forall E k a b i j,
  written_as E (property_to k (Elem (Good a) i) (Elem (Good b) j)) (Cat [shows E a; Txt " = "; shows E b]).
Proof.
  intros E k a b i j. eapply written_deq; [reflexivity|]. cbn [print plain map]. unfold shows. apply leq_deq.
  split; intros m; cbn [wcat intros_l write]; reflexivity.
Qed.
Print Assumptions C55_assignments.
Theorem C55_assignment_errors : forall k p v m,
  (value_err p = Some m -> value_err (property_to k p v) = Some m)
  /\ (value_err p = None -> value_err v = Some m -> value_err (property_to k p v) = Some m).
Proof. intros k p v m. unfold property_to, operation_create. split; [intros ->; reflexivity|intros -> ->; reflexivity]. Qed.
Print Assumptions C55_assignment_errors.
Example C55_case_assignment : says (property_to "k" (a_property kk "n" "age") (int_value "i" 3)) = Some "n.age = 3".
Proof. vm_compute. reflexivity. Qed.

(** Aliases: the expression, AS and the alias. *)
Theorem C55_aliases : forall E ks c i a, a <> "" ->
  exists e j, as_ ks (Elem (Good c) i) a = Elem (Good e) j
  /\ forall m, alias_of (ks 0) (introduced m) = None -> alias_of (key_of (ks 1) c) (introduced m) = None ->
     fst (write (print E e) m) = (fst (write (print E c) m) ++ " AS " ++ escape_if_necessary E a)%string
     /\ alias_of (key_of (ks 1) c) (introduced (snd (write (print E e) m))) = Some (escape_if_necessary E a).
Proof.
  intros E ks c i a N. unfold as_, aliased_create. cbn [value_ok negb]. rewrite (proj2 (String.eqb_neq _ _) N).
  eexists. eexists. split; [reflexivity|]. intros m A B. cbn [print]. rewrite write_Shared, A. cbn [write]. rewrite B.
  destruct (write (print E c) m) as [x m1]. split; [reflexivity|]. cbn. now rewrite String.eqb_refl.
Qed.
Print Assumptions C55_aliases.

Theorem C55_alias_errors : forall ks v a, value_ok v = false \/ a = "" -> exists m, value_err (as_ ks v a) = Some m.
Proof.
  intros ks v a H. unfold as_, aliased_create. destruct (value_ok v); cbn [negb]; [|eexists; reflexivity].
  destruct H as [H| ->]; [discriminate|]. eexists. reflexivity.
Qed.
Print Assumptions C55_alias_errors.

(** A node is aliased by its name; a node without a name and an empty alias are
    errors. *)
Theorem C55_node_aliases : forall E ks n a,
  (forall k x, nd_sym n = Sym k x -> a <> "" ->
     exists e j, node_as ks n a = Elem (Good e) j
     /\ forall m, introduced m = [] -> fst (write (print E e) m) = (resolve E x ++ " AS " ++ escape_if_necessary E a)%string)
  /\ (sym_not_nil (nd_sym n) = false -> value_err (node_as ks n a) = Some "node get symbolic name:  no name present")
  /\ (a = "" -> exists m, value_err (node_as ks n a) = Some m).
Proof.
  intros E ks n a. unfold node_as, required_name. split; [|split].
  - intros k x S N. cbn [node_as_named n_sym]. rewrite S. cbn [sym_value made].
    destruct (C55_aliases E ks (ESym k x) (Elem (Good (ESym k x)) NilValue) a N) as (e & j & X & T).
    exists e, j. split; [exact X|]. intros m M. destruct (T m) as [T1 _]; try (rewrite M; reflexivity). rewrite T1. cbn [print].
    now rewrite write_Shared, M.
  - cbn [node_as_named n_sym]. intros H. destruct (nd_sym n) as [k x| |m0]; [discriminate H|reflexivity|reflexivity].
  - cbn [node_as_named n_sym]. intros ->. destruct (nd_sym n) as [k x| |m0]; eexists; reflexivity.
Qed.
Print Assumptions C55_node_aliases.

(** The labels that are asked for, in order. *)
Theorem C55_labels : forall E ks n k x labels, nd_sym n = Sym k x -> labels <> [] -> Forall (fun l => l <> "") labels ->
  written_as E (has_labels ks n labels) (labels_doc E x labels).
Proof.
  intros E ks n k x labels S N F. unfold has_labels, required_name. cbn [node_as_named n_sym]. rewrite S.
  destruct labels as [|l ls] eqn:L; [congruence|]. rewrite <- L in *. eapply written_deq; [reflexivity|]. cbn [print plain map]. unfold labels_doc.
  apply leq_deq. apply leq_cons; [apply deq_refl|]. rewrite map_map.
  assert (X : forall ns, length ns = length labels -> map (fun x => plain (print_label x)) (combine (map (fun i => ks (1 + i)) ns) labels)
              = map (fun l => Txt (":" ++ escape_name l)) labels).
  { clear - F. induction F as [|l ls Hl F IH]; intros [|i ns] H; try discriminate; [reflexivity|]. cbn [map combine print_label fst snd plain].
    unfold label_text. rewrite (proj2 (String.eqb_neq _ _) Hl). f_equal. apply IH. now injection H. }
  rewrite X; [apply leq_refl|]. apply List.seq_length.
Qed.
Print Assumptions C55_labels.

Theorem C55_label_errors : forall ks n labels, sym_not_nil (nd_sym n) = false \/ labels = [] ->
  exists m, value_err (has_labels ks n labels) = Some m.
Proof.
  intros ks n labels H. unfold has_labels, required_name. cbn [node_as_named n_sym].
  destruct (nd_sym n) as [k x| |m0]; try (eexists; reflexivity). destruct H as [H| ->]; [discriminate|]. eexists. reflexivity.
Qed.
Print Assumptions C55_label_errors.

(** Lists of expressions, and of Go values. *)
Theorem C55_lists : forall E ks vs es, all_given vs = Some es ->
  exists v, list_of ks vs = Returns v /\ written_as E v (list_doc (map (shows E) es)).
Proof.
  intros E ks vs es G. apply all_given_some in G as [G L]. unfold list_of. rewrite (goods_err _ _ G), (goods_parts _ _ _ G).
  eexists. split; [reflexivity|]. eapply written_deq; [reflexivity|]. cbn [print plain map]. rewrite listing_loud by exact L. cbn [plain]. rewrite map_map.
  apply deq_refl.
Qed.
Print Assumptions C55_lists.

Lemma raw_literals_docs : forall E K l ds i, raw_docs l = Some ds ->
  exists vs es, raw_literals K i l = Returns (inr vs) /\ goods vs es /\ loud es = true /\ map (shows E) es = ds.
Proof.
  intros E K. induction l as [|v l IH]; intros ds i H; cbn [raw_docs] in H.
  - injection H as <-. exists [], []. repeat split. constructor.
  - destruct (raw_doc v) as [d|] eqn:D; [|discriminate]. destruct (raw_docs l) as [ds'|] eqn:R; [|discriminate]. injection H as <-.
    assert (X : exists e, literal_of (k_null K) (k_lit K i) v = Returns (GOk e) /\ silent e = false /\ shows E e = d).
    { destruct v; try discriminate; injection D as <-; eexists; repeat split; reflexivity. }
    destruct X as (e & X & Y & Z). cbn [raw_literals]. rewrite X. destruct (IH ds' (Datatypes.S i) eq_refl) as (vs' & es' & -> & G' & L' & M').
    eexists. exists (e :: es'). split; [reflexivity|]. split; [constructor; [eexists; reflexivity|exact G']|]. split; [cbn; now rewrite Y|]. cbn. now rewrite Z, M'.
Qed.

Theorem C55_lists_of_values : forall E ks K l ds, raw_docs l = Some ds ->
  exists v, list_of_raw ks K l = Returns v /\ written_as E v (list_doc ds).
Proof.
  intros E ks K l ds R. unfold list_of_raw. destruct (raw_literals_docs E K l ds 0 R) as (vs & es & -> & G & L & <-).
  unfold list_of. rewrite (goods_err _ _ G), (goods_parts _ _ _ G). eexists. split; [reflexivity|].
  eapply written_deq; [reflexivity|]. cbn [print plain map]. rewrite listing_loud by exact L. cbn [plain]. rewrite map_map. apply deq_refl.
Qed.
Print Assumptions C55_lists_of_values.

Example C55_case :
  says (property_by_expression (kt "p") (nm "n") "first name") = Some "n.`first name`"
  /\ says (as_ (kt "p") (compute (kt "q") Add (nm "a") (nm "b")) "sum") = Some "(a + b) AS sum"
  /\ says (has_labels (kt "p") (node_named_by_string kk any_node "n") ["A"; "B"]) = Some "n:`A`:`B`"
  /\ result_text (list_of (kt "l") [nm "a"; nm "b"]) = Some "[a, b]"
  /\ result_text (list_of_raw (kt "l") KK [AInt 1; AString "x"; ABool true; ANil]) = Some "[1, 'x', true, NULL]".
Proof. repeat split; vm_compute; reflexivity. Qed.

(** An empty label is written as nothing; a list of a value that is no literal
    is never returned. *)
Theorem C55_refuted :
  says (has_labels (kt "p") (node_named_by_string kk any_node "n") [""]) = Some "n"
  /\ forall ks K l l' ds, raw_docs l = Some ds -> list_of_raw ks K (l ++ AOther :: l') = Diverges.
Proof.
  split; [vm_compute; reflexivity|]. intros ks K l l' ds R. unfold list_of_raw.
  assert (X : forall i, raw_literals K i (l ++ AOther :: l') = Diverges); [|now rewrite X].
  revert ds R. induction l as [|v l IH]; intros ds R i; [reflexivity|]. cbn [raw_docs] in R. destruct (raw_doc v) as [d|] eqn:D; [|discriminate].
  destruct (raw_docs l) as [ds'|] eqn:R'; [|discriminate]. cbn [app raw_literals].
  destruct v; try discriminate; cbn [literal_of]; now rewrite (IH ds' eq_refl).
Qed.
Print Assumptions C55_refuted.

(** ** C56 *)

(** NOT and a pattern; a pattern as a condition. *)
Theorem C56_patterns : forall E k p i,
  (exists v, not_pattern k (Elem (Good p) i) = Returns v /\ written_as E v (Cat [Txt "NOT "; shows E p]))
  /\ (exists v, pattern_condition k (Elem (Good p) i) = Returns v /\ written_as E v (shows E p)).
Proof. intros E k p i. split; (eexists; split; [reflexivity|]; eapply written_deq; [reflexivity|]); apply deq_refl. Qed.
Print Assumptions C56_patterns.

Theorem C56_pattern_errors : forall k p m, value_err p = Some m ->
  (exists v, not_pattern k p = Returns v /\ value_err v = Some m)
  /\ (exists v, pattern_condition k p = Returns v /\ value_err v = Some m).
Proof. intros k p m H. destruct p as [|c i]; [discriminate|]. unfold not_pattern, pattern_condition. rewrite H. split; eexists; split; reflexivity. Qed.
Print Assumptions C56_pattern_errors.

(** A builder that has only matched is used as EXISTS { MATCH ... WHERE ... } with
    the patterns and conditions it was given. *)
Lemma first_error_ok : forall es, first_error (map GOk es) = None.
Proof. induction es; [reflexivity|assumption]. Qed.
Lemma sound_exprs_ok : forall es, sound_exprs (map GOk es) = es.
Proof. induction es as [|e es IH]; [reflexivity|]. exact (f_equal (cons e) IH). Qed.

Lemma makes_quiet : forall c x, makes c x -> get_error x = None.
Proof. intros c x M. pose proof (makes_sound c x M) as S. destruct x; try reflexivity; discriminate. Qed.

Lemma subquery_state : forall o es w d, subquery o es w d ->
  d_err d = None /\ d_elements d = [] /\ m_not_nil (d_match d) = true /\ m_optional (d_match d) = o /\ m_patterns (d_match d) = es
  /\ match w with None => m_cond (d_match d) = Nil | Some c => makes c (m_cond (d_match d)) end.
Proof.
  induction 1 as [ks d H|ks d c x d' S IH M H|ks d c c' x d' S IH M H|ks d c c' x d' S IH M H].
  - cbn [d_step d_err d_new] in H. rewrite first_error_ok in H. injection H as <-. cbn. rewrite sound_exprs_ok. repeat split.
  - destruct IH as (A & B & C & D & F & G). unfold d_step in H. rewrite A in H. rewrite (makes_quiet _ _ M) in H.
    injection H as <-. cbn. repeat split; assumption.
  - destruct IH as (A & B & C & D & F & G). unfold d_step in H. rewrite A in H. unfold builder_add in H.
    destruct (condition_chain ks BAnd (m_cond (d_match d)) x) as [z|] eqn:Z; [|discriminate]. injection H as <-. cbn. repeat split; try assumption.
    exact (m_method ks CAnd c c' _ x z G M Z).
  - destruct IH as (A & B & C & D & F & G). unfold d_step in H. rewrite A, (makes_quiet _ _ M) in H. unfold builder_add in H.
    destruct (condition_chain ks BOr (m_cond (d_match d)) x) as [z|] eqn:Z; [|discriminate]. injection H as <-. cbn. repeat split; try assumption.
    exact (m_method ks COr c c' _ x z G M Z).
Qed.

Lemma where_of_makes : forall k c x, makes c x -> proper c = true ->
  build_where k x = if blank c then NoWhere else WhereOk (EWhere k (cond_expr x)).
Proof.
  intros k c x M P. pose proof (makes_sound c x M) as S.
  pose proof (PropertiesCond.C18_no_where c x M P) as BL. unfold build_where. destruct (build_condition x) as [z|] eqn:BC.
  - assert (z = x) by (destruct x; cbn in BC; try discriminate; [congruence|congruence|destruct cs; congruence]). subst z. rewrite S.
    destruct (blank c); [|reflexivity]. destruct BL as [_ BL]. specialize (BL eq_refl). discriminate.
  - destruct (blank c); [reflexivity|]. destruct BL as [BL _]. specialize (BL eq_refl). discriminate.
Qed.

Lemma exists_text : forall E k km o es w, loud es = true ->
  deq (plain (print E (EExists k km o (EPattern "" es) (option_map (EWhere k) w)))) (exists_doc o (map (shows E) es) (option_map (shows E) w)).
Proof.
  intros E k km o es w L. unfold exists_doc. cbn [print plain map]. rewrite listing_loud by exact L.
  apply leq_deq. apply leq_cons; [apply deq_refl|].
  destruct w as [w|]; cbn [option_map maybe app map print plain]; rewrite map_map; (eapply leq_trans; [apply leq_nest|]); cbn [app];
    do 2 (apply leq_cons; [apply deq_refl|]).
  - eapply leq_trans; [apply leq_nest|]. cbn [app]. do 2 (apply leq_cons; [apply deq_refl|]). split; intros m; reflexivity.
  - split; intros m; reflexivity.
Qed.

Theorem C56_exists_subquery : forall E ks o es w d, subquery o es w d -> Forall (fun e => silent e = false) es ->
  (forall c, w = Some c -> proper c = true) ->
  exists v, as_condition ks d = Returns v
  /\ match w with
     | None => written_as E v (exists_doc o (map (shows E) es) None)
     | Some c => exists x, makes c x
         /\ written_as E v (exists_doc o (map (shows E) es) (if blank c then None else Some (shows E (cond_expr x))))
     end.
Proof.
  intros E ks o es w d S F P. apply subquery_state in S as (A & B & C & O & ES & W).
  assert (L : loud es = true) by (apply forallb_forall; intros e H; rewrite Forall_forall in F; now rewrite (F e H)).
  unfold as_condition. rewrite C, B. cbn [negb orb length Nat.eqb]. eexists. split; [reflexivity|]. unfold build_match. rewrite O, ES.
  destruct w as [c|].
  - exists (m_cond (d_match d)). split; [exact W|]. rewrite (where_of_makes _ c _ W (P c eq_refl)).
    destruct (blank c); cbn [where_broken where_expr made]; (eapply written_deq; [reflexivity|]).
    + exact (exists_text E (ks 0) (ks 1) o es None L).
    + pose proof (exists_text E (ks 2) (ks 1) o es (Some (cond_expr (m_cond (d_match d)))) L) as X. exact X.
  - rewrite W. cbn [build_where build_condition where_broken where_expr made]. eapply written_deq; [reflexivity|].
    exact (exists_text E (ks 0) (ks 1) o es None L).
Qed.
Print Assumptions C56_exists_subquery.

Definition match_n : dbuilder :=
  match d_step kk d_new (Match false [GOk (ESym "n" "n"); GOk (ESym "m" "m")]) with Some (Returns (D d)) => d | _ => d_new end.
Definition match_where : dbuilder :=
  match d_step kk match_n (Where (Atom (ESym "c" "c"))) with Some (Returns (D d)) => d | _ => d_new end.

Example C56_case :
  subquery false [ESym "n" "n"; ESym "m" "m"] (Some (Basic (ESym "c" "c"))) match_where
  /\ result_text (as_condition (kt "x") match_where) = Some "EXISTS {MATCH n, m WHERE c }"
  /\ result_text (not_pattern "k" (nm "pattern")) = Some "NOT pattern".
Proof.
  split; [|split; vm_compute; reflexivity].
  apply (sq_where _ _ kk match_n _ (Atom (ESym "c" "c"))); [|constructor|reflexivity]. apply (sq_match _ _ kk). reflexivity.
Qed.

(** Only a MATCH with nothing before it, since the last WITH, can be used. *)
Theorem C56_only_a_match : forall ks d, as_condition ks d <> Panics <-> m_not_nil (d_match d) = true /\ d_elements d = [].
Proof.
  intros ks d. unfold as_condition. destruct (m_not_nil (d_match d)); cbn [negb orb].
  - destruct (d_elements d); cbn [length Nat.eqb negb]; split; try (intros H; now destruct H); intros; try discriminate; auto.
  - split; [intros H; now destruct H|intros [H _]; discriminate].
Qed.
Print Assumptions C56_only_a_match.

(** A builder with an error panics instead of reporting it; clauses before a WITH
    are dropped. *)
Theorem C56_refuted :
  (forall ks m, as_condition ks (d_error m) = Panics)
  /\ (forall ks d ps, as_condition ks (DB (d_err d) (d_elements d) ps (d_match d) (d_update d) (d_call d)) = as_condition ks d)
  /\ (forall k, not_pattern k NilValue = Panics).
Proof. repeat split. Qed.
Print Assumptions C56_refuted.
