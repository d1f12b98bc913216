(** Properties of the statement builder: C26, C27, C30, C31, C35, C37, C38. *)

From Coq Require Import Ascii String List ZArith Bool Lia DecimalString.
From Verif Require Import GoStr Escape Num VTree Ast SpecDoc SpecPrint DocProofs GoVal SpecCond Cond CondProofs PropertiesCond
  Queries Builder SpecBuilder SpecErrors BuilderProofs BuilderErrors BuilderText PropertiesText.
Import ListNotations.
Open Scope string_scope.
Open Scope list_scope.

(** ** Programs for the examples *)

(** Go accepts the chain of calls and the last interface offers Build. *)
Definition valid (p : list Builder.call) : Prop := exists i, compiles IStart p = Some i /\ buildable i = true.

Definition number (n : nat) : string := NilEmpty.string_of_uint (Nat.to_uint n).
Definition K0 (i n : nat) : key := ("k" ++ number i ++ "." ++ number n)%string.
Definition n_ : expr := ENode "n" (Some ("sn", "n")) [("ln", "Person")] None.
Definition m_ : expr := ENode "m" (Some ("sm", "m")) [("lm", "Movie")] None.
Definition nn : expr := ESym "sn" "n".
Definition mm : expr := ESym "sm" "m".
Definition prop (x : expr) (k p : string) : expr := EProp k x (ELookup ("l" ++ k)%string p).
Definition num (k : string) (z : Z) : expr := ENum k (num_of_Z z).
Definition cond (p : string) : cnd :=
  Atom (EComparison ("c" ++ p)%string (Some (prop nn ("p" ++ p)%string p)) Equality (Some (num ("v" ++ p)%string 1))).
Definition bad : gval := GErr TOther "bad".
Definition a_is_1 : list gval := [GOk (prop nn "a" "a"); GOk (num "one" 1)].
Definition matched : Builder.call := Match false [GOk n_].
Definition returned_n : Builder.call := Returning false [GOk nn].

(** What Build gives; the statement must carry no error. *)
Definition result_of (p : list Builder.call) : option (outcome built) := build_program K0 (K0 99) p.
Definition statement_of (p : list Builder.call) : query :=
  match result_of p with Some (Returns (Built (StOk q))) => q | _ => QSingle [] None end.
Definition gives (p : list Builder.call) (t : string) : Prop :=
  valid p /\ result_of p = Some (Returns (Built (StOk (statement_of p)))) /\ statement_text env0 (statement_of p) = t.

Ltac compute_gives := split; [eexists; split; vm_compute; reflexivity|split; vm_compute; reflexivity].
Ltac refute_says :=
  let H := fresh in intros H; vm_compute in H;
  repeat match goal with
  | H : Forall2 _ (_ :: _) (_ :: _) |- _ => inversion H; clear H; subst
  | H : Forall2 _ (_ :: _) [] |- _ => inversion H
  | H : Forall2 _ [] (_ :: _) |- _ => inversion H
  | H : False |- _ => contradiction
  end.

Lemma Forall2_impl : forall A B (R S : A -> B -> Prop) l l', (forall a b, R a b -> S a b) -> Forall2 R l l' -> Forall2 S l l'.
Proof. intros A B R S l l' H F. induction F; constructor; auto. Qed.

(** ** C26: clauses in call order *)

(** The clauses of the statement say what the calls say, one after the other,
    with nothing lost, added or moved. *)
Theorem C26_clauses_in_call_order_partial : forall K ks p i,
  compiles IStart p = Some i -> buildable i = true -> orderly p = true ->
  exists q, build_program K ks p = Some (Returns (Built (StOk q))) /\ Forall2 says (written p) (clauses q).
Proof. exact program_ok. Qed.
Print Assumptions C26_clauses_in_call_order_partial.

(** The text of the statement is that of the clauses, one after the other.
    (The condition holds if keys of parts and expressions are addresses.) *)
Theorem C26_text_in_clause_order : forall E q,
  (forall k, In k (part_keys q) -> ~ In k (aliased_keys (print_query E q))) ->
  text (print_query E q) = text (Cat (map (print_query E) (clauses q))).
Proof. intros E q H. unfold text. rewrite clauses_text; [reflexivity|]. intros k Hk. split; [reflexivity|now apply H]. Qed.
Print Assumptions C26_text_in_clause_order.

(** Every chain that Go accepts has an outcome in the model: the program state
    always has the type that the interface promises. *)
Theorem C26_chains_have_an_outcome : forall K ks p i,
  compiles IStart p = Some i -> buildable i = true -> build_program K ks p <> None.
Proof. exact program_typed. Qed.
Print Assumptions C26_chains_have_an_outcome.

Definition long : list Builder.call :=
  [matched; Where (cond "a"); AndC (cond "b"); OrC (cond "c");
   With true [GOk nn]; OrderBy (GOk (prop nn "q" "age")); Descending; Limit 3;
   Create [GOk m_]; SetItems [GOk (prop mm "z" "x"); GOk (num "one" 1); GOk (prop mm "y" "y"); GOk (num "two" 2)];
   RemoveLabels (NodeNamed "sm" "m") ["A"; "B"];
   Returning false [GOk nn; GOk mm]; OrderItems [Sort "s1" nn (Some true)]; Then (GOk mm); Skip 1; Limit 2].

Example C26_case : orderly long = true
  /\ gives long ("MATCH (n:`Person`) WHERE ((n.a = 1 AND n.b = 1) OR n.c = 1) WITH DISTINCT n ORDER BY n.age DESC LIMIT 3 "
                 ++ "CREATE (m:`Movie`) SET m.x = 1, m.y = 2 REMOVE m:`A`:`B` RETURN n, m ORDER BY n DESC, m SKIP 1 LIMIT 2")%string
  /\ length (written long) = 6
  /\ (forall k, In k (part_keys (statement_of long)) -> ~ In k (aliased_keys (print_query env0 (statement_of long))))
  /\ part_keys (statement_of long) <> [].
Proof.
  split; [vm_compute; reflexivity|]. split; [compute_gives|]. split; [vm_compute; reflexivity|].
  split; [|vm_compute; discriminate]. intros k _ H. vm_compute in H. contradiction.
Qed.

Definition out_of_order (p : list Builder.call) (t : string) : Prop :=
  gives p t /\ ~ Forall2 says (written p) (clauses (statement_of p)).

(** REMOVE after MERGE ... ON CREATE is rendered before the MERGE. *)
Theorem C26_remove_before_merge_refuted :
  out_of_order [Merge [GOk n_]; OnAction true a_is_1; RemoveItems [GOk (prop nn "b" "b")]]
    "REMOVE n.b MERGE (n:`Person`) ON CREATE SET n.a = 1".
Proof. split; [compute_gives|refute_says]. Qed.
Print Assumptions C26_remove_before_merge_refuted.

(** SET and UNWIND after CALL ... YIELD ... WHERE are rendered before the CALL. *)
Theorem C26_set_before_call_refuted :
  out_of_order [matched; Proc ["f"]; Args (Some [GOk nn]); Yield [GOk (ESym "sx" "x")]; Where (cond "a"); SetItems a_is_1]
    "MATCH (n:`Person`) SET n.a = 1 CALL f(n) YIELD x WHERE n.a = 1".
Proof. split; [compute_gives|refute_says]. Qed.
Print Assumptions C26_set_before_call_refuted.

Theorem C26_unwind_before_call_refuted :
  out_of_order [matched; Proc ["f"]; Args (Some [GOk nn]); Yield [GOk (ESym "sx" "x")]; Where (cond "a"); Unwind (GOk nn) "y"; returned_n]
    "MATCH (n:`Person`) UNWIND n AS y CALL f(n) YIELD x WHERE n.a = 1 RETURN n".
Proof. split; [compute_gives|refute_says]. Qed.
Print Assumptions C26_unwind_before_call_refuted.

(** RETURN DISTINCT after SET is lost. *)
Theorem C26_return_distinct_lost_refuted :
  out_of_order [matched; SetItems a_is_1; Returning true [GOk nn]] "MATCH (n:`Person`) SET n.a = 1".
Proof. split; [compute_gives|refute_says]. Qed.
Print Assumptions C26_return_distinct_lost_refuted.

(** WITH without items is lost; RETURN without items after WITH hangs. *)
Theorem C26_empty_with_lost_refuted :
  out_of_order [matched; With false []; Match false [GOk m_]; returned_n] "MATCH (n:`Person`) MATCH (m:`Movie`) RETURN n".
Proof. split; [compute_gives|refute_says]. Qed.
Print Assumptions C26_empty_with_lost_refuted.

Theorem C26_empty_return_after_with_refuted :
  valid [matched; With false [GOk nn]; Returning false []]
  /\ result_of [matched; With false [GOk nn]; Returning false []] = Some Diverges.
Proof. split; [eexists; split; vm_compute; reflexivity|vm_compute; reflexivity]. Qed.
Print Assumptions C26_empty_return_after_with_refuted.

(** ** C27: WHERE belongs to its clause *)

(** The conditions given after a phrase, and the WHERE of a clause. *)
Definition conditions_of (p : phrase) : conditions :=
  match p with PMatch _ _ c | PCall _ _ _ c | PWith _ _ _ c => c | _ => None end.
Definition where_of (q : query) : option expr :=
  match q with QMatch _ _ _ w | QWith _ _ _ w | QCall _ _ _ _ _ _ w => w | _ => None end.

Theorem C27_where_of_each_clause_partial : forall K ks p i,
  compiles IStart p = Some i -> buildable i = true -> orderly p = true ->
  exists q, build_program K ks p = Some (Returns (Built (StOk q)))
         /\ Forall2 (fun ph c => says ph c /\ says_where (conditions_of ph) (where_of c)) (written p) (clauses q).
Proof.
  intros K ks p i C B O. destruct (program_ok K ks p i C B O) as (q & E & F). exists q. split; [assumption|].
  eapply Forall2_impl; [|exact F]. intros ph c S. split; [assumption|]. destruct ph, c; cbn in *; try contradiction; try reflexivity; tauto.
Qed.
Print Assumptions C27_where_of_each_clause_partial.

(** Conditions made by calls: what Where, And and Or make of them is made by
    the chain of calls. *)
Definition all_calls (c : SpecCond.call expr) (l : list (conn * SpecCond.call expr)) : SpecCond.call expr :=
  fold_left (fun a od => Chain (fst od) a (snd od)) l c.

Theorem C27_conditions_combined_in_order : forall x l z, chained x l z -> forall c cl,
  makes c x -> Forall2 (fun a b => fst a = fst b /\ makes (snd b) (snd a)) l cl -> makes (all_calls c cl) z.
Proof.
  intros x l z H. induction H as [x|ks o x y z l Hc z' Hz IH]; intros c cl M F; inversion F; subst; cbn; [assumption|].
  apply IH; [|assumption]. destruct y0 as [o' d]. destruct H1 as [H1 H2]. cbn in *. subst o'. now apply m_method with ks x y.
Qed.
Print Assumptions C27_conditions_combined_in_order.

(** The WHERE of a clause reads as the conjunction or disjunction of the given
    conditions in call order; without any condition there is no WHERE. *)
Theorem C27_where_meaning : forall E x l w c cl m,
  says_where (Some (x, l)) w -> makes c x -> Forall2 (fun a b => fst a = fst b /\ makes (snd b) (snd a)) l cl ->
  let whole := all_calls c cl in
  proper whole = true -> unmixed whole = true -> Forall (operand_ok E) (operands whole) -> introduced m = [] ->
  if blank whole then w = None
  else exists k e ts, w = Some (EWhere k e)
    /\ write (print E e) m = write (Cat (map (token_doc (print E)) ts)) m
    /\ forall rho, exists v, meaning rho whole = Some v /\ reads rho 0 ts v.
Proof.
  intros E x l w c cl m (z & Hz & Hw) M F whole P U O I.
  assert (Mz : makes whole z) by (now apply C27_conditions_combined_in_order with x l).
  assert (N : no_condition z <-> blank whole = true).
  { rewrite <- (C18_no_where whole z Mz P). clear - Mz P. destruct (makes_val (fun _ => @None bool) _ _ Mz P) as [S _]. split.
    - intros [->|(k & o & n & ->)]; reflexivity.
    - destruct S; cbn; try discriminate; intros Hq; [now left|]. destruct cs; [|discriminate]. right. eauto. }
  destruct (blank whole) eqn:B.
  - destruct Hw as [[_ Hw]|[Hn _]]; [assumption|]. exfalso. apply Hn. now apply N.
  - destruct Hw as [[Hn _]|[_ (k & ->)]]; [apply N in Hn; discriminate|].
    destruct (C16_chains_keep_their_meaning E whole z m Mz P B U O I) as (ts & T & R).
    exists k, (cond_expr z), ts. auto.
Qed.
Print Assumptions C27_where_meaning.

Definition two_wheres : list Builder.call :=
  [matched; Where (cond "a"); AndC (cond "b"); Match true [GOk m_]; With false [GOk nn]; Where (cond "c"); OrC (cond "d"); returned_n].
Example C27_case : orderly two_wheres = true
  /\ gives two_wheres "MATCH (n:`Person`) WHERE (n.a = 1 AND n.b = 1) OPTIONAL MATCH (m:`Movie`) WITH n WHERE (n.c = 1 OR n.d = 1) RETURN n"
  /\ map conditions_of (written two_wheres) = [Some (cond "a", [(CAnd, cond "b")]); None; Some (cond "c", [(COr, cond "d")]); None]
  /\ makes (Basic (cond_expr (cond "a"))) (cond "a").
Proof.
  split; [vm_compute; reflexivity|]. split; [compute_gives|]. split; [vm_compute; reflexivity|]. constructor.
Qed.

(** A statement without errors has no WHERE only if no condition was given, and
    its condition has no erroneous part: a condition with an erroneous part
    (C20) never makes a statement that lacks it. *)
Theorem C27_where_not_left_out : forall K ks opt l x distinct items q,
  build_program K ks [Match opt l; Where x; Returning distinct items] = Some (Returns (Built (StOk q))) ->
  items = [] \/ exists k k' ret w, q = QSingle [QMatch k opt (EPattern k' (the_exprs l)) w] (Some ret)
    /\ (w = None /\ (x = Nil \/ no_condition x) \/ exists kw, w = Some (EWhere kw (cond_expr x)) /\ sound_cnd x = true).
Proof.
  intros K ks opt l x distinct items q H. destruct items as [|g items]; [now left|right].
  assert (N : g :: items <> []) by discriminate. revert H N. generalize (g :: items). clear g items. intros items H N.
  unfold build_program, run_start in H. cbn in H.
  destruct (first_error l) eqn:F; [cbn in H; discriminate H|].
  cbn in H. destruct (get_error x) eqn:G; [cbn in H; discriminate H|]. cbn in H.
  destruct (first_error items) eqn:F2; [cbn in H; discriminate H|]. cbn in H. unfold build_impl, build_list in H. cbn in H.
  unfold single_part_create, build_match in H. cbn in H.
  unfold build_return in H. destruct items as [|g items]; [contradiction|]. unfold any_error in H. rewrite F2 in H. cbn in H.
  unfold build_where in H. destruct (build_condition x) as [z|] eqn:B.
  - assert (z = x) by (destruct x as [| | | | |? ? [|] ?|]; cbn in B; congruence). subst z.
    destruct (sound_cnd x) eqn:S; cbn in H; [|discriminate H]. inversion H; subst. do 4 eexists. split; [reflexivity|]. right. now eexists.
  - cbn in H. inversion H; subst. do 4 eexists. split; [reflexivity|]. left. split; [reflexivity|].
    destruct x as [| | | | |? ? [|] ?|]; cbn in B, G; try discriminate; [now left|right; now left|right; right; now repeat eexists].
Qed.
Print Assumptions C27_where_not_left_out.
Example C27_not_left_out_case :
  gives [matched; Where (cond "a"); returned_n] "MATCH (n:`Person`) WHERE n.a = 1 RETURN n"
  /\ result_of [matched; Where (Comp "c" BAnd [cond "a"; Bad "b"] 2); returned_n] = Some (Returns (Built (StBroken false))).
Proof. split; [compute_gives|vm_compute; reflexivity]. Qed.

(** The condition after CALL { ... } is lost. *)
Definition subquery : statement :=
  StOk (QSingle [] (Some (QReturn "r" false (Body (EExprs "e" [nn]) None None None)))).
Theorem C27_where_after_subquery_refuted : exists p, In (Where (cond "a")) p
  /\ gives p "MATCH (n:`Person`) CALL {RETURN n} RETURN n".
Proof.
  exists [matched; Sub subquery; Where (cond "a"); returned_n]. split; [cbn; auto|compute_gives].
Qed.
Print Assumptions C27_where_after_subquery_refuted.

(** And and Or after the WHERE of a procedure panic, and And after WITH ...
    ORDER BY. *)
Theorem C27_and_after_call_refuted : forall c, c = AndC (cond "b") \/ c = OrC (cond "b") ->
  let p := [matched; Proc ["f"]; Yield [GOk (ESym "sx" "x")]; Where (cond "a"); c; returned_n] in
  valid p /\ result_of p = Some Panics.
Proof. intros c [-> | ->]; (split; [eexists; split; vm_compute; reflexivity|vm_compute; reflexivity]). Qed.
Print Assumptions C27_and_after_call_refuted.

(** ** C30: all patterns are created and merged *)

Definition given_patterns (c : Builder.call) : list (list expr) :=
  match c with Create l | Merge l => [the_exprs l] | _ => [] end.
Definition made_patterns (q : query) : list (list expr) :=
  match q with QCreate _ (EPattern _ l) | QMerge _ (EPattern _ l) _ => [l] | _ => [] end.
Definition phrase_patterns (p : phrase) : list (list expr) :=
  match p with PCreate l | PMerge l _ => [l] | _ => [] end.

Lemma completed_patterns : forall p c, phrase_patterns (completed p c) = phrase_patterns p.
Proof. intros p c. destruct p; try reflexivity; destruct c; try reflexivity. cbn. now match goal with |- context [match ?x with Some _ => _ | None => _ end] => destruct x end. Qed.

Lemma written_keep : forall A (f : phrase -> list A) (g : Builder.call -> list A),
  (forall c, match starts c with Some p => f p = g c | None => g c = [] end) ->
  (forall p c, starts c = None -> f (completed p c) = f p) ->
  forall p, flat_map f (written p) = flat_map g p.
Proof.
  intros A f g S C p. unfold written. change (flat_map g p) with (flat_map f [] ++ flat_map g p). generalize (@nil phrase) as ph.
  induction p as [|c p IH]; intros ph; cbn; [now rewrite app_nil_r|]. rewrite IH. unfold write_call. specialize (S c).
  destruct (starts c) eqn:E.
  - rewrite flat_map_app. cbn. rewrite app_nil_r, <- S, app_assoc. reflexivity.
  - rewrite S. cbn. f_equal. unfold complete_last. destruct (rev ph) as [|x l] eqn:R.
    + now apply (f_equal (@rev _)) in R; rewrite rev_involutive in R; subst.
    + apply (f_equal (@rev _)) in R. rewrite rev_involutive in R. subst ph. cbn. rewrite !flat_map_app. cbn. now rewrite C.
Qed.

Lemma Forall2_flat : forall A B C (R : A -> B -> Prop) (f : A -> list C) (g : B -> list C) l l',
  (forall a b, R a b -> f a = g b) -> Forall2 R l l' -> flat_map f l = flat_map g l'.
Proof. intros A B C R f g l l' H F. induction F; cbn; [reflexivity|]. now rewrite (H _ _ H0), IHF. Qed.

(** One pattern for every CREATE and MERGE: they are all there, in order. *)
Theorem C30_patterns_kept_partial : forall K ks p i,
  compiles IStart p = Some i -> buildable i = true -> orderly p = true ->
  exists q, build_program K ks p = Some (Returns (Built (StOk q)))
         /\ flat_map made_patterns (clauses q) = flat_map given_patterns p.
Proof.
  intros K ks p i C B O. destruct (program_ok K ks p i C B O) as (q & E & F). exists q. split; [assumption|].
  rewrite <- (written_keep _ phrase_patterns).
  - symmetry. eapply Forall2_flat; [|exact F]. intros ph c S. destruct ph, c; cbn in S |- *; try contradiction; try reflexivity.
    + now destruct S as [k' ->].
    + now destruct S as [[k' ->] _].
  - intros c. destruct c; cbn; try reflexivity; [now destruct e|now destruct s].
  - intros p0 c _. apply completed_patterns.
Qed.
Print Assumptions C30_patterns_kept_partial.

Example C30_case : orderly long = true /\ flat_map given_patterns long = [[m_]].
Proof. split; vm_compute; reflexivity. Qed.

(** With several patterns only the first is kept, without pattern the clause
    is left out. *)
Theorem C30_only_first_pattern_refuted :
  gives [Create [GOk n_; GOk m_]] "CREATE (n:`Person`)" /\ gives [Merge [GOk n_; GOk m_]] "MERGE (n:`Person`)".
Proof. split; compute_gives. Qed.
Print Assumptions C30_only_first_pattern_refuted.

Theorem C30_no_pattern_refuted :
  gives [matched; Create []; returned_n] "MATCH (n:`Person`) RETURN n".
Proof. compute_gives. Qed.
Print Assumptions C30_no_pattern_refuted.

(** ** C31: SET *)

Definition given_items (c : Builder.call) : list (list item) :=
  match c with
  | SetItems l => [assignments (the_exprs l)]
  | SetLabels n ls => [[Labels (name_of n) ls]]
  | _ => []
  end.
Definition phrase_items (p : phrase) : list (list item) := match p with PSet l => [l] | _ => [] end.
Definition made_items (q : query) : list (list item) :=
  match q with QSet _ (EExprs _ l) => [map item_of l] | _ => [] end.

(** SET lists with the operations first: items are paired, and kept in order. *)
Theorem C31_set_items_partial : forall K ks p i,
  compiles IStart p = Some i -> buildable i = true -> orderly p = true ->
  exists q, build_program K ks p = Some (Returns (Built (StOk q)))
         /\ flat_map made_items (clauses q) = flat_map given_items p.
Proof.
  intros K ks p i C B O. destruct (program_ok K ks p i C B O) as (q & E & F). exists q. split; [assumption|].
  rewrite <- (written_keep _ phrase_items).
  - symmetry. eapply Forall2_flat; [|exact F]. intros ph c S. destruct ph, c; cbn in S |- *; try contradiction; try reflexivity.
    destruct S as (k' & es & -> & S). now rewrite <- S.
  - intros c. destruct c; cbn; try reflexivity; [now destruct e|now destruct s].
  - intros p0 c _. destruct p0; try reflexivity; destruct c; try reflexivity. cbn. now match goal with |- context [match ?x with Some _ => _ | None => _ end] => destruct x end.
Qed.
Print Assumptions C31_set_items_partial.

Example C31_case : orderly long = true
  /\ flat_map given_items long = [[Assign (prop mm "z" "x") (num "one" 1); Assign (prop mm "y" "y") (num "two" 2)]].
Proof. split; vm_compute; reflexivity. Qed.

(** An odd number of expressions that are no operations is an error, wherever
    Set, OnCreate or OnMatch is called. *)
Theorem C31_odd_number_reported : forall K ks p c p' i i' l b,
  compiles IStart p = Some i -> c = SetItems l \/ c = OnAction b l ->
  Nat.odd (length (filter (fun e => negb (is_operation e)) (the_exprs l))) = true ->
  compiles i (c :: p') = Some i' -> made_statement (build_program K ks (p ++ c :: p')) = false.
Proof.
  intros K ks p c p' i i' l b C Ec Odd Ci. apply program_hurt with i i'; try assumption.
  - destruct Ec as [-> | ->]; cbn; unfold odd_set; rewrite Odd; apply orb_true_r.
  - destruct Ec as [-> | ->]; cbn; now destruct i.
Qed.
Print Assumptions C31_odd_number_reported.

Example C31_odd_case :
  result_of [matched; SetItems [GOk (prop nn "a" "a")]]
  = Some (Returns (BuildFails "the list of expression to OperationSet must be even")).
Proof. vm_compute. reflexivity. Qed.

(** Any list: operations come first, then the others in pairs. *)
Fixpoint in_pairs (l : list expr) : list (expr * expr) :=
  match l with a :: b :: l' => (a, b) :: in_pairs l' | _ => [] end.

(** Only the zero SymbolicName, the name of an element without name, is refused. *)
Theorem C31_only_missing_names : forall e, is_zero e = true <-> e = ESym "" "".
Proof.
  intros e. split; [|now intros ->]. destruct e; try discriminate. cbn. intros H. apply andb_prop in H as [H1 H2].
  apply String.eqb_eq in H1. apply String.eqb_eq in H2. now subst.
Qed.
Print Assumptions C31_only_missing_names.

Theorem C31_any_list : forall ks l,
  Forall (fun e => e <> ESym "" "") l ->
  if Nat.odd (length (filter (fun e => negb (is_operation e)) l)) then prepare_set ks l = None
  else exists es, prepare_set ks l = Some (map GOk es)
    /\ map item_of es = map item_of (filter is_operation l)
         ++ map (fun p => Assign (fst p) (snd p)) (in_pairs (filter (fun e => negb (is_operation e)) l)).
Proof.
  intros ks l Z0. assert (Z : Forall (fun e => is_zero e = false) l).
  { eapply Forall_impl; [|exact Z0]. intros e N. destruct (is_zero e) eqn:X; [|reflexivity]. now apply C31_only_missing_names in X. }
  unfold prepare_set. destruct (Nat.odd _) eqn:Odd; [reflexivity|].
  set (r := filter (fun e => negb (is_operation e)) l) in *.
  assert (Zr : Forall (fun e => is_zero e = false) r).
  { apply Forall_forall. intros e He. apply filter_In in He as [He _]. rewrite Forall_forall in Z. auto. }
  assert (P : exists es, pair_up ks r = map GOk es /\ map item_of es = map (fun p => Assign (fst p) (snd p)) (in_pairs r)).
  { clearbody r. clear - Zr. assert (N : exists n, length r <= n) by eauto. destruct N as [n N]. revert r N Zr. induction n; intros r N Z.
    - destruct r; [|cbn in N; lia]. now exists [].
    - destruct r as [|a [|b r]]; try (now exists []). cbn in N. inversion Z; subst. inversion H2; subst.
      destruct (IHn r ltac:(lia) H4) as (es & E1 & E2). cbn. unfold operation_set. rewrite H1, H3, E1.
      exists (EOperation (ks (length r)) a SetProp b :: es). split; [reflexivity|]. cbn [map in_pairs fst snd]. rewrite E2. f_equal. now destruct a. }
  destruct P as (es & E1 & E2). exists (filter is_operation l ++ es). rewrite E1, !map_app, E2. auto.
Qed.
Print Assumptions C31_any_list.

(** So an operation in the middle is moved to the front. *)
Theorem C31_mixed_list_refuted :
  out_of_order [matched; SetItems (a_is_1 ++ [GOk (EOperation "o" (prop nn "b" "b") SetProp (num "two" 2))])]
    "MATCH (n:`Person`) SET n.b = 2, n.a = 1".
Proof.
  split; [compute_gives|]. intros H; vm_compute in H.
  inversion H as [|a b la lb _ Ht]; subst. inversion Ht as [|a b la lb Hs _]; subst.
  destruct Hs as (k & es & E & Hs). inversion E; subst. discriminate.
Qed.
Print Assumptions C31_mixed_list_refuted.

(** An element without name in ON CREATE SET is dropped with all the others. *)
Theorem C31_on_create_dropped_refuted :
  gives [Merge [GOk n_]; OnAction true ([GOk (ESym "" ""); GOk nn] ++ a_is_1)] "MERGE (n:`Person`) ON CREATE SET".
Proof. compute_gives. Qed.
Print Assumptions C31_on_create_dropped_refuted.

(** ** C35: procedure names *)

Definition name_made (q : query) : list string :=
  match q with QCall _ _ sp n _ _ _ => [qualified sp n] | _ => [] end.
Definition name_given (c : Builder.call) : list string := match c with Proc l => [String.concat "." l] | _ => [] end.
Definition name_said (p : phrase) : list string := match p with PCall l _ _ _ => [String.concat "." l] | _ => [] end.

(** Names of one part. *)
Theorem C35_procedure_names_partial : forall K ks p i,
  compiles IStart p = Some i -> buildable i = true -> orderly p = true ->
  exists q, build_program K ks p = Some (Returns (Built (StOk q)))
         /\ flat_map name_made (clauses q) = flat_map name_given p.
Proof.
  intros K ks p i C B O. destruct (program_ok K ks p i C B O) as (q & E & F). exists q. split; [assumption|].
  rewrite <- (written_keep _ name_said).
  - symmetry. eapply Forall2_flat; [|exact F]. intros ph c S. destruct ph, c; cbn in S |- *; try contradiction; try reflexivity.
    destruct S as (-> & _). reflexivity.
  - intros c. destruct c; cbn; try reflexivity; [now destruct e|now destruct s].
  - intros p0 c _. destruct p0; try reflexivity; destruct c; try reflexivity. cbn. now match goal with |- context [match ?x with Some _ => _ | None => _ end] => destruct x end.
Qed.
Print Assumptions C35_procedure_names_partial.

Definition two_procs : list Builder.call :=
  [matched; Proc ["f"]; Args (Some [GOk nn]); Yield [GOk (ESym "sx" "x")]; With false [GOk nn]; Proc ["g"]; Yield [GOk (ESym "sy" "y")]; returned_n].
Example C35_case : orderly two_procs = true /\ flat_map name_given two_procs = ["f"; "g"]
  /\ gives two_procs "MATCH (n:`Person`) CALL f(n) YIELD x WITH n CALL g() YIELD y RETURN n".
Proof. split; [vm_compute; reflexivity|]. split; [vm_compute; reflexivity|compute_gives]. Qed.

(** The namespace is lost, for every name of two parts or more, ... *)
Theorem C35_namespace_lost_refuted : forall k a b l, exists k',
  procedure_name k (a :: b :: l) = Returns (Some (k', ""), last (b :: l) "").
Proof. intros. now exists k. Qed.
Print Assumptions C35_namespace_lost_refuted.

Theorem C35_namespace_text_refuted : gives [Proc ["a"; "b"; "f"]] "CALL f()".
Proof. compute_gives. Qed.
Print Assumptions C35_namespace_text_refuted.

(** ... and a name without parts panics. *)
Theorem C35_no_part_refuted : valid [Proc []] /\ result_of [Proc []] = Some Panics.
Proof. split; [eexists; split; vm_compute; reflexivity|vm_compute; reflexivity]. Qed.
Print Assumptions C35_no_part_refuted.

(** ** C37: ORDER BY, SKIP and LIMIT *)

Lemma fold_return : forall cs ph b l s, forallb sorts cs = true ->
  fold_left write_call cs (ph ++ [PReturn b l s]) = ph ++ [PReturn b l (fold_left sort_completed cs s)].
Proof.
  induction cs as [|c cs IH]; intros ph b l s H; [reflexivity|]. cbn in H. apply andb_prop in H as [H1 H2]. cbn [fold_left].
  unfold write_call at 2. rewrite (sorts_starts _ H1), complete_last_snoc. cbn [completed]. now apply IH.
Qed.

(** Sort items (with direction), SKIP and LIMIT given after RETURN are those of
    the last clause. *)
Theorem C37_return_sorting_partial : forall K ks p b l cs i,
  forallb sorts cs = true -> let whole := p ++ Returning b l :: cs in
  compiles IStart whole = Some i -> buildable i = true -> orderly whole = true ->
  exists q qs k bd, build_program K ks whole = Some (Returns (Built (StOk q))) /\ clauses q = qs ++ [QReturn k b bd]
    /\ (exists k', b_items bd = EExprs k' (the_exprs l))
    /\ says_sorting (fold_left sort_completed cs unsorted) bd.
Proof.
  intros K ks p b l cs i S whole C B O. destruct (program_ok K ks whole i C B O) as (q & E & F). exists q.
  assert (W : written whole = written p ++ [PReturn b (the_exprs l) (fold_left sort_completed cs unsorted)]).
  { unfold written, whole. rewrite fold_left_app. cbn [fold_left]. unfold write_call at 2. cbn [starts]. now apply fold_return. }
  rewrite W in F. apply Forall2_app_inv_l in F as (qs & l2 & F1 & F2 & Eq). inversion F2; subst. inversion H3; subst.
  destruct y; cbn in H1; try contradiction. destruct H1 as (-> & (k' & Hi) & Hs).
  exists qs, k, b0. repeat split; try assumption; eauto; apply Hs.
Qed.
Print Assumptions C37_return_sorting_partial.

(** The same for WITH, whatever follows. *)
Theorem C37_with_sorting_partial : forall K ks p i,
  compiles IStart p = Some i -> buildable i = true -> orderly p = true ->
  exists q, build_program K ks p = Some (Returns (Built (StOk q)))
    /\ Forall2 (fun ph c => match ph with
                            | PWith _ l s _ | PReturn _ l s =>
                                exists bd, match c with QWith _ _ b _ | QReturn _ _ b => b = bd | _ => False end
                                  /\ (exists k, b_items bd = EExprs k l) /\ says_sorting s bd
                            | _ => True
                            end) (written p) (clauses q).
Proof.
  intros K ks p i C B O. destruct (program_ok K ks p i C B O) as (q & E & F). exists q. split; [assumption|].
  eapply Forall2_impl; [|exact F]. intros ph c S. destruct ph, c; cbn in S |- *; try contradiction; try exact Logic.I.
  - destruct S as (_ & S & _). exists b. split; [reflexivity|exact S].
  - destruct S as (_ & S). exists b. split; [reflexivity|exact S].
Qed.
Print Assumptions C37_with_sorting_partial.

Example C37_case : exists p l cs, long = p ++ Returning false l :: cs /\ forallb sorts cs = true
  /\ fold_left sort_completed cs unsorted = Sorting [(nn, Some true); (mm, None)] (Some 1%Z) (Some 2%Z)
  /\ In (PWith true [nn] (Sorting [(prop nn "q" "age", Some true)] None (Some 3%Z)) None) (written long).
Proof.
  exists (firstn 11 long), [GOk nn; GOk mm], (skipn 12 long). split; [reflexivity|]. split; [reflexivity|]. split; [reflexivity|].
  vm_compute. tauto.
Qed.

(** LIMIT 0 and a sort item with an error are dropped. *)
Theorem C37_limit_zero_refuted : gives [matched; returned_n; Limit 0] "MATCH (n:`Person`) RETURN n".
Proof. compute_gives. Qed.
Print Assumptions C37_limit_zero_refuted.

Theorem C37_erroneous_item_refuted : gives [matched; returned_n; OrderBy bad] "MATCH (n:`Person`) RETURN n".
Proof. compute_gives. Qed.
Print Assumptions C37_erroneous_item_refuted.

(** ** C38: errors reach Build *)

(** If a call gets an argument with an error (or a SET with an odd number of
    expressions, an empty list of labels, a subquery without RETURN), then no
    continuation of the chain ends in a statement without error: Build fails,
    the statement carries an error, or the program stops.  Proved for the
    positions listed in [examined]; the refutations below are for others. *)
Theorem C38_errors_reach_build_partial : forall K ks p c p' i i',
  compiles IStart p = Some i -> faulty c = true -> examined i c = true -> compiles i (c :: p') = Some i' ->
  made_statement (build_program K ks (p ++ c :: p')) = false.
Proof. exact program_hurt. Qed.
Print Assumptions C38_errors_reach_build_partial.

Example C38_case :
  (exists i, compiles IStart [matched; Where (cond "a")] = Some i /\ faulty (Create [GOk n_; bad]) = true
     /\ examined i (Create [GOk n_; bad]) = true)
  /\ result_of [matched; Where (cond "a"); Create [bad]; SetItems a_is_1] = Some (Returns (BuildFails "bad"))
  /\ result_of [matched; SetItems a_is_1; Delete false [bad]] = Some (Returns (Built (StErr false "bad")))
  /\ result_of [matched; With false [bad]; returned_n] = Some Panics.
Proof. split; [eexists; repeat split; reflexivity|]. repeat split; vm_compute; reflexivity. Qed.

(** Conditions added with And are dropped, and with them those already there;
    so are erroneous conditions after WITH. *)
Theorem C38_and_refuted : gives [matched; Where (cond "a"); AndC (Bad "bad"); returned_n] "MATCH (n:`Person`) RETURN n".
Proof. compute_gives. Qed.
Print Assumptions C38_and_refuted.
Theorem C38_where_after_with_refuted :
  gives [matched; With false [GOk nn]; Where (Bad "bad"); returned_n] "MATCH (n:`Person`) WITH n RETURN n".
Proof. compute_gives. Qed.
Print Assumptions C38_where_after_with_refuted.
(** Results of a procedure are dropped; so is a call with erroneous arguments. *)
Theorem C38_yield_refuted : gives [Proc ["f"]; Yield [bad]] "CALL f()".
Proof. compute_gives. Qed.
Print Assumptions C38_yield_refuted.
Theorem C38_arguments_refuted : gives [Proc ["f"]; Args (Some [bad]); Yield [GOk nn]; returned_n] "RETURN n".
Proof. compute_gives. Qed.
Print Assumptions C38_arguments_refuted.
(** RETURN after SET makes a statement that contains the error without having
    it. *)
Theorem C38_return_after_set_refuted :
  valid [matched; SetItems a_is_1; Returning false [bad]]
  /\ result_of [matched; SetItems a_is_1; Returning false [bad]] = Some (Returns (Built (StBroken false))).
Proof. split; [eexists; split; vm_compute; reflexivity|vm_compute; reflexivity]. Qed.
Print Assumptions C38_return_after_set_refuted.
