(** Headline theorems: C75. *)

From Coq Require Import Ascii String List ZArith Bool Lia.
From Verif Require Import SpecCond GoStr Escape Num VTree WellKeyed Ast SpecDoc SpecPrint DocProofs Cond GoVal
  Queries Builder BuilderText SpecBuilder BuilderProofs AgainProofs SpecExtend ExtendProofs PropertiesText PropertiesRender PropertiesBuilder PropertiesExtend.
Import ListNotations.
Open Scope string_scope.
Open Scope list_scope.

(** Chains that say the same, built at any addresses, have the same text. *)
Theorem C75_same_phrases_same_text_partial : forall E K1 ks1 K2 ks2 p1 p2 i1 i2 q1 q2,
  compiles IStart p1 = Some i1 -> buildable i1 = true -> orderly p1 = true ->
  compiles IStart p2 = Some i2 -> buildable i2 = true -> orderly p2 = true ->
  written p1 = written p2 ->
  build_program K1 ks1 p1 = Some (Returns (Built (StOk q1))) ->
  build_program K2 ks2 p2 = Some (Returns (Built (StOk q2))) ->
  (forall k, In k (made E q1 ++ made E q2) -> ~ In k (aliased_keys (print_query E q1))) ->
  statement_text E q1 = statement_text E q2.
Proof.
  intros E K1 ks1 K2 ks2 p1 p2 i1 i2 q1 q2 C1 B1 O1 C2 B2 O2 W Q1 Q2 A.
  destruct (program_ok K1 ks1 p1 i1 C1 B1 O1) as (x & X & F1). rewrite Q1 in X. injection X as <-.
  destruct (program_ok K2 ks2 p2 i2 C2 B2 O2) as (x & X & F2). rewrite Q2 in X. injection X as <-. rewrite <- W in F2.
  set (N := fun k => In k (made E q1 ++ made E q2)).
  assert (N1 : forall k, In k (made E q1) -> N k) by (intros k J; apply in_or_app; now left).
  assert (N2 : forall k, In k (made E q2) -> N k) by (intros k J; apply in_or_app; now right).
  assert (SC : Forall2 (same N) (map (print_query E) (SpecBuilder.clauses q1)) (map (print_query E) (SpecBuilder.clauses q2))).
  { apply same_clauses with (ps := written p1); auto.
    - apply N1. now left.
    - apply N1. right. now left.
    - apply orderly_one; [exact O1|constructor].
    - intros k J. apply N1. right. right. apply in_or_app. now right.
    - intros k J. apply N2. right. right. apply in_or_app. now right. }
  pose proof (same_cat N _ _ SC) as SD. pose proof SD as (AK & _ & _). rewrite !aliased_Cat, <- !aliased_clauses in AK.
  unfold statement_text. f_equal. rewrite !C26_text_in_clause_order.
  - apply (same_text N _ _ SD). intros k J. rewrite aliased_Cat, <- aliased_clauses. now apply A.
  - intros k J. rewrite <- AK. apply A, N2. right. right. apply in_or_app. now left.
  - intros k J. apply A, N1. right. right. apply in_or_app. now left.
Qed.
Print Assumptions C75_same_phrases_same_text_partial.

Theorem C75_same_phrases_same_rendering_partial : forall (err : Type) E K1 ks1 K2 ks2 p1 p2 i1 i2 q1 q2,
  compiles IStart p1 = Some i1 -> buildable i1 = true -> orderly p1 = true ->
  compiles IStart p2 = Some i2 -> buildable i2 = true -> orderly p2 = true ->
  written p1 = written p2 ->
  build_program K1 ks1 p1 = Some (Returns (Built (StOk q1))) ->
  build_program K2 ks2 p2 = Some (Returns (Built (StOk q2))) ->
  (forall k, In k (made E q1 ++ made E q2) -> ~ In k (aliased_keys (print_query E q1))) ->
  well_keyed (to_vtq E q1) = true -> well_quiet (to_vtq E q1) = true -> well_keyed (to_vtq E q2) = true -> well_quiet (to_vtq E q2) = true ->
  fst (render (err:=err) (SOk (to_vtq E q1)) new_renderer) = fst (render (err:=err) (SOk (to_vtq E q2)) new_renderer).
Proof.
  intros err E K1 ks1 K2 ks2 p1 p2 i1 i2 q1 q2 C1 B1 O1 C2 B2 O2 W Q1 Q2 A W1 L1 W2 L2.
  rewrite (C01_rendering_prints_the_statement_partial err E q1 W1 L1), (C01_rendering_prints_the_statement_partial err E q2 W2 L2). f_equal.
  exact (C75_same_phrases_same_text_partial E K1 ks1 K2 ks2 p1 p2 i1 i2 q1 q2 C1 B1 O1 C2 B2 O2 W Q1 Q2 A).
Qed.
Print Assumptions C75_same_phrases_same_rendering_partial.

(** ** Chains that say the same *)

Lemma last_step : forall (f g : list phrase -> list phrase), (forall l x, f (l ++ [x]) = g (l ++ [x])) -> f [] = g [] -> forall l, f l = g l.
Proof. intros f g H H0 l. destruct l as [|a l]; [exact H0|]. destruct (exists_last (l := a :: l)) as (r & x & ->); [discriminate|]. apply H. Qed.
Lemma complete_snoc : forall l x c, complete_last (l ++ [x]) c = l ++ [completed x c].
Proof. intros l x c. unfold complete_last. rewrite rev_unit. now rewrite rev_involutive. Qed.

Lemma same_steps : forall p cs ds p', Forall (fun c => starts c = None) cs -> Forall (fun c => starts c = None) ds -> cs <> [] -> ds <> [] ->
  (forall x, fold_left completed cs x = fold_left completed ds x) -> written (p ++ cs ++ p') = written (p ++ ds ++ p').
Proof.
  intros p cs ds p' C D NC ND H. unfold written. rewrite !fold_left_app. f_equal.
  assert (G : forall cs, Forall (fun c => starts c = None) cs -> forall l x, fold_left write_call cs (l ++ [x]) = l ++ [fold_left completed cs x]).
  { clear. intros cs C. induction C as [|c cs S C IH]; intros l x; [reflexivity|]. cbn [fold_left]. unfold write_call at 2. rewrite S, complete_snoc. apply IH. }
  assert (Z : forall cs, Forall (fun c => starts c = None) cs -> fold_left write_call cs [] = []).
  { clear. intros cs C. induction C as [|c cs S C IH]; [reflexivity|]. cbn [fold_left]. unfold write_call at 2. rewrite S. exact IH. }
  apply (last_step (fold_left write_call cs) (fold_left write_call ds)); [|now rewrite !Z].
  intros l x. now rewrite !G, H.
Qed.
Lemma direct_last : forall s e o b, direct (Sorting (s_items s ++ [(e, o)]) (s_skip s) (s_limit s)) b = Sorting (s_items s ++ [(e, Some b)]) (s_skip s) (s_limit s).
Proof. intros s e o b. unfold direct. cbn [s_items s_skip s_limit]. now rewrite rev_unit, rev_involutive. Qed.

(** OrderBy, And and Descending, or the sort items they stand for. *)
Theorem C75_sort_items_or_calls : forall p k e f p' desc,
  written (p ++ OrderBy (GOk e) :: p') = written (p ++ OrderItems [Sort k e None] :: p')
  /\ written (p ++ OrderBy (GOk e) :: (if desc : bool then Descending else Ascending) :: p') = written (p ++ OrderItems [Sort k e (Some desc)] :: p')
  /\ forall k', written (p ++ OrderBy (GOk e) :: Then (GOk f) :: p') = written (p ++ OrderItems [Sort k e None; Sort k' f None] :: p').
Proof.
  intros p k e f p' desc. split; [|split].
  - apply (same_steps p [OrderBy (GOk e)] [OrderItems [Sort k e None]] p'); [now repeat constructor|now repeat constructor|discriminate|discriminate|now intros []].
  - apply (same_steps p [OrderBy (GOk e); if desc then Descending else Ascending] [OrderItems [Sort k e (Some desc)]] p'); [|now repeat constructor|discriminate|discriminate|].
    + destruct desc; now repeat constructor.
    + intros x. destruct x; destruct desc; cbn [fold_left completed conditions_completed sort_completed]; try reflexivity; unfold sort_by; cbn [the_exprs flat_map app map]; now rewrite direct_last.
  - intros k'. apply (same_steps p [OrderBy (GOk e); Then (GOk f)] [OrderItems [Sort k e None; Sort k' f None]] p'); [now repeat constructor|now repeat constructor|discriminate|discriminate|].
    intros x. destruct x; cbn [fold_left completed conditions_completed sort_completed]; try reflexivity; unfold sort_by; cbn [the_exprs flat_map app map s_items s_skip s_limit]; now rewrite <- app_assoc.
Qed.
Print Assumptions C75_sort_items_or_calls.

(** A SET given as target and value, or as the assignment of one to the other. *)
Theorem C75_pairs_or_assignments : forall p k a b p', is_operation a = false ->
  written (p ++ SetItems [GOk a; GOk b] :: p') = written (p ++ SetItems [GOk (EOperation k a SetProp b)] :: p')
  /\ forall on, written (p ++ OnAction on [GOk a; GOk b] :: p') = written (p ++ OnAction on [GOk (EOperation k a SetProp b)] :: p').
Proof.
  intros p k a b p' A.
  assert (I : assignments (the_exprs [GOk a; GOk b]) = assignments (the_exprs [GOk (EOperation k a SetProp b)])).
  { cbn [the_exprs flat_map app]. destruct a; try discriminate A; reflexivity. }
  split.
  - unfold written. rewrite !fold_left_app. cbn [fold_left]. f_equal. unfold write_call. cbn [starts]. now rewrite I.
  - intros on. apply (same_steps p [OnAction on [GOk a; GOk b]] [OnAction on [GOk (EOperation k a SetProp b)]] p'); [now repeat constructor|now repeat constructor|discriminate|discriminate|].
    intros x. destruct x; cbn [fold_left completed conditions_completed sort_completed]; try reflexivity. now rewrite I.
Qed.
Print Assumptions C75_pairs_or_assignments.

(** ** Chains that meet the hypotheses *)

Definition aliased_z : expr := EAlias "al" "pz" (prop nn "pz" "z") "total".
Definition one_way : list Builder.call :=
  [matched; Where (cond "a"); AndC (cond "b"); SetItems [GOk (prop nn "a" "a"); GOk (num "one" 1)]; Returning false [GOk nn; GOk aliased_z];
   OrderBy (GOk (prop nn "pz" "z")); Descending; Limit 3].
Definition other_way : list Builder.call :=
  [matched; Where (cond "a"); AndC (cond "b"); SetItems [GOk (EOperation "op" (prop nn "a" "a") SetProp (num "one" 1))]; Returning false [GOk nn; GOk aliased_z];
   OrderItems [Sort "so" (prop nn "pz" "z") (Some true)]; Limit 3].
Definition q_one : query := Eval vm_compute in
  match build_program K0 (K0 99) one_way with Some (Returns (Built (StOk q))) => q | _ => QSingle [] None end.
Definition q_other : query := Eval vm_compute in
  match build_program other_addresses (other_addresses 98) other_way with Some (Returns (Built (StOk q))) => q | _ => QSingle [] None end.

Example C75_case : valid one_way /\ orderly one_way = true /\ valid other_way /\ orderly other_way = true /\ written one_way = written other_way
  /\ build_program K0 (K0 99) one_way = Some (Returns (Built (StOk q_one)))
  /\ build_program other_addresses (other_addresses 98) other_way = Some (Returns (Built (StOk q_other)))
  /\ (forall k, In k (made env0 q_one ++ made env0 q_other) -> ~ In k (aliased_keys (print_query env0 q_one)))
  /\ well_keyed (to_vtq env0 q_one) = true /\ well_quiet (to_vtq env0 q_one) = true
  /\ well_keyed (to_vtq env0 q_other) = true /\ well_quiet (to_vtq env0 q_other) = true
  /\ q_one <> q_other
  /\ statement_text env0 q_other = "MATCH (n:`Person`) WHERE (n.a = 1 AND n.b = 1) SET n.a = 1 RETURN n, n.z AS total ORDER BY total DESC LIMIT 3".
Proof.
  split; [eexists; split; vm_compute; reflexivity|]. split; [vm_compute; reflexivity|]. split; [eexists; split; vm_compute; reflexivity|]. split; [vm_compute; reflexivity|].
  split; [reflexivity|]. split; [vm_compute; reflexivity|]. split; [vm_compute; reflexivity|]. split; [apply disjoint_by; vm_compute; reflexivity|].
  do 4 (split; [vm_compute; reflexivity|]). split; [discriminate|vm_compute; reflexivity].
Qed.

(** Not if what the builder made is taken for an expression with an alias: the
    collector may reuse the address of a sort item. *)
Definition q_reused : query := Eval vm_compute in
  match build_program K0 (K0 99) [matched; Returning false [GOk (EAlias "al" "so" (prop nn "so" "z") "total")]; OrderItems [Sort "so" (prop nn "pz" "z") (Some true)]] with
  | Some (Returns (Built (StOk q))) => q | _ => QSingle [] None end.
Definition q_apart : query := Eval vm_compute in
  match build_program K0 (K0 99) [matched; Returning false [GOk (EAlias "al" "so" (prop nn "so" "z") "total")]; OrderItems [Sort "sp" (prop nn "pz" "z") (Some true)]] with
  | Some (Returns (Built (StOk q))) => q | _ => QSingle [] None end.
Theorem C75_reused_address_refuted :
  statement_text env0 q_reused = "MATCH (n:`Person`) RETURN n.z AS total ORDER BY total"
  /\ statement_text env0 q_apart = "MATCH (n:`Person`) RETURN n.z AS total ORDER BY n.z DESC".
Proof. split; vm_compute; reflexivity. Qed.
Print Assumptions C75_reused_address_refuted.
