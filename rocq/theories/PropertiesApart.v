(** Headline theorems: C78. *)

From Coq Require Import Ascii String List ZArith Bool Lia.
From Verif Require Import SpecCond GoStr Escape Num VTree WellKeyed SpecSpace EscapeProofs GoStrProofs Ast SpecDoc SpecPrint RenderProofs DocProofs
  BuilderText SpecPattern PatternProofs Cond GoVal Queries Builder SpecBuilder BuilderProofs AgainProofs SpecExtend ExtendProofs PropertiesText PropertiesRender
  PropertiesBuilder PropertiesExtend SpecUnited UnitedProofs SpecJoined JoinedProofs PropertiesJoined.
Import ListNotations.
Open Scope string_scope.
Open Scope list_scope.

(** The text of a clause on its own. *)
Definition clause_text (E : env) (c : query) : string := text (print_query E c).

Lemma write_apart : forall E cs m, Forall (fun c => blank_for m (print_query E c)) cs -> separate E cs ->
  fst (wcat (map (print_query E) cs) m) = String.concat "" (map (clause_text E) cs).
Proof.
  intros E. assert (CC : forall t ts, String.concat "" (t :: ts) = (t ++ String.concat "" ts)%string) by (intros t [|t' ts]; [now rewrite sapp_nil_r|reflexivity]).
  induction cs as [|c cs IH]; intros m B S; [reflexivity|]. inversion B as [|? ? B1 B2]; subst. inversion S as [|? ? S1 S2]; subst. cbn [map wcat]. rewrite CC.
  unfold clause_text at 1. rewrite <- (write_blank _ _ B1).
  assert (X : Forall (fun c' => blank_for (snd (write (print_query E c) m)) (print_query E c')) cs).
  { rewrite Forall_forall in *. intros c' J. destruct (B2 c' J) as (G & H), (S1 c' J) as (P & Q).
    split; intros k Hk; [apply free_write; [|now apply G]|apply unwritten_write; [|now apply H]]; intros Y; [now apply (P k Y)|now apply (Q k Y)]. }
  specialize (IH _ X S2). destruct (write (print_query E c) m) as [x m1]. cbn [snd fst] in *. rewrite <- IH. now destruct (wcat _ m1).
Qed.

(** The text of a statement is that of its clauses, each written on its own,
    when no named node and no aliased element of one is in a later one. *)
Theorem C78_clauses_apart_partial : forall E K ks p i q,
  compiles IStart p = Some i -> buildable i = true -> orderly p = true ->
  build_program K ks p = Some (Returns (Built (StOk q))) ->
  (forall k, In k (part_keys q) -> ~ In k (aliased_keys (print_query E q))) -> separate E (SpecBuilder.clauses q) ->
  Forall2 says (written p) (SpecBuilder.clauses q)
  /\ statement_text E q = trim_space (String.concat "" (map (clause_text E) (SpecBuilder.clauses q))).
Proof.
  intros E K ks p i q C B O Q A S. destruct (program_ok K ks p i C B O) as (q' & X & F). rewrite Q in X. injection X as <-. split; [exact F|].
  unfold statement_text. f_equal. rewrite C26_text_in_clause_order by exact A. unfold text. rewrite write_Cat. apply write_apart; [|exact S].
  apply Forall_forall. intros c _. split; intros k _; reflexivity.
Qed.
Print Assumptions C78_clauses_apart_partial.

(** The same of what the renderer writes for the statement. *)
Theorem C78_rendered_clauses_apart_partial : forall (err : Type) E K ks p i q,
  compiles IStart p = Some i -> buildable i = true -> orderly p = true ->
  build_program K ks p = Some (Returns (Built (StOk q))) ->
  (forall k, In k (part_keys q) -> ~ In k (aliased_keys (print_query E q))) -> separate E (SpecBuilder.clauses q) -> renderable E q ->
  rendering err E q = trim_space (String.concat "" (map (clause_text E) (SpecBuilder.clauses q))).
Proof.
  intros err E K ks p i q C B O Q A S (W & T). unfold rendering. rewrite (C01_rendering_prints_the_statement_partial err E q W T). cbn [fst].
  now apply (C78_clauses_apart_partial E K ks p i q C B O Q A S).
Qed.
Print Assumptions C78_rendered_clauses_apart_partial.

(** What a clause writes on its own depends only on what the calls say about it:
    not on the chain, its place there, or the addresses. *)
Theorem C78_same_clause_partial : forall E K1 ks1 K2 ks2 p1 p2 i1 i2 q1 q2 n1 n2 ph,
  compiles IStart p1 = Some i1 -> buildable i1 = true -> orderly p1 = true ->
  compiles IStart p2 = Some i2 -> buildable i2 = true -> orderly p2 = true ->
  build_program K1 ks1 p1 = Some (Returns (Built (StOk q1))) ->
  build_program K2 ks2 p2 = Some (Returns (Built (StOk q2))) ->
  nth_error (written p1) n1 = Some ph -> nth_error (written p2) n2 = Some ph ->
  exists c1 c2, nth_error (SpecBuilder.clauses q1) n1 = Some c1 /\ nth_error (SpecBuilder.clauses q2) n2 = Some c2
    /\ ((forall k, In k (made E q1 ++ made E q2) -> ~ In k (aliased_keys (print_query E c1))) -> clause_text E c1 = clause_text E c2).
Proof.
  intros E K1 ks1 K2 ks2 p1 p2 i1 i2 q1 q2 n1 n2 ph C1 B1 O1 C2 B2 O2 Q1 Q2 N1 N2.
  destruct (program_ok K1 ks1 p1 i1 C1 B1 O1) as (x & X & F1). rewrite Q1 in X. injection X as <-.
  destruct (program_ok K2 ks2 p2 i2 C2 B2 O2) as (x & X & F2). rewrite Q2 in X. injection X as <-.
  assert (G : forall ps cs n, Forall2 says ps cs -> nth_error ps n = Some ph -> exists c, nth_error cs n = Some c /\ says ph c).
  { clear. intros ps cs n F. revert n. induction F as [|a c ps cs S F IH]; intros [|n] H; try discriminate; [|now apply IH]. injection H as <-. now exists c. }
  destruct (G _ _ _ F1 N1) as (c1 & X1 & S1). destruct (G _ _ _ F2 N2) as (c2 & X2 & S2).
  exists c1, c2. split; [exact X1|]. split; [exact X2|]. intros A. set (N := fun k => In k (made E q1 ++ made E q2)).
  assert (ON : Forall one_name (written p1)) by (apply orderly_one; [exact O1|constructor]). rewrite Forall_forall in ON. specialize (ON ph (nth_error_In _ _ N1)).
  unfold clause_text. apply (same_text N); [|exact A]. apply same_clause with (p := ph); auto.
  - apply in_or_app. left. now left.
  - apply in_or_app. left. right. now left.
  - intros k J. apply in_or_app. left. right. right. apply in_or_app. right. apply in_flat_map. exists c1. split; [exact (nth_error_In _ _ X1)|exact J].
  - intros k J. apply in_or_app. right. right. right. apply in_or_app. right. apply in_flat_map. exists c2. split; [exact (nth_error_In _ _ X2)|exact J].
Qed.
Print Assumptions C78_same_clause_partial.

(** ** Chains that meet the hypotheses *)

Definition three_clauses : list Builder.call := [matched; Where (cond "a"); Create [GOk m_]; Returning false [GOk (EAlias "al" "pz" (prop nn "pz" "z") "total")]].
Definition two_clauses : list Builder.call := [Create [GOk m_]; Returning true [GOk (num "one" 1)]].
Definition q_three : query := built_by (Chain K0 (K0 97) three_clauses).
Definition q_two : query := built_by (Chain other_addresses (other_addresses 98) two_clauses).
Definition created : query := nth 1 (SpecBuilder.clauses q_three) (QBlank "").

Example C78_case : valid three_clauses /\ orderly three_clauses = true /\ valid two_clauses /\ orderly two_clauses = true
  /\ build_program K0 (K0 97) three_clauses = Some (Returns (Built (StOk q_three)))
  /\ build_program other_addresses (other_addresses 98) two_clauses = Some (Returns (Built (StOk q_two)))
  /\ (forall k, In k (part_keys q_three) -> ~ In k (aliased_keys (print_query env0 q_three))) /\ separate env0 (SpecBuilder.clauses q_three) /\ renderable env0 q_three
  /\ aliased_keys (print_query env0 q_three) <> []
  /\ nth_error (written three_clauses) 1 = Some (PCreate [m_]) /\ nth_error (written two_clauses) 0 = Some (PCreate [m_])
  /\ nth_error (SpecBuilder.clauses q_three) 1 = Some created /\ nth_error (SpecBuilder.clauses q_two) 0 <> Some created
  /\ (forall k, In k (made env0 q_three ++ made env0 q_two) -> ~ In k (aliased_keys (print_query env0 created)))
  /\ map (clause_text env0) (SpecBuilder.clauses q_three) = ["MATCH (n:`Person`) WHERE n.a = 1 "; "CREATE (m:`Movie`) "; "RETURN n.z AS total"]
  /\ statement_text env0 q_three = "MATCH (n:`Person`) WHERE n.a = 1 CREATE (m:`Movie`) RETURN n.z AS total"
  /\ map (clause_text env0) (SpecBuilder.clauses q_two) = ["CREATE (m:`Movie`) "; "RETURN DISTINCT 1"].
Proof.
  split; [eexists; split; vm_compute; reflexivity|]. split; [vm_compute; reflexivity|]. split; [eexists; split; vm_compute; reflexivity|]. split; [vm_compute; reflexivity|].
  split; [vm_compute; reflexivity|]. split; [vm_compute; reflexivity|]. split; [apply disjoint_by; vm_compute; reflexivity|]. split; [apply pairs_by; vm_compute; reflexivity|].
  split; [split; vm_compute; reflexivity|]. split; [vm_compute; discriminate|]. split; [vm_compute; reflexivity|]. split; [vm_compute; reflexivity|]. split; [vm_compute; reflexivity|]. split; [vm_compute; discriminate|].
  split; [apply disjoint_by; vm_compute; reflexivity|]. split; [vm_compute; reflexivity|]. split; vm_compute; reflexivity.
Qed.

(** Not for a node that was written before (C04): the same CREATE makes a node
    with a label in one chain, and is written without the label in another. *)
Definition node_again : list Builder.call := [matched; Create [GOk n_]].
Definition node_first : list Builder.call := [Create [GOk n_]].
Theorem C78_node_again_refuted : valid node_again /\ orderly node_again = true /\ valid node_first /\ orderly node_first = true
  /\ nth_error (written node_again) 1 = nth_error (written node_first) 0
  /\ statement_text env0 (built_by (Chain K0 (K0 97) node_again)) = "MATCH (n:`Person`) CREATE (n)"
  /\ statement_text env0 (built_by (Chain K0 (K0 97) node_first)) = "CREATE (n:`Person`)"
  /\ statement_text env0 (built_by (Chain K0 (K0 97) node_again))
     <> trim_space (String.concat "" (map (clause_text env0) (SpecBuilder.clauses (built_by (Chain K0 (K0 97) node_again))))).
Proof.
  split; [eexists; split; vm_compute; reflexivity|]. split; [vm_compute; reflexivity|]. split; [eexists; split; vm_compute; reflexivity|]. split; [vm_compute; reflexivity|].
  split; [vm_compute; reflexivity|]. split; [vm_compute; reflexivity|]. split; [vm_compute; reflexivity|]. vm_compute. discriminate.
Qed.
Print Assumptions C78_node_again_refuted.
