(** A larger bound does not change what is read. *)

From Coq Require Import Ascii String List Bool Arith Lia.
From Verif Require Import GoStr SpecTokens SpecOutline SpecGrammar.
Import ListNotations.
Open Scope string_scope.
Open Scope list_scope.

(** [b] is what [a] is, if [a] is something; [q] reads all that [p] reads. *)
Definition grows {A} (a b : option A) : Prop := forall x, a = Some x -> b = Some x.
Definition below {A} (p q : reader A) : Prop := forall ts, grows (p ts) (q ts).

Lemma grows_same : forall A (a : option A), grows a a.
Proof. intros A a x H. exact H. Qed.
Lemma grows_none : forall A (b : option A), grows None b.
Proof. intros A b x H. discriminate H. Qed.
Lemma grows_bind : forall A B (a b : option (A * list token)) (k l : A -> list token -> option B),
  grows a b -> (forall x r, grows (k x r) (l x r)) -> grows (bind a k) (bind b l).
Proof.
  intros A B a b k l G L z H. destruct a as [[x r]|]; [|discriminate H]. rewrite (G _ eq_refl). cbn [bind] in *. exact (L _ _ _ H).
Qed.

Ltac go := repeat (cbv beta; intros; first
  [ apply grows_same | apply grows_none
  | match goal with
    | M : below _ _ |- _ => apply M
    | M : forall _, below _ _ |- _ => apply M
    | M : forall _ _, below _ _ |- _ => apply M
    | |- grows (bind _ _) _ => apply grows_bind
    | |- grows (match ?s with _ => _ end) _ => destruct s
    | |- grows (let (_, _) := ?s in _) _ => destruct s
    end ]).

Section Below.
Context {A : Type} (p q : reader A) (M : below p q).

Lemma below_maybe_after : forall w, below (maybe_after w p) (maybe_after w q).
Proof. intros w ts. unfold maybe_after. go. Qed.
Lemma below_more : forall n, below (more n p) (more n q).
Proof. induction n as [|n IH]; intros ts; cbn [more]; go. Qed.
Lemma below_items : below (items p) (items q).
Proof. pose proof below_more as L. intros ts. unfold items. go. Qed.
Lemma below_items_until : forall m, below (items_until m p) (items_until m q).
Proof. pose proof below_items as L. intros m ts. unfold items_until. go. Qed.
End Below.

Section Parts.
Context (p q : reader cx) (M : below p q).

Lemma below_entry : below (entry p) (entry q).
Proof.
  intros ts. unfold entry. go.
Qed.
Lemma below_entries : below (entries p) (entries q).
Proof.
  pose proof (below_items_until _ _ below_entry) as L0. intros ts. unfold entries. go.
Qed.
Lemma below_properties : below (properties p) (properties q).
Proof.
  pose proof (below_entries) as L0. intros ts. unfold properties. go.
Qed.
Lemma below_projection : below (projection p) (projection q).
Proof.
  intros ts. unfold projection. go.
Qed.
Lemma below_a_node : below (a_node p) (a_node q).
Proof.
  pose proof (below_properties) as L0. intros ts. unfold a_node. go.
Qed.
Lemma below_details : forall h, below (details p h) (details q h).
Proof.
  pose proof (below_properties) as L0. intros h ts. unfold details. go.
Qed.
Lemma below_a_rel : below (a_rel p) (a_rel q).
Proof.
  pose proof (below_details) as L0. intros ts. unfold a_rel. go.
Qed.
Lemma below_hops : forall n, below (hops p n) (hops q n).
Proof.
  pose proof (below_a_rel) as L0. pose proof (below_a_node) as L1. 
  induction n as [|n IH]; intros ts; cbn [hops]; go.
Qed.
Lemma below_a_chain : below (a_chain p) (a_chain q).
Proof.
  pose proof (below_a_node) as L0. pose proof (below_hops) as L1. intros ts. unfold a_chain. go.
Qed.
Lemma below_a_part_of : forall path, below (a_part_of p path) (a_part_of q path).
Proof.
  pose proof (below_a_chain) as L0. intros path ts. unfold a_part_of. go.
Qed.
Lemma below_a_part : below (a_part p) (a_part q).
Proof.
  pose proof (below_a_part_of) as L0. intros ts. unfold a_part. go.
Qed.
Lemma below_arguments : below (arguments p) (arguments q).
Proof.
  pose proof (below_items_until _ _ M) as L0. intros ts. unfold arguments. go.
Qed.
Lemma below_a_filter : below (a_filter p) (a_filter q).
Proof.
  pose proof (below_maybe_after _ _ M "WHERE") as L0. intros ts. unfold a_filter. go.
Qed.
Lemma below_whens : forall n, below (whens p n) (whens q n).
Proof.
  
  induction n as [|n IH]; intros ts; cbn [whens]; go.
Qed.
Lemma below_a_case : below (a_case p) (a_case q).
Proof.
  pose proof (below_whens) as L0. pose proof (below_maybe_after _ _ M "ELSE") as L1. intros ts. unfold a_case. go.
Qed.
Lemma below_maybe_result : below (maybe_result p) (maybe_result q).
Proof.
  intros ts. unfold maybe_result. go.
Qed.
Lemma below_a_list : below (a_list p) (a_list q).
Proof.
  pose proof (below_maybe_result) as L0. pose proof (below_a_filter) as L1. pose proof (below_maybe_after _ _ M "WHERE") as L2. pose proof (below_more _ _ M) as L3. intros ts. unfold a_list. go.
Qed.
Lemma below_subscript : forall x, below (subscript p x) (subscript q x).
Proof.
  intros x ts. unfold subscript. go.
Qed.
Lemma below_an_exists : below (an_exists p) (an_exists q).
Proof.
  pose proof (below_items _ _ below_a_part) as L0. pose proof (below_maybe_after _ _ M "WHERE") as L1. intros ts. unfold an_exists. go.
Qed.
End Parts.

Theorem expressions_below : forall f,
  (forall n, below (expr_at f n) (expr_at (S f) n)) /\ (forall n x, below (operators f n x) (operators (S f) n x)) /\
  (forall x, below (tests f x) (tests (S f) x)) /\ (forall x, below (postfix f x) (postfix (S f) x)) /\ below (atom f) (atom (S f)).
Proof.
  induction f as [|f (IE & IO & IT & IP & IA)]; [repeat split; repeat intro; discriminate|].
  pose proof (below_subscript _ _ (IE 0)) as L1. pose proof (below_a_filter _ _ (IE 0)) as L2. pose proof (below_arguments _ _ (IE 0)) as L3.
  pose proof (below_items_until _ _ (below_projection _ _ (IE 0))) as L4. pose proof (below_a_case _ _ (IE 0)) as L5.
  pose proof (below_an_exists _ _ (IE 0)) as L6. pose proof (below_a_list _ _ (IE 0)) as L7. pose proof (below_entries _ _ (IE 0)) as L8.
  pose proof (below_a_chain _ _ (IE 0)) as L9.
  repeat split.
  - intros n ts. remember (S f) as g. rewrite Heqg at 1. cbn [expr_at]. go.
  - intros n x ts. remember (S f) as g. rewrite Heqg at 1. cbn [operators]. go.
  - intros x ts. remember (S f) as g. rewrite Heqg at 1. cbn [tests]. go.
  - intros x ts. remember (S f) as g. rewrite Heqg at 1. cbn [postfix]. go.
  - intros ts. remember (S f) as g. rewrite Heqg at 1. cbn [atom]. go.
Qed.

Section Clauses.
Context (p q p' q' : reader cx) (M : below p p') (N : below q q').
Lemma below_an_item : below (an_item p) (an_item p').
Proof.
  intros ts. unfold an_item. go.
Qed.
Lemma below_a_sort : below (a_sort p) (a_sort p').
Proof.
  intros ts. unfold a_sort. go.
Qed.
Lemma below_an_order : below (an_order p) (an_order p').
Proof.
  pose proof (below_items _ _ below_a_sort) as L0. intros ts. unfold an_order. go.
Qed.
Lemma below_a_body : below (a_body p) (a_body p').
Proof.
  pose proof (below_items _ _ below_an_item) as L0. pose proof (below_an_order) as L1. pose proof (below_maybe_after _ _ M) as L2. intros ts. unfold a_body. go.
Qed.
Lemma below_a_set : below (a_set p q) (a_set p' q').
Proof.
  intros ts. unfold a_set. go.
Qed.
Lemma below_actions : forall n, below (actions p q n) (actions p' q' n).
Proof.
  pose proof (below_items _ _ below_a_set) as L0. 
  induction n as [|n IH]; intros ts; cbn [actions]; go.
Qed.
Lemma below_a_call : below (a_call p) (a_call p').
Proof.
  pose proof (below_items_until _ _ M) as L0. pose proof (below_maybe_after _ _ (below_items _ _ below_an_item)) as L1. pose proof (below_maybe_after _ _ M) as L2. intros ts. unfold a_call. go.
Qed.
Lemma below_a_match : forall o, below (a_match p o) (a_match p' o).
Proof.
  pose proof (below_items _ _ (below_a_part _ _ M)) as L1. pose proof (below_maybe_after _ _ M) as L2. intros o ts. unfold a_match. go.
Qed.
Lemma below_clause_of : forall w, below (clause_of p q w) (clause_of p' q' w).
Proof.
  pose proof below_a_match as L0. pose proof (below_items _ _ (below_a_part _ _ M)) as L1. pose proof (below_maybe_after _ _ M) as L2.
  pose proof below_actions as L3. pose proof (below_items _ _ M) as L4. pose proof (below_items _ _ N) as L5. pose proof (below_items _ _ below_a_set) as L6.
  pose proof below_a_body as L7. intros w ts. unfold clause_of. go.
Qed.
End Clauses.

Theorem clauses_below : forall f, below (clauses f) (clauses (S f)) /\ below (a_clause f) (a_clause (S f)) /\ below (unions f) (unions (S f)).
Proof.
  induction f as [|f (IC & IA & IU)]; [repeat split; repeat intro; discriminate|].
  destruct (expressions_below f) as (E & _).
  pose proof (below_a_call _ _ (E 0)) as L1. pose proof (below_clause_of _ _ _ _ (E 0) (E 10)) as L2.
  repeat split.
  - intros ts. remember (S f) as g. rewrite Heqg at 1. cbn [clauses]. go.
  - intros ts. remember (S f) as g. rewrite Heqg at 1. cbn [a_clause]. go.
  - intros ts. remember (S f) as g. rewrite Heqg at 1. cbn [unions]. go.
Qed.

(** What a statement is read as for some bound is what it is read as for every larger one. *)
Theorem query_grows : forall f g ts x, f <= g -> a_query f ts = Some x -> a_query g ts = Some x.
Proof.
  intros f g ts x L. induction L as [|g L IH]; [trivial|]. intros H. specialize (IH H). revert IH. clear. revert x.
  destruct (clauses_below g) as (C & _ & U). change (grows (a_query g ts) (a_query (S g) ts)). unfold a_query. go.
Qed.
