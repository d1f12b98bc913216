(** Headline theorems about expressions with operators: C46. *)

From Coq Require Import Ascii String List ZArith Bool Lia.
From Verif Require Import GoStr Escape Num VTree Ast GoVal Maps SpecDoc SpecPrint Patterns SpecPattern Cond Builder Exprs Functions SpecExpr SpecCalls.
From Verif Require Import DocProofs PatternProofs ReadProofs WrittenProofs ExprProofs PropertiesText.
Import ListNotations.
Open Scope string_scope.
Open Scope list_scope.

(** ** C46 *)

(** A text of tokens has at most one reading. *)
Theorem C46_one_reading : forall (ts : list (token expr)) t t', means ts t -> means ts t' -> t = t'.
Proof. intros ts t t'. apply means_unique. Qed.
Print Assumptions C46_one_reading.

(** Calls of operators, of any number and in any nesting, succeed; what they
    write is read as the tree that the calls describe exactly when the tree is
    [faithful]. *)
Theorem C46_operators_partial : forall t v, builds t v ->
  exists e i ts, v = Elem (Good e) i
  /\ (forall E m, transparent (print E e) m -> write (print E e) m = write (tokens_doc E ts) m)
  /\ (faithful t = true <-> means ts t).
Proof.
  intros t v B. apply builds_rep in B as (e & i & -> & R). exists e, i, (wr t). split; [reflexivity|]. split.
  - intros E m T. rewrite plain_write by exact T. apply rep_text. exact R.
  - symmetry. apply wr_means.
Qed.
Print Assumptions C46_operators_partial.

(** Arithmetic without powers is always read as intended. *)
Fixpoint arithmetic {A} (t : tree A) : bool :=
  match t with
  | Leaf _ => true
  | Bin (Plus | Minus | Times | Over | Modulo) l r => arithmetic l && arithmetic r
  | _ => false
  end.

Lemma arithmetic_faithful : forall A (t : tree A), arithmetic t = true -> faithful t = true /\ ordering t = false.
Proof.
  induction t as [a|s l IHl r IHr|s t IH]; intros H; [now split| |discriminate].
  destruct s; try discriminate; cbn in H; apply andb_prop in H as [L R]; destruct (IHl L) as [Fl Ol], (IHr R) as [Fr Or];
    cbn; rewrite Fl, Fr, Ol, Or; now split.
Qed.

Theorem C46_arithmetic : forall t v, arithmetic t = true -> builds t v ->
  exists e i ts, v = Elem (Good e) i
  /\ (forall E m, transparent (print E e) m -> write (print E e) m = write (tokens_doc E ts) m)
  /\ forall t', means ts t' <-> t' = t.
Proof.
  intros t v A B. destruct (C46_operators_partial t v B) as (e & i & ts & V & W & F).
  exists e, i, ts. split; [exact V|]. split; [exact W|]. assert (M : means ts t) by (apply F; now apply arithmetic_faithful).
  intros t'. split; [intros M'; now apply (C46_one_reading ts)|now intros ->].
Qed.
Print Assumptions C46_arithmetic.

(** *** Wrong readings *)

Definition kk (n : nat) : key := match n with 0 => "k0" | 1 => "k1" | 2 => "k2" | _ => "k3" end.
Definition nm (x : string) : value := sym_value (Sym x x).
Definition lf (x : string) : tree expr := Leaf (ESym x x).
Definition kt (p : string) (n : nat) : key := (p ++ kk n)%string.

Lemma b_nm : forall x, builds (lf x) (nm x).
Proof. intros. apply b_leaf. reflexivity. Qed.

(** What an expression writes in an empty context. *)
Definition says (v : value) : option string :=
  match v with Elem (Good e) _ => Some (text (print env0 e)) | _ => None end.

(** [misread v w t u txt]: v is made for t, w for u, both write txt, and the text
    is read as u, not as t. *)
Definition misread (t u : tree expr) (v w : value) (txt : string) : Prop :=
  builds t v /\ builds u w /\ says v = Some txt /\ says w = Some txt /\ t <> u /\ faithful t = false /\ faithful u = true.

(** a ^ (b ^ c) is written, and read, as (a ^ b) ^ c. *)
Theorem C46_power_of_power_refuted :
  misread (Bin Power (lf "a") (Bin Power (lf "b") (lf "c"))) (Bin Power (Bin Power (lf "a") (lf "b")) (lf "c"))
    (compute (kt "x") Pow (nm "a") (compute (kt "y") Pow (nm "b") (nm "c")))
    (compute (kt "x") Pow (compute (kt "y") Pow (nm "a") (nm "b")) (nm "c")) "a^b^c".
Proof.
  split; [apply (b_compute (kt "x") Pow); [apply b_nm|apply (b_compute (kt "y") Pow); apply b_nm]|].
  split; [apply (b_compute (kt "x") Pow); [apply (b_compute (kt "y") Pow); apply b_nm|apply b_nm]|].
  repeat split; try (vm_compute; reflexivity). discriminate.
Qed.
Print Assumptions C46_power_of_power_refuted.

(** (a ^ b) IN c is written, and read, as a ^ (b IN c)... *)
Theorem C46_power_in_refuted : forall c, level (sign_of_comparing c) = 4 ->
  exists e ts t', compare (kt "x") c (compute (kt "y") Pow (nm "a") (nm "b")) (nm "c") = made (Good e)
  /\ (forall E m, transparent (print E e) m -> write (print E e) m = write (tokens_doc E ts) m)
  /\ means ts t' /\ t' = Bin Power (lf "a") (Bin (sign_of_comparing c) (lf "b") (lf "c")).
Proof.
  intros c L.
  assert (B : builds (Bin (sign_of_comparing c) (Bin Power (lf "a") (lf "b")) (lf "c"))
                (compare (kt "x") c (compute (kt "y") Pow (nm "a") (nm "b")) (nm "c"))).
  { apply b_compare; [apply (b_compute (kt "y") Pow); apply b_nm|apply b_nm]. }
  apply builds_rep in B as (e & i & V & R).
  exists e, [TLeaf (ESym "a" "a"); TSign Power; TLeaf (ESym "b" "b"); TSign (sign_of_comparing c); TLeaf (ESym "c" "c")].
  eexists. split; [|split; [|split; [|reflexivity]]].
  - rewrite V. destruct c; cbn in V; injection V as <- <-; reflexivity.
  - intros E m T. rewrite plain_write by exact T. etransitivity; [apply rep_text; exact R|]. cbn [wr]. rewrite L. reflexivity.
  - unfold means. do 3 (apply u_up; [lia|]). apply (u_bin Power [TLeaf _] [TLeaf _; TSign _; TLeaf _]); cbn.
    + do 2 (apply u_up; [lia|]). constructor.
    + rewrite <- L. apply (u_bin (sign_of_comparing c) [TLeaf _] [TLeaf _]); rewrite L; cbn; [apply u_up; [lia|]|]; constructor.
Qed.
Print Assumptions C46_power_in_refuted.

(** (a = b) + c is written as (a = b + c) and read as a = (b + c). *)
Theorem C46_comparison_in_sum_refuted :
  let v := compute (kt "x") Add (compare (kt "y") IsEqualTo (nm "a") (nm "b")) (nm "c") in
  let ts := [TOpen; TLeaf (ESym "a" "a"); TSign Equal; TLeaf (ESym "b" "b"); TSign Plus; TLeaf (ESym "c" "c"); TClose] in
  builds (Bin Plus (Bin Equal (lf "a") (lf "b")) (lf "c")) v
  /\ says v = Some "(a = b + c)" /\ text (tokens_doc env0 ts) = "(a = b + c)"
  /\ means ts (Bin Equal (lf "a") (Bin Plus (lf "b") (lf "c"))).
Proof.
  split; [|split; [vm_compute; reflexivity|split; [vm_compute; reflexivity|]]].
  - apply (b_compute (kt "x") Add); [apply (b_compare (kt "y") IsEqualTo); apply b_nm|apply b_nm].
  - unfold means. do 5 (apply u_up; [lia|]). apply (u_paren [TLeaf _; TSign Equal; TLeaf _; TSign Plus; TLeaf _]).
    apply (u_bin Equal [TLeaf _] [TLeaf _; TSign Plus; TLeaf _]); cbn.
    + do 4 (apply u_up; [lia|]). constructor.
    + apply (u_bin Plus [TLeaf _] [TLeaf _]); cbn; [do 4 (apply u_up; [lia|])|do 3 (apply u_up; [lia|])]; constructor.
Qed.
Print Assumptions C46_comparison_in_sum_refuted.

(** A case that meets the hypotheses: (x + 1) * y STARTS WITH z, compared and
    tested. *)
Example C46_case :
  let sum := compute (kt "s") Add (nm "x") (int_value "one" 1) in
  let product := compute (kt "p") Multiply sum (nm "y") in
  let v := is_null (kt "n") (compare (kt "c") StartWiths (get product) (nm "z")) in
  let t := Post Null (Bin Starts (Bin Times (Bin Plus (lf "x") (Leaf (ENum "one" (num_of_Z 1)))) (lf "y")) (lf "z")) in
  builds t v /\ faithful t = true /\ says v = Some "(((x + 1) * y) STARTS WITH z) IS NULL".
Proof.
  cbv zeta. split; [|split; [reflexivity|vm_compute; reflexivity]].
  apply b_null. apply (b_compare (kt "c") StartWiths); [|apply b_nm].
  assert (P : builds (Bin Times (Bin Plus (lf "x") (Leaf (ENum "one" (num_of_Z 1)))) (lf "y"))
                (compute (kt "p") Multiply (compute (kt "s") Add (nm "x") (int_value "one" 1)) (nm "y"))).
  { apply (b_compute (kt "p") Multiply); [|apply b_nm]. apply (b_compute (kt "s") Add); [apply b_nm|]. now apply b_leaf. }
  apply b_copy with (j := NilValue) in P. exact P.
Qed.
