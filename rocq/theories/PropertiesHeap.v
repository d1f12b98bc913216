(** Properties of values that share memory: C21. *)

From Coq Require Import Ascii String List ZArith Bool Arith Lia.
From Verif Require Import VTree Ast Num SpecDoc SpecPrint SpecCond Cond PropertiesCond Slices HeapCond HeapCondProofs PropertiesText.
Import ListNotations.
Open Scope string_scope.
Open Scope list_scope.

(** ** C21: extending a condition does not change others *)

(** If no compound condition is extended twice (with And, Or or Xor; its use as
    an operand does not count), then every condition of the program stands, at
    the end, for what the calls that made it say, whatever capacities the
    runtime chooses for slices. *)
Theorem C21_extended_once_partial : forall grow ps, once [] [] ps = true ->
  match heap_run grow [] [] ps, pure_run [] ps with
  | Val (h, hs), Val env => Forall2 (denotes h) hs env
  | Panic, Panic => True
  | _, _ => False
  end.
Proof. exact once_spec. Qed.
Print Assumptions C21_extended_once_partial.

Lemma once_app : forall ps qs env used, once env used (ps ++ qs) = true -> once env used ps = true.
Proof.
  induction ps as [|p ps IH]; intros qs env used H; [reflexivity|]. cbn in *. apply andb_prop in H as [H1 H2]. rewrite H1. cbn.
  destruct (pure_step env p); [now apply IH with qs|reflexivity].
Qed.

Lemma heap_run_app : forall grow ps qs h hs, heap_run grow h hs (ps ++ qs)
  = match heap_run grow h hs ps with Val (h', hs') => heap_run grow h' hs' qs | Panic => Panic end.
Proof.
  induction ps as [|p ps IH]; intros qs h hs; [reflexivity|]. cbn. destruct (heap_step grow h hs p) as [[h' c]|]; [apply IH|reflexivity].
Qed.

Lemma pure_run_app : forall ps qs env, pure_run env (ps ++ qs)
  = match pure_run env ps with Val env' => pure_run env' qs | Panic => Panic end.
Proof.
  induction ps as [|p ps IH]; intros qs env; [reflexivity|]. cbn. destruct (pure_step env p); [apply IH|reflexivity].
Qed.

Lemma heap_run_env : forall grow ps h hs h' hs', heap_run grow h hs ps = Val (h', hs') -> exists l, hs' = hs ++ l.
Proof.
  induction ps as [|p ps IH]; intros h hs h' hs' E; cbn in E; [inversion E; subst; exists []; now rewrite app_nil_r|].
  destruct (heap_step grow h hs p) as [[h1 c]|]; [|discriminate]. apply IH in E as [l ->]. exists (c :: l). now rewrite <- app_assoc.
Qed.
Lemma pure_run_env : forall ps env env', pure_run env ps = Val env' -> exists l, env' = env ++ l.
Proof.
  induction ps as [|p ps IH]; intros env env' E; cbn in E; [inversion E; subst; exists []; now rewrite app_nil_r|].
  destruct (pure_step env p) as [c|]; [|discriminate]. apply IH in E as [l ->]. exists (c :: l). now rewrite <- app_assoc.
Qed.

(** Later instructions do not change a condition: its text, in any place, is the
    same as when it was made. *)
Theorem C21_later_calls_keep_conditions_partial : forall grow ps qs h1 hs1 h2 hs2 i,
  once [] [] (ps ++ qs) = true -> heap_run grow [] [] ps = Val (h1, hs1) -> heap_run grow [] [] (ps ++ qs) = Val (h2, hs2) ->
  i < length hs1 ->
  nth i hs2 HNil = nth i hs1 HNil
  /\ exists C, denotes h1 (nth i hs1 HNil) C /\ denotes h2 (nth i hs1 HNil) C.
Proof.
  intros grow ps qs h1 hs1 h2 hs2 i O E1 E2 Li.
  pose proof (once_spec grow (ps ++ qs) O) as X2. pose proof (once_spec grow ps (once_app _ _ _ _ O)) as X1.
  rewrite E1 in X1. rewrite E2 in X2. destruct (pure_run [] ps) as [env1|] eqn:P1; [|contradiction].
  destruct (pure_run [] (ps ++ qs)) as [env2|] eqn:P2; [|contradiction].
  rewrite heap_run_app, E1 in E2. rewrite pure_run_app, P1 in P2.
  apply heap_run_env in E2 as [l ->]. apply pure_run_env in P2 as [l' ->].
  rewrite app_nth1 by assumption. split; [reflexivity|]. exists (nth i env1 Nil).
  assert (L1 : length hs1 = length env1) by (clear - X1; induction X1; cbn; congruence).
  assert (N : forall h l L, Forall2 (denotes h) l L -> i < length l -> denotes h (nth i l HNil) (nth i L Nil)).
  { clear. intros h l L F. revert i. induction F; intros [|i] Hi; cbn in *; try lia; [assumption|]. apply IHF. lia. }
  split; [now apply N|]. specialize (N h2 _ _ X2 ltac:(rewrite app_length; lia)). rewrite !app_nth1 in N by lia. exact N.
Qed.
Print Assumptions C21_later_calls_keep_conditions_partial.

(** ... and what a value stands for is unique. *)
Theorem C21_text_unique : forall h c C C', denotes h c C -> denotes h c C' -> cond_expr C = cond_expr C'.
Proof. intros h c C C' D D'. now apply denotes_expr with h c. Qed.
Print Assumptions C21_text_unique.

Definition ksA (n : nat) : key := nth n ["A0"; "A1"; "A2"; "A3"; "A4"] "".
Definition five : list instr := [MkBasic (atom "a"); MkBasic (atom "b"); MkBasic (atom "c"); MkBasic (atom "d"); MkBasic (atom "e")].

(** a.And(b), extended; the same operands used several times, negated, in
    another condition. *)
Definition linear : list instr :=
  five ++ [MkChain ksA BAnd 0 1; MkMethod ksA BAnd 5 2; MkChain ksA BOr 3 6; MkChain ksA BOr 7 6; MkConditionsNot ksA 6; MkChain ksA BAnd 6 3].

Example C21_case : once [] [] linear = true
  /\ exists h hs, heap_run go_grow [] [] linear = Val (h, hs) /\ length hs = 11
  /\ match pure_run [] linear with
     | Val env => map (fun c => text (print env0 (cond_expr c))) (skipn 6 env)
                  = ["(a = 1 AND b = 1 AND c = 1)"; "(d = 1 OR (a = 1 AND b = 1 AND c = 1))";
                     "(d = 1 OR (a = 1 AND b = 1 AND c = 1) OR (a = 1 AND b = 1 AND c = 1))";
                     "NOT ((a = 1 AND b = 1))"; "(a = 1 AND b = 1 AND c = 1 AND d = 1)"]
     | Panic => False
     end.
Proof.
  split; [vm_compute; reflexivity|]. destruct (heap_run go_grow [] [] linear) as [[h hs]|] eqn:E; [|vm_compute in E; discriminate].
  exists h, hs. split; [reflexivity|]. vm_compute in E. inversion E; subst. vm_compute. split; reflexivity.
Qed.

(** Two conditions made from the same one: x = c.And(d), y = c.And(e), where c is
    a.And(b).And(c).  With the capacities of the Go runtime x becomes y. *)
Definition shared_base : list instr := five ++ [MkChain ksA BAnd 0 1; MkChain ksA BAnd 5 2; MkChain ksA BAnd 6 3].

Theorem C21_two_extensions_refuted : exists h1 hs1 h2 hs2 C1 C2,
  heap_run go_grow [] [] shared_base = Val (h1, hs1)
  /\ heap_run go_grow [] [] (shared_base ++ [MkChain ksA BAnd 6 4]) = Val (h2, hs2)
  /\ nth 7 hs2 HNil = nth 7 hs1 HNil
  /\ denotes h1 (nth 7 hs1 HNil) C1 /\ text (print env0 (cond_expr C1)) = "(a = 1 AND b = 1 AND c = 1 AND d = 1)"
  /\ denotes h2 (nth 7 hs1 HNil) C2 /\ text (print env0 (cond_expr C2)) = "(a = 1 AND b = 1 AND c = 1 AND e = 1)".
Proof.
  destruct (heap_run go_grow [] [] shared_base) as [[h1 hs1]|] eqn:E1; [|vm_compute in E1; discriminate].
  destruct (heap_run go_grow [] [] (shared_base ++ [MkChain ksA BAnd 6 4])) as [[h2 hs2]|] eqn:E2; [|vm_compute in E2; discriminate].
  exists h1, hs1, h2, hs2, (Comp "A0" BAnd [Atom (atom "a"); Atom (atom "b"); Atom (atom "c"); Atom (atom "d")] 2),
    (Comp "A0" BAnd [Atom (atom "a"); Atom (atom "b"); Atom (atom "c"); Atom (atom "e")] 2).
  vm_compute in E1. inversion E1; subst. vm_compute in E2. inversion E2; subst.
  repeat (split; [first [reflexivity | vm_compute; repeat constructor]|]). vm_compute. reflexivity.
Qed.
Print Assumptions C21_two_extensions_refuted.

(** Worse: a condition can come to contain itself.  x = c.And(d) as above,
    y = e.Or(x), c.And(y): x then contains y, which contains x, and rendering x
    does not end. *)

(** compound_condition.go:83-106 [accept]: does it come to an end within the
    given depth of calls? *)
Fixpoint accept_ends (depth : nat) (h : memory) (c : hcond) : bool :=
  match depth with
  | 0 => false
  | S depth' =>
      match c with
      | HComp _ _ s _ => forallb (accept_ends depth' h) (read h s)
      | HNeg _ _ c => accept_ends depth' h c
      | _ => true
      end
  end.

Definition knot : list instr := shared_base ++ [MkChain ksA BOr 4 7; MkChain ksA BAnd 6 8].

Lemma part_never_ends : forall d h k o s n c, In c (read h s) -> accept_ends d h c = false -> accept_ends (S d) h (HComp k o s n) = false.
Proof.
  intros d h k o s n c I E. cbn. induction (read h s) as [|x l IH]; [destruct I|]. cbn. destruct I as [->|I]; [now rewrite E|].
  rewrite (IH I). apply andb_false_r.
Qed.

Theorem C21_condition_contains_itself_refuted : exists h hs,
  heap_run go_grow [] [] knot = Val (h, hs) /\ (forall depth, accept_ends depth h (nth 7 hs HNil) = false)
  /\ exists x, pure_run [] knot = Val x /\ text (print env0 (cond_expr (nth 7 x Nil))) = "(a = 1 AND b = 1 AND c = 1 AND d = 1)".
Proof.
  destruct (heap_run go_grow [] [] knot) as [[h hs]|] eqn:E; [|vm_compute in E; discriminate].
  exists h, hs. split; [reflexivity|]. split.
  - assert (H : forall n d, d <= n -> accept_ends d h (nth 7 hs HNil) = false).
    { induction n as [|n IH]; intros d Hd; [now replace d with 0 by lia|].
      destruct d as [|[|[|[|[|d]]]]]; try (vm_compute in E; inversion E; subst; reflexivity).
      specialize (IH (S d) ltac:(lia)). vm_compute in E. inversion E; subst h hs. cbn [nth] in *.
      eapply part_never_ends; [right; right; right; left; reflexivity|]. eapply part_never_ends; [left; reflexivity|].
      eapply part_never_ends; [right; left; reflexivity|]. eapply part_never_ends; [left; reflexivity|]. exact IH. }
    intros d. now apply H with d.
  - destruct (pure_run [] knot) as [x|] eqn:Ep; [|vm_compute in Ep; discriminate]. exists x. split; [reflexivity|].
    vm_compute in Ep. inversion Ep; subst. vm_compute. reflexivity.
Qed.
Print Assumptions C21_condition_contains_itself_refuted.
