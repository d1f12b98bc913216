(** Headline theorems: C62; values used once (C29, C45). *)

From Coq Require Import String List ZArith Bool Arith Lia.
From Verif Require Import GoStr VTree Ast SpecPrint GoVal Cond Queries Builder Slices HeapBuilder SpecPersist PersistProofs PropertiesText PropertiesBuilder
  PropertiesPersist SpecGoroutines GoroutineProofs.
Import ListNotations.
Open Scope string_scope.
Open Scope list_scope.

(** ** C29, C45: programs that use no builder value twice *)

(** The usual way to use a fluent interface: every value is the receiver of at
    most one call.  Then nothing is shared, however many chains there are and in
    whatever order their calls are made. *)
Theorem C29_values_used_once : forall grow ps, used_once ps ->
  match actual grow empty_store [] [] ps, ideal [] [] ps with
  | Some (Returns (st, vs, hs)), Some (Returns (ss, bs)) =>
      Forall2 (fun v s => by_pointer s = false -> now st v = s) vs ss
      /\ Forall2 (fun h b => built_now st h = Returns b) hs bs
  | Some Panics, Some Panics | Some Diverges, Some Diverges | None, None => True
  | _, _ => False
  end.
Proof. intros grow ps H. now apply C29_careful_programs_partial, used_once_careful. Qed.
Print Assumptions C29_values_used_once.

Theorem C45_values_used_once : forall grow ps1 ps2 st1 vs1 hs1 st2 vs2 hs2, used_once (ps1 ++ ps2) ->
  actual grow empty_store [] [] ps1 = Some (Returns (st1, vs1, hs1)) ->
  actual grow empty_store [] [] (ps1 ++ ps2) = Some (Returns (st2, vs2, hs2)) ->
  (exists hs, hs2 = hs1 ++ hs) /\ forall h, List.In h hs1 -> built_now st2 h = built_now st1 h.
Proof. intros grow ps1 ps2 st1 vs1 hs1 st2 vs2 hs2 H. now apply C45_built_statements_stay_partial, used_once_careful. Qed.
Print Assumptions C45_values_used_once.

(** ** C62: building in several goroutines *)

(** Every goroutine makes its own chain of calls and calls Build.  Whatever the
    schedule, each statement is the one its chain gives in a program of its own,
    every goroutine builds at most once, and it has built when it had as many
    turns as it has calls. *)
Theorem C62_goroutines_build_their_own : forall grow (jobs : list job) turns,
  (forall j, List.In j jobs -> fst j <> [] -> exists b, alone j = Some (Returns b)) ->
  exists st vs hs, actual grow empty_store [] [] (program_of jobs turns) = Some (Returns (st, vs, hs))
    /\ Forall2 (fun h i => exists j, nth_error jobs i = Some j /\ alone j = Some (built_now st h)) hs (builders jobs turns)
    /\ NoDup (builders jobs turns)
    /\ (forall i j, nth_error jobs i = Some j -> fst j <> [] -> length (fst j) < count_occ Nat.eq_dec turns i -> List.In i (builders jobs turns)).
Proof.
  intros grow jobs turns A. destruct (program_returns jobs turns A) as [[ss bs] I].
  pose proof (used_once_careful _ (program_once jobs turns)) as C. pose proof (C29_careful_programs_partial grow _ C) as H. rewrite I in H.
  destruct (actual grow empty_store [] [] (program_of jobs turns)) as [[[[st vs] hs]| |]|] eqn:Q; try contradiction.
  exists st, vs, hs. split; [reflexivity|]. split; [|split].
  - destruct (C29_own_calls_partial grow _ st vs hs C Q) as [F _]. pose proof (program_finished jobs turns) as G.
    revert G. clear -F. generalize (builders jobs turns). induction F as [|h x hs' xs Hx _ IH]; intros is G; inversion G; subst; [constructor|].
    constructor; [exists x; split; assumption|now apply IH].
  - apply builders_once.
  - intros i j Hj N L. apply (builder_done turns (map hire jobs) 0 i (hire j)); [now apply map_nth_error|reflexivity|auto|exact L].
Qed.
Print Assumptions C62_goroutines_build_their_own.

(** Three goroutines: a long statement, one with an updating clause and one with
    a procedure call, in three schedules. *)
Definition keyed (t : nat) (cs : list Builder.call) : job :=
  (map (fun e => (K0 (100 * t + fst e), snd e)) (combine (List.seq 0 (length cs)) cs), K0 (100 * t + 99)).
Definition three : list job :=
  [keyed 1 long; keyed 2 [matched; SetItems a_is_1; Returning false [GOk nn]];
   keyed 3 [matched; Proc ["f"]; Yield [GOk (ESym "sx" "x")]; Where (cond "a"); returned_n]].
Definition round_robin : list nat := flat_map (fun _ => [0; 1; 2]) (List.seq 0 20).
Definition all_at_once : list nat := repeat 2 6 ++ repeat 0 20 ++ repeat 1 4.
Definition last_first : list nat := repeat 0 3 ++ repeat 2 4 ++ [1; 1; 2; 1; 0; 2] ++ repeat 0 20 ++ [1].

Example C62_case :
  (forall j, List.In j three -> fst j <> [] -> exists b, alone j = Some (Returns b))
  /\ map (fun t => builders three t) [round_robin; all_at_once; last_first] = [[1; 2; 0]; [2; 0; 1]; [2; 0; 1]]
  /\ map (fun t => shown (program_of three t)) [round_robin; all_at_once; last_first]
     = let l := ("MATCH (n:`Person`) WHERE ((n.a = 1 AND n.b = 1) OR n.c = 1) WITH DISTINCT n ORDER BY n.age DESC LIMIT 3 "
                 ++ "CREATE (m:`Movie`) SET m.x = 1, m.y = 2 REMOVE m:`A`:`B` RETURN n, m ORDER BY n DESC, m SKIP 1 LIMIT 2")%string in
       let u := "MATCH (n:`Person`) SET n.a = 1 RETURN n" in
       let c := "MATCH (n:`Person`) CALL f() YIELD x WHERE n.a = 1 RETURN n" in
       [[u; c; l]; [c; l; u]; [c; l; u]].
Proof.
  split; [|split; vm_compute; reflexivity].
  intros j [<-|[<-|[<-|[]]]] _; match goal with |- exists b, ?x = _ => let v := eval vm_compute in x in
    match v with Some (Returns ?b) => exists b; vm_compute; reflexivity end end.
Qed.

