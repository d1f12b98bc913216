(** Headline theorems: C61. *)

From Coq Require Import Ascii String List ZArith Bool Arith Lia.
From Verif Require Import GoStr Num VTree WellKeyed Ast SpecDoc SpecPrint PropertiesText PropertiesRender Concurrent SpecConcurrent ConcurrentProofs.
Import ListNotations.
Open Scope string_scope.
Open Scope list_scope.

(** ** C61: rendering in several goroutines *)

(** Whatever the schedule and whatever the others render, also with a renderer
    they share among themselves: what a goroutine with a renderer of its own has
    got so far is the beginning of what its calls return one after the other in
    a program without goroutines, and all of it once it had the turns it
    needs. *)
Theorem C61_own_renderer : forall (err : Type) (mem : memory) (gs : list (goroutine err)) turns i rd ss,
  nth_error gs i = Some (go rd ss) -> owner gs i rd ->
  exists g more, nth_error (snd (schedule (mem, gs) turns)) i = Some g
    /\ in_turn ss (idle (mem rd)) = g_results g ++ more
    /\ (length (flat_map actions ss) <= count_occ Nat.eq_dec turns i -> more = []).
Proof.
  intros err mem gs turns i rd ss H O. destruct (schedule_alone turns (mem, gs) i (go rd ss) H O) as [_ S].
  cbn [fst g_renderer go] in S. destruct (alone_prefix (count_occ Nat.eq_dec turns i) ss (mem rd) rd) as (more & P & L).
  eexists; exists more; split; [exact S|]. split; [exact P|exact L].
Qed.
Print Assumptions C61_own_renderer.

(** Every goroutine makes a renderer with NewRenderer and renders one
    statement: it gets the text of the statement. *)
Fixpoint each_its_own {err} (rd : nat) (ss : list (stmt_value err)) : list (goroutine err) :=
  match ss with [] => [] | s :: ss' => go rd [s] :: each_its_own (S rd) ss' end.

Lemma each_nth : forall err (ss : list (stmt_value err)) rd i s, nth_error ss i = Some s -> nth_error (each_its_own rd ss) i = Some (go (rd + i) [s]).
Proof.
  induction ss as [|x ss IH]; intros rd [|i] s H; try discriminate; cbn [each_its_own nth_error] in *.
  - inversion H; subst. now rewrite Nat.add_0_r.
  - rewrite (IH (S rd) i s H). do 2 f_equal. lia.
Qed.
Lemma each_renderer : forall err (ss : list (stmt_value err)) rd i g, nth_error (each_its_own rd ss) i = Some g -> g_renderer g = rd + i.
Proof.
  induction ss as [|x ss IH]; intros rd [|i] g H; try discriminate; cbn [each_its_own nth_error] in *.
  - inversion H; subst. cbn. lia.
  - rewrite (IH (S rd) i g H). lia.
Qed.

Theorem C61_new_renderers : forall (err : Type) E (qs : list query) turns i q,
  nth_error qs i = Some q -> well_keyed (to_vtq E q) = true -> well_quiet (to_vtq E q) = true ->
  length (actions (err:=err) (SOk (to_vtq E q))) <= count_occ Nat.eq_dec turns i ->
  exists g, nth_error (snd (schedule (fun _ => new_maps, each_its_own (err:=err) 0 (map (fun q => SOk (to_vtq E q)) qs)) turns)) i = Some g
    /\ g_results g = [(statement_text E q, None)].
Proof.
  intros err E qs turns i q H W Q L.
  pose proof (map_nth_error (fun q => SOk (err:=err) (to_vtq E q)) i qs H) as H'.
  destruct (C61_own_renderer err (fun _ => new_maps) _ turns i i [SOk (to_vtq E q)] (each_nth err _ 0 i _ H')) as (g & more & N & P & D).
  - intros j g N R. apply each_renderer in N. lia.
  - exists g. split; [exact N|]. rewrite D, app_nil_r in P by (cbn [flat_map]; now rewrite app_nil_r). rewrite <- P. cbn [in_turn].
    change (idle new_maps) with new_renderer. pose proof (C01_rendering_prints_the_statement_partial err E q W Q) as C.
    destruct (render (SOk (to_vtq E q)) new_renderer) as [[t e] r']. cbn [fst] in C. inversion C; subst. reflexivity.
Qed.
Print Assumptions C61_new_renderers.

(** Two goroutines that take turns, and what a third does. *)
Definition two_of (l : list nat) : list nat := flat_map (fun _ => [0; 1]) l.
Definition sent (q : query) : stmt_value unit := SOk (to_vtq env0 q).
Definition texts (c : memory * list (goroutine unit)) : list (list string) := map (fun g => map fst (g_results g)) (snd c).
Definition returns_of (ks : string) (a b : string) : query :=
  QSingle [] (Some (QReturn ("r" ++ ks)%string false (Body (EExprs ("e" ++ ks)%string [ESym ("a" ++ ks)%string a; ESym ("b" ++ ks)%string b]) None None None))).

Example C61_case :
  nth_error [go 0 [sent q_owns; sent q_total]; go 1 [sent q_owns]; go 1 [sent q_total]] 0 = Some (go 0 [sent q_owns; sent q_total])
  /\ owner [go 0 [sent q_owns; sent q_total]; go 1 [sent q_owns]; go 1 [sent q_total]] 0 0
  /\ length (flat_map actions [sent q_owns; sent q_total]) <= count_occ Nat.eq_dec (flat_map (fun _ => [2; 0; 1; 0]) (seq 0 200)) 0.
Proof.
  split; [reflexivity|]. split; [|apply Nat.leb_le; vm_compute; reflexivity].
  intros [|[|[|j]]] g H R; cbn in H; try (inversion H; subst; discriminate R); try reflexivity. destruct j; discriminate H.
Qed.

(** A renderer that two goroutines share: statements without a common element,
    which it renders correctly one after the other, lose commas. *)
Theorem C61_shared_renderer_refuted : exists q1 q2 turns,
  well_keyed (B [to_vtq env0 q1; to_vtq env0 q2]) = true
  /\ in_turn [sent q1; sent q2] new_renderer = [(statement_text env0 q1, None); (statement_text env0 q2, None)]
  /\ texts (schedule (fun _ => new_maps, [go 0 [sent q1]; go 0 [sent q2]]) turns) = [["RETURN a, b"]; ["RETURN cd"]]
  /\ (statement_text env0 q1, statement_text env0 q2) = ("RETURN a, b", "RETURN c, d").
Proof.
  exists (returns_of "1" "a" "b"), (returns_of "2" "c" "d"), (two_of (seq 0 30)).
  repeat split; vm_compute; reflexivity.
Qed.
Print Assumptions C61_shared_renderer_refuted.
