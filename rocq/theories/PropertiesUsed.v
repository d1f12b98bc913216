(** Headline theorems: C68 of statements built by chains of calls. *)

From Coq Require Import Ascii String List ZArith Bool Lia.
From Verif Require Import SpecCond GoStr Escape Num VTree WellKeyed SpecLex SpecNum SpecSpace SpecTokens EscapeProofs GoStrProofs Ast SpecDoc
  SpecPrint SpecShape TokenProofs Cond GoVal Queries Builder SpecBuilder BuilderProofs SpecCalled SpecUses SpecUsed UsedProofs
  PropertiesText PropertiesRender PropertiesTokens PropertiesUses.
From Verif Require PropertiesBuilder.
From Verif Require Import SpecUnited UnitedProofs.
Import ListNotations.
Open Scope string_scope.
Open Scope nat_scope.
Open Scope list_scope.

(** The statement uses the parameters that stand in what the calls were given,
    and no others. *)
Theorem C68_chains_use_what_the_calls_use : forall K ks p i,
  compiles IStart p = Some i -> buildable i = true -> orderly p = true ->
  exists q, build_program K ks p = Some (Returns (Built (StOk q)))
            /\ forall x, (exists k, element q (EParam k x)) <-> calls_use p x.
Proof.
  intros K ks p i C B O. destruct (program_ok K ks p i C B O) as (q & E & F). exists q. split; [exact E|]. intros x. now apply calls_used.
Qed.
Print Assumptions C68_chains_use_what_the_calls_use.

(** So the text asks for the parameters that the calls were given. *)
Theorem C68_chains_partial : forall (err : Type) E K ks p i,
  compiles IStart p = Some i -> buildable i = true -> orderly p = true ->
  exists q, build_program K ks p = Some (Returns (Built (StOk q)))
    /\ forall A, no_space_in_names E -> self_contained E (e_guid E) -> asks_nothing E (e_guid E) -> shared_parts E A -> shaped_q E A q ->
         plain_names E q -> told_apart q -> well_keyed (to_vtq E q) = true -> well_quiet (to_vtq E q) = true ->
         exists ts, tokens E (fst (fst (render (err:=err) (SOk (to_vtq E q)) new_renderer))) = Some ts
                    /\ forall x, In x (asked ts) <-> calls_use p x.
Proof.
  intros err E K ks p i C B O. destruct (C68_chains_use_what_the_calls_use K ks p i C B O) as (q & Q & U). exists q. split; [exact Q|].
  intros A NS SG GD SP SQ PN TA W L. destruct (C68_rendered_text_asks_for_the_parameters_partial err E A q NS SG GD SP SQ PN TA W L) as (ts & T & R).
  exists ts. split; [exact T|]. intros x. now rewrite R, U.
Qed.
Print Assumptions C68_chains_partial.

(** A union of built statements uses what the calls of its parts use. *)
Theorem C68_unions_use_what_the_calls_use : forall ku all xs, 2 <= length xs -> Forall proper xs ->
  exists qs u, Forall2 builds xs qs /\ union_impl ku all (map StOk qs) = StOk u
    /\ forall x, (exists k, element u (EParam k x)) <-> exists c, List.In c xs /\ calls_use (program c) x.
Proof.
  intros ku all xs L PR.
  assert (B : exists qs, Forall2 (fun c q => builds c q /\ forall x, quses x q <-> calls_use (program c) x) xs qs).
  { clear - PR. induction PR as [|[Kp ks p] xs ((i & C & B) & O) _ (qs & IH)]; [now exists []|].
    destruct (C68_chains_use_what_the_calls_use Kp ks p i C B O) as (q & Q & U). exists (q :: qs). constructor; [split; [exact Q|exact U]|exact IH]. }
  destruct B as (qs & B). exists qs.
  assert (BU : Forall2 builds xs qs) by (clear - B; induction B as [|c q xs qs [H _] _ IH]; constructor; auto).
  assert (US : forall x, Exists (quses x) qs <-> exists c, List.In c xs /\ calls_use (program c) x).
  { intros x. clear - B. induction B as [|c q xs qs [_ H] _ IH].
    - rewrite Exists_nil. split; [tauto|]. intros (c & [] & _).
    - rewrite Exists_cons, IH, H. split.
      + intros [U|(d & J & U)]; [exists c; split; [now left|exact U]|exists d; split; [now right|exact U]].
      + intros (d & [<-|J] & U); [now left|right; eauto]. }
  destruct BU as [|x q xs qs B1 BU]; [cbn in L; lia|]. destruct BU as [|x2 q2 xs qs B2 BU]; [cbn in L; lia|].
  assert (N : match q with QUnion _ _ _ => False | _ => True end) by (inversion PR; subst; now apply (not_union x)).
  eexists. split; [now repeat constructor|]. split; [exact (united ku all q q2 qs N)|]. intros y. rewrite <- US.
  change (quses y (QUnion (ku 0) q (part_list ku all (q2 :: qs))) <-> Exists (quses y) (q :: q2 :: qs)).
  rewrite quses_step. cbn [clause_exprs clauses_of]. rewrite part_list_snd, Exists_nil. tauto.
Qed.
Print Assumptions C68_unions_use_what_the_calls_use.

(** ** A chain that meets the hypotheses *)

Definition addresses : nat -> nat -> key := PropertiesBuilder.K0.
Definition user : expr :=
  ENode "n1" (Some ("s1", "u")) [("l1", "User")] (Some (EProps "pp" (EMap "mp" [EEntry "en" "id" (EParam "pm1" "id")]))).
Definition age_of : expr := EProp "p1" (ESym "s1" "u") (ELookup "k1" "age").
Definition younger : cnd := Atom (EComparison "c1" (Some age_of) LessThan (Some (EParam "pm2" "max"))).
Definition older : cnd := Atom (EComparison "c2" (Some age_of) GreaterThan (Some (EParam "pm3" "min"))).
Definition called_chain : list Builder.call :=
  [Match false [GOk user]; Where younger; AndC older; OrC Empty; Returning false [GOk age_of; GOk (EStr "st" "$none")]; OrderBy (GOk (EParam "pm4" "id"))].
Definition q_called : query := Eval vm_compute in
  match build_program addresses (addresses 30) called_chain with Some (Returns (Built (StOk q))) => q | _ => QSingle [] None end.
Definition called_clauses : list query := q_called :: clauses_of q_called.
Definition called_elements : list expr := Eval vm_compute in
  elements_of 8 called_clauses.

Lemma called_within : (forall c, within q_called c -> In c called_clauses) /\ (forall e, element q_called e -> In e called_elements).
Proof.
  apply elements_in.
  - now left.
  - intros c H. unfold called_clauses, q_called in H. cbn [clauses_of app opt_list In] in H.
    repeat (destruct H as [<-|H]; [intros c J; cbn [clauses_of app opt_list In] in J; repeat (destruct J as [<-|J]; [unfold called_clauses; cbn; auto|]); destruct J|]).
    destruct H.
  - intros c H. unfold called_clauses, q_called in H. cbn [clauses_of app opt_list In] in H.
    repeat (destruct H as [<-|H]; [intros e J; cbn [clause_exprs b_items b_order b_skip b_limit app opt_list In] in J;
      repeat (destruct J as [<-|J]; [unfold called_elements; repeat first [left; reflexivity|right]|]); destruct J|]).
    destruct H.
  - intros e H. unfold called_elements in H. cbn [In] in H.
    repeat (destruct H as [<-|H]; [intros c J; cbn [children app opt_list In] in J;
      repeat (destruct J as [<-|J]; [unfold called_elements; repeat first [left; reflexivity|right]|]); destruct J|]).
    destruct H.
Qed.

Definition nothing_aliased (k : key) : Prop := False.

Example C68_chains_case :
  (exists i, compiles IStart called_chain = Some i /\ buildable i = true) /\ orderly called_chain = true
  /\ build_program addresses (addresses 30) called_chain = Some (Returns (Built (StOk q_called)))
  /\ no_space_in_names env0 /\ self_contained env0 (e_guid env0) /\ asks_nothing env0 (e_guid env0) /\ shared_parts env0 nothing_aliased
  /\ shaped_q env0 nothing_aliased q_called /\ plain_names env0 q_called /\ told_apart q_called
  /\ well_keyed (to_vtq env0 q_called) = true /\ well_quiet (to_vtq env0 q_called) = true.
Proof.
  destruct called_within as [WC WE].
  split; [eexists; split; vm_compute; reflexivity|]. split; [vm_compute; reflexivity|]. split; [vm_compute; reflexivity|].
  split; [exact env0_names|]. split; [shape|]. split; [eexists; split; [vm_compute; reflexivity|cbn; intuition discriminate]|]. split.
  { unfold shared_parts, nothing_aliased. split; [intros o H; exact H|]. repeat split; intros H; exact H. }
  split; [unfold q_called; shape; try reflexivity; try (intros H; exact H)|].
  split.
  { split.
    - intros e H. apply WE in H. unfold called_elements in H. cbn [In] in H.
      repeat (destruct H as [<-|H]; [cbn [own_names]; try exact Logic.I; try reflexivity; try (eexists; split; [vm_compute; reflexivity|cbn; intuition discriminate])|]). destruct H.
    - intros c H. apply WC in H. unfold called_clauses, q_called in H. cbn [clauses_of app opt_list In] in H.
      repeat (destruct H as [<-|H]; [exact Logic.I|]). destruct H. }
  split; [|split; vm_compute; reflexivity].
  split.
  - intros k n ls ps n' ls' ps' H H'. apply WE in H, H'. unfold called_elements in H, H'. cbn [In] in H, H'.
    repeat (destruct H as [H|H]; [try discriminate H|]); try (destruct H; fail). repeat (destruct H' as [H'|H']; [try discriminate H'|]); try (destruct H'; fail). congruence.
  - intros k d e a H. apply WE in H. unfold called_elements in H. cbn [In] in H. repeat (destruct H as [H|H]; [discriminate H|]). destruct H.
Qed.

Example C68_chains_case_text :
  fst (fst (render (err:=unit) (SOk (to_vtq env0 q_called)) new_renderer)) =
    "MATCH (u:`User` {id: $id}) WHERE (u.age < $max AND u.age > $min) RETURN u.age, '$none' ORDER BY $id"
  /\ option_map asked (tokens env0 (fst (fst (render (err:=unit) (SOk (to_vtq env0 q_called)) new_renderer)))) = Some ["id"; "max"; "min"; "id"].
Proof. split; vm_compute; reflexivity. Qed.

(** Two such chains, joined: the union asks for the parameters of both. *)
Definition counted_chain : list Builder.call :=
  [Match false [GOk (ENode "n2" (Some ("s2", "v")) [("l2", "Bot")] None)]; Returning false [GOk (EParam "pm5" "other"); GOk (EStr "su" "b")]].
Definition result_union : statement :=
  match build_program (fun i n => "!" ++ addresses i n)%string (addresses 31) counted_chain with
  | Some (Returns (Built s)) => union_impl (addresses 32) true [StOk q_called; s]
  | _ => StNil
  end.
Definition q_union : query :=
  match result_union with StOk u => u | _ => QSingle [] None end.
Example C68_unions_case :
  Forall proper [Chain addresses (addresses 30) called_chain; Chain (fun i n => "!" ++ addresses i n)%string (addresses 31) counted_chain]
  /\ result_union = StOk q_union
  /\ fst (fst (render (err:=unit) (SOk (to_vtq env0 q_union)) new_renderer)) =
     "MATCH (u:`User` {id: $id}) WHERE (u.age < $max AND u.age > $min) RETURN u.age, '$none' ORDER BY $id UNION ALL MATCH (v:`Bot`) RETURN $other, 'b'"
  /\ option_map asked (tokens env0 (fst (fst (render (err:=unit) (SOk (to_vtq env0 q_union)) new_renderer)))) = Some ["id"; "max"; "min"; "id"; "other"].
Proof.
  split; [|split; [vm_compute; reflexivity|split; vm_compute; reflexivity]].
  repeat (constructor; [split; [eexists; split; vm_compute; reflexivity|vm_compute; reflexivity]|]). constructor.
Qed.

(** ** Where it fails *)

(** UNWIND of an aliased expression writes the alias: the parameter the call was
    given is not asked for. *)
Theorem C68_unwind_alias_refuted : exists p q a b,
  p = [Unwind (GOk (EAlias "al" "pm" (EParam "pm" "rows") "r")) "x"; Returning false [GOk (ESym "s" "x")]]
  /\ build_program a b p = Some (Returns (Built (StOk q)))
  /\ fst (fst (render (err:=unit) (SOk (to_vtq env0 q)) new_renderer)) = "UNWIND r AS x RETURN x"
  /\ option_map asked (tokens env0 (fst (fst (render (err:=unit) (SOk (to_vtq env0 q)) new_renderer)))) = Some [].
Proof.
  eexists _, _, addresses, (addresses 30). split; [reflexivity|]. split; [vm_compute; reflexivity|]. split; vm_compute; reflexivity.
Qed.
Print Assumptions C68_unwind_alias_refuted.
