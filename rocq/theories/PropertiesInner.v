(** Headline theorems: C77. *)

From Coq Require Import Ascii String List ZArith Bool Lia.
From Verif Require Import SpecCond GoStr Escape Num VTree WellKeyed SpecSpace EscapeProofs GoStrProofs Ast SpecDoc SpecPrint RenderProofs DocProofs
  BuilderText SpecPattern PatternProofs Cond GoVal Queries Builder SpecBuilder BuilderProofs SpecExtend ExtendProofs PropertiesText PropertiesRender
  PropertiesBuilder PropertiesExtend SpecUnited UnitedProofs SpecJoined JoinedProofs PropertiesJoined.
Import ListNotations.
Open Scope string_scope.
Open Scope list_scope.

Lemma subquery_stays : forall q p l, exists more, fold_left write_call p (PSubquery q :: l) = PSubquery q :: more.
Proof.
  intros q. induction p as [|c p IH]; intros l; [now exists l|]. cbn [fold_left]. unfold write_call at 2. destruct (starts c) as [ph|]; [apply (IH (l ++ [ph]))|].
  destruct l as [|y l]; [now destruct c; apply (IH [])|]. change (PSubquery q :: y :: l) with ([PSubquery q] ++ y :: l). rewrite complete_after by discriminate. apply IH.
Qed.

(** What is written after a plain byte does not change what is before it. *)
Lemma trim_keeps_before : forall t x b y, keyword t -> plain_byte b -> t = (x ++ String b y)%string -> exists w, trim_space t = (x ++ String b w)%string.
Proof.
  intros t x b y (a & s & -> & PA) PB H. unfold trim_space. rewrite trim_left_plain by exact PA. rewrite H, trim_right_plain by exact PB.
  destruct (trim_right_split (String b y)) as (q & Q & H1). destruct (split_at b "" y _ _ H1) as [(w & W)|J]; [|destruct (plain_not_space b PB q Q J)].
  exists w. now rewrite W.
Qed.

(** A statement that is called as a subquery, at any place of any chain: the
    text of the whole has the text of the statement on its own between braces,
    unless a named node or an aliased element of the clauses before is in it. *)
Theorem C77_subquery_text_partial : forall E K ks p p' q i r,
  compiles IStart (p ++ Sub (StOk q) :: p') = Some i -> buildable i = true -> orderly (p ++ Sub (StOk q) :: p') = true ->
  build_program K ks (p ++ Sub (StOk q) :: p') = Some (Returns (Built (StOk r))) ->
  (forall k, In k (part_keys r) -> ~ In k (aliased_keys (print_query E r))) ->
  exists before k after, SpecBuilder.clauses r = before ++ QSubquery k q :: after /\ Forall2 says (written p) before
    /\ (Forall (fun c => nothing_again (print_query E c) (print_query E q) /\ ~ In k (aliased_keys (print_query E c))) before ->
        exists pre a b post, all_space a /\ all_space b
          /\ statement_text E r = (pre ++ "CALL {" ++ a ++ statement_text E q ++ b ++ "}" ++ post)%string).
Proof.
  intros E K ks p p' q i r C B O Q A.
  assert (PX : proper (Chain K ks (p ++ Sub (StOk q) :: p'))) by (split; [exists i; now split|exact O]).
  pose proof (chain_keyword E _ r PX Q A) as KW.
  destruct (program_ok K ks _ i C B O) as (r' & X & F). rewrite Q in X. injection X as <-.
  assert (W : exists more, written (p ++ Sub (StOk q) :: p') = written p ++ PSubquery q :: more).
  { unfold written. rewrite fold_left_app. cbn [fold_left]. unfold write_call at 2. cbn [starts]. rewrite write_after by discriminate.
    destruct (subquery_stays q p' []) as (more & M). exists more. now rewrite M. }
  destruct W as (more & W). rewrite W in F. apply Forall2_app_inv_l in F as (before & rest & F1 & F2 & CL). inversion F2 as [|? c ? after S F3]; subst. destruct c; cbn [says] in S; try contradiction. subst.
  exists before, k, after. split; [exact CL|]. split; [exact F1|]. intros N.
  assert (T : exists x y, text (print_query E r) = (x ++ "CALL {" ++ text (print_query E q) ++ String "}" y)%string).
  { rewrite C26_text_in_clause_order by exact A. unfold text at 1. rewrite write_Cat, CL, map_app, wcat_app.
    assert (FR : forall j, (forall c, In c before -> ~ In j (aliased_keys (print_query E c))) -> free j (snd (wcat (map (print_query E) before) nothing_written))).
    { intros j J. rewrite <- write_Cat. apply free_write; [|reflexivity]. rewrite aliased_Cat. intros X. apply in_flat_map in X as (d & D & X). apply in_map_iff in D as (c & <- & D). now apply (J c D). }
    assert (UN : forall j, (forall c, In c before -> ~ In j (once_keys (print_query E c))) -> unwritten j (snd (wcat (map (print_query E) before) nothing_written))).
    { intros j J. rewrite <- write_Cat. apply unwritten_write; [|reflexivity]. rewrite once_Cat. intros X. apply in_flat_map in X as (d & D & X). apply in_map_iff in D as (c & <- & D). now apply (J c D). }
    rewrite Forall_forall in N. destruct (wcat (map (print_query E) before) nothing_written) as [x m]. cbn [snd] in FR, UN.
    cbn [map wcat]. cbn [print_query]. rewrite write_Shared.
    assert (FK : free k m) by (apply FR; intros c J; now apply N). unfold free in FK. rewrite FK, write_Cat. cbn [wcat].
    change (write (Txt "CALL {") m) with ("CALL {", m). cbv beta iota.
    assert (BL : blank_for m (print_query E q)).
    { split; intros j J; [apply FR|apply UN]; intros c Jc X; destruct (N c Jc) as ((P1 & P2) & _); [now apply (P1 j X)|now apply (P2 j X)]. }
    rewrite <- (write_blank _ _ BL). destruct (write (print_query E q) m) as [t m1]. cbn [fst].
    change (write (Txt "} ") m1) with ("} ", m1). cbv beta iota. destruct (wcat (map (print_query E) after) m1) as [y m2]. cbn [fst].
    exists x, (" " ++ y)%string. now rewrite sapp_nil_r, !sapp_assoc. }
  destruct T as (x & y & T). destruct (trim_space_spec (text (print_query E q))) as (a & b & SA & SB & ST & _). fold (statement_text E q) in ST.
  rewrite ST in T. destruct (trim_keeps_before (text (print_query E r)) (x ++ "CALL {" ++ a ++ statement_text E q ++ b) "}" y KW) as (w & H).
  - vm_compute. reflexivity.
  - rewrite T. now rewrite !sapp_assoc.
  - exists x, a, b, w. split; [exact SA|]. split; [exact SB|]. unfold statement_text at 1. rewrite H. now rewrite !sapp_assoc.
Qed.
Print Assumptions C77_subquery_text_partial.

(** The same of what the renderer writes: the whole, and the statement with a
    renderer of its own. *)
Theorem C77_rendered_subquery_partial : forall (err : Type) E K ks p p' q i r,
  compiles IStart (p ++ Sub (StOk q) :: p') = Some i -> buildable i = true -> orderly (p ++ Sub (StOk q) :: p') = true ->
  build_program K ks (p ++ Sub (StOk q) :: p') = Some (Returns (Built (StOk r))) ->
  (forall k, In k (part_keys r) -> ~ In k (aliased_keys (print_query E r))) -> renderable E r -> renderable E q ->
  exists before k after, SpecBuilder.clauses r = before ++ QSubquery k q :: after /\ Forall2 says (written p) before
    /\ (Forall (fun c => nothing_again (print_query E c) (print_query E q) /\ ~ In k (aliased_keys (print_query E c))) before ->
        exists pre a b post, all_space a /\ all_space b
          /\ rendering err E r = (pre ++ "CALL {" ++ a ++ rendering err E q ++ b ++ "}" ++ post)%string).
Proof.
  intros err E K ks p p' q i r C B O Q A R1 R2.
  assert (T : forall q, renderable E q -> rendering err E q = statement_text E q).
  { intros z (W & Z). unfold rendering. now rewrite (C01_rendering_prints_the_statement_partial err E z W Z). }
  rewrite (T r R1), (T q R2). exact (C77_subquery_text_partial E K ks p p' q i r C B O Q A).
Qed.
Print Assumptions C77_rendered_subquery_partial.

(** ** Statements that meet the hypotheses *)

(** A union is called between a MATCH and a RETURN. *)
Definition either : query := union_by [new_movie; one_number].
Definition rest : list call := [Returning false [GOk nn]].
Definition whole : query := built_by (Chain K0 (K0 97) ([matched] ++ Sub (StOk either) :: rest)).
Definition before_it : list query := firstn 1 (SpecBuilder.clauses whole).

Lemma nothing_by : forall E q c, separate E [c; q] -> nothing_again (print_query E c) (print_query E q).
Proof. intros E q c H. inversion H as [|? ? X]; subst. now inversion X. Qed.

Example C77_case : (exists i, compiles IStart ([matched] ++ Sub (StOk either) :: rest) = Some i /\ buildable i = true)
  /\ orderly ([matched] ++ Sub (StOk either) :: rest) = true
  /\ build_program K0 (K0 97) ([matched] ++ Sub (StOk either) :: rest) = Some (Returns (Built (StOk whole)))
  /\ (forall k, In k (part_keys whole) -> ~ In k (aliased_keys (print_query env0 whole))) /\ renderable env0 whole /\ renderable env0 either
  /\ (exists k after, SpecBuilder.clauses whole = before_it ++ QSubquery k either :: after
      /\ Forall (fun c => nothing_again (print_query env0 c) (print_query env0 either) /\ ~ In k (aliased_keys (print_query env0 c))) before_it)
  /\ length before_it = 1
  /\ rendering unit env0 either = "CREATE (m:`Movie`)  UNION RETURN DISTINCT 1 AS total"
  /\ rendering unit env0 whole = "MATCH (n:`Person`) CALL {CREATE (m:`Movie`)  UNION RETURN DISTINCT 1 AS total} RETURN n".
Proof.
  split; [eexists; split; vm_compute; reflexivity|]. split; [vm_compute; reflexivity|]. split; [vm_compute; reflexivity|].
  split; [apply disjoint_by; vm_compute; reflexivity|]. split; [split; vm_compute; reflexivity|]. split; [split; vm_compute; reflexivity|].
  split.
  { eexists. eexists. split; [vm_compute; reflexivity|]. constructor; [|constructor]. split; [apply nothing_by, pairs_by; vm_compute; reflexivity|].
    vm_compute. intuition discriminate. }
  split; [vm_compute; reflexivity|]. split; vm_compute; reflexivity.
Qed.

(** Not if a node of the clauses before is used in the subquery: there it is
    written without its labels, so the subquery matches other nodes than the
    statement does on its own. *)
Definition again : query := built_by (Chain other_addresses (other_addresses 98) [matched; Returning false [GOk nn]]).
Definition calling_again : list call := [matched] ++ Sub (StOk again) :: rest.
Fixpoint occurs (x t : string) : bool := prefix x t || match t with EmptyString => false | String _ t' => occurs x t' end.
Theorem C77_shared_node_refuted :
  (exists i, compiles IStart calling_again = Some i /\ buildable i = true) /\ orderly calling_again = true
  /\ build_program K0 (K0 97) calling_again = Some (Returns (Built (StOk (built_by (Chain K0 (K0 97) calling_again)))))
  /\ renderable env0 (built_by (Chain K0 (K0 97) calling_again)) /\ renderable env0 again
  /\ rendering unit env0 again = "MATCH (n:`Person`) RETURN n"
  /\ rendering unit env0 (built_by (Chain K0 (K0 97) calling_again)) = "MATCH (n:`Person`) CALL {MATCH (n) RETURN n} RETURN n"
  /\ forall pre post, rendering unit env0 (built_by (Chain K0 (K0 97) calling_again)) <> (pre ++ "CALL {" ++ post)%string
     \/ occurs (rendering unit env0 again) post = false.
Proof.
  split; [eexists; split; vm_compute; reflexivity|]. split; [vm_compute; reflexivity|]. split; [vm_compute; reflexivity|].
  split; [split; vm_compute; reflexivity|]. split; [split; vm_compute; reflexivity|].
  assert (T1 : rendering unit env0 again = "MATCH (n:`Person`) RETURN n") by (vm_compute; reflexivity).
  assert (T2 : rendering unit env0 (built_by (Chain K0 (K0 97) calling_again)) = "MATCH (n:`Person`) CALL {MATCH (n) RETURN n} RETURN n") by (vm_compute; reflexivity).
  split; [exact T1|]. split; [exact T2|]. intros pre post. rewrite T1, T2. destruct (occurs "MATCH (n:`Person`) RETURN n" post) eqn:X; [left|now right].
  intros H. assert (Y : forall p t, occurs "MATCH (n:`Person`) RETURN n" t = true -> occurs "MATCH (n:`Person`) RETURN n" (p ++ t)%string = true).
  { induction p as [|a p IH]; intros t O; [exact O|]. cbn [append occurs]. now rewrite IH, orb_true_r. }
  apply (Y "CALL {") in X. apply (Y pre) in X. rewrite <- H in X. vm_compute in X. discriminate.
Qed.
Print Assumptions C77_shared_node_refuted.
