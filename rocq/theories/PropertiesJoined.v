(** Headline theorems: C76. *)

From Coq Require Import Ascii String List ZArith Bool Lia.
From Verif Require Import SpecCond GoStr Escape Num VTree WellKeyed SpecSpace EscapeProofs GoStrProofs Ast SpecDoc SpecPrint RenderProofs DocProofs
  BuilderText SpecPattern PatternProofs Cond GoVal Queries Builder SpecBuilder BuilderProofs SpecExtend ExtendProofs PropertiesText PropertiesRender
  PropertiesBuilder PropertiesExtend SpecUnited UnitedProofs SpecJoined JoinedProofs.
Import ListNotations.
Open Scope string_scope.
Open Scope list_scope.

Lemma chain_keyword : forall E x q, proper x -> builds x q ->
  (forall k, In k (part_keys q) -> ~ In k (aliased_keys (print_query E q))) -> keyword (text (print_query E q)).
Proof.
  intros E [Kp ks p] q ((i & C & B) & O) H A. unfold builds in H. cbn in *. rewrite C26_text_in_clause_order by exact A.
  destruct (C26_clauses_in_call_order_partial Kp ks p i C B O) as (q' & Q & S). rewrite Q in H. injection H as ->.
  assert (N : written p <> []).
  { destruct p as [|c p]; [cbn in C; injection C as <-; discriminate B|]. unfold written. cbn [fold_left]. apply write_some. unfold write_call.
    destruct (starts c) eqn:ST; [now intros X|]. exfalso. cbn in C. destruct c; cbn in C, ST; try discriminate. all: match goal with X : match ?x with _ => _ end = None |- _ => destruct x; try discriminate X; cbn in O; discriminate O end. }
  inversion S as [HN|ph c l cs Sc _ HW HC]; [now destruct N|]. destruct (clause_keyword E ph c Sc) as (k & s & r & P & _ & a & s' & -> & PB).
  unfold text. cbn [map]. rewrite write_Cat. cbn [wcat]. rewrite P, write_Shared. cbn [nothing_written introduced alias_of]. rewrite write_Cat. cbn [wcat].
  change (write (Txt (String a s')) nothing_written) with (String a s', nothing_written). cbv beta iota.
  destruct (wcat r nothing_written) as [y m1]. destruct (wcat (map (print_query E) cs) m1) as [z m2]. cbn [fst append]. do 2 eexists. split; [reflexivity|exact PB].
Qed.

(** Chains that share no named node and no aliased element are joined by Union
    or UnionAll: the text is that of each statement on its own, in order, with
    the word between them. *)
Theorem C76_union_text_partial : forall E ku all xs qs u,
  2 <= length xs -> Forall proper xs -> Forall2 builds xs qs -> union_impl ku all (map StOk qs) = StOk u ->
  (forall k, In k (union_keys u ++ flat_map part_keys (members u)) -> ~ In k (aliased_keys (print_query E u))) ->
  separate E qs ->
  joined all (map (statement_text E) qs) (statement_text E u).
Proof.
  intros E ku all xs qs u L PR BU UN A S. destruct BU as [|x q xs qs B1 BU]; [cbn in L; lia|]. destruct BU as [|x2 q2 xs qs B2 BU]; [cbn in L; lia|].
  assert (N : match q with QUnion _ _ _ => False | _ => True end) by (inversion PR; subst; now apply (not_union x)).
  rewrite (united ku all q q2 qs N) in UN. injection UN as <-. set (l := q2 :: qs) in *. set (ps := part_list ku all l) in *.
  assert (PS : map snd ps = l) by apply part_list_snd.
  assert (PA : Forall (fun p => snd (fst p) = all) ps) by (apply Forall_forall; intros p J; now apply (part_list_all ku all l)).
  assert (AL : aliased_keys (print_query E (QUnion (ku 0) q ps)) = aliased_keys (print_query E q) ++ flat_map aliased_keys (map (print_query E) (map snd ps))).
  { cbn [print_query aliased_keys]. f_equal. clear. induction ps as [|[[k b] q'] ps IH]; [reflexivity|]. cbn [map flat_map fst snd]. rewrite <- IH. cbn [aliased_keys app]. now rewrite app_nil_r. }
  rewrite AL in A. cbn [union_keys members] in A. rewrite PS in A.
  assert (KW : Forall keyword (map (fun q => text (print_query E q)) (q :: l))).
  { assert (F : Forall2 builds (x :: x2 :: xs) (q :: l)) by (constructor; [assumption|]; constructor; assumption). 
    assert (P : forall q', In q' (q :: l) -> forall k, In k (part_keys q') -> ~ In k (aliased_keys (print_query E q'))).
    { intros q' J k Jk X. apply (A k).
      - apply in_or_app. right. apply in_flat_map. now exists q'.
      - destruct J as [->|J]; apply in_or_app; [now left|right]. apply in_flat_map. exists (print_query E q'). split; [now apply in_map|exact X]. }
    clear - F P PR. revert P PR. induction F as [|y q' ys qs' Y F IH]; intros P PR; [constructor|]. inversion PR; subst. cbn [map]. constructor.
    - apply (chain_keyword E y q'); [assumption|assumption|]. apply P. now left.
    - apply IH; [|assumption]. intros z J. apply P. now right. }
  assert (T : text (print_query E (QUnion (ku 0) q ps)) = (text (print_query E q) ++ raw_join (union_word all) (map (fun q => text (print_query E q)) l))%string).
  { unfold text at 1. cbn [print_query]. rewrite write_Shared. cbn [nothing_written introduced alias_of]. rewrite write_Cat. cbn [wcat].
    inversion S as [|? ? S1 S2]; subst.
    assert (F : forall j, ~ In j (aliased_keys (print_query E q)) -> free j (snd (write (print_query E q) nothing_written))) by (intros j X; now apply free_write).
    assert (U : forall j, ~ In j (once_keys (print_query E q)) -> unwritten j (snd (write (print_query E q) nothing_written))) by (intros j X; now apply unwritten_write).
    change (text (print_query E q)) with (fst (write (print_query E q) nothing_written)). destruct (write (print_query E q) nothing_written) as [t m]. cbn [fst snd] in *.
    rewrite <- PS, <- (write_parts E all ps m PA).
    - destruct (wcat _ m) as [y m2]. reflexivity.
    - intros k J. rewrite PS. assert (X : In k ((ku 0 :: map (fun p => fst (fst p)) ps) ++ part_keys q ++ flat_map part_keys l)) by (apply in_or_app; left; now right).
      specialize (A k X). split; [apply F|]; intros Y; apply A; apply in_or_app; auto.
    - rewrite PS. clear - S1 F U. rewrite Forall_forall in *. intros d J. apply in_map_iff in J as (q' & <- & J). destruct (S1 q' J) as (P & Q).
      split; intros k Hk; [apply F|apply U]; intros X; [now apply (P k X)|now apply (Q k X)].
    - rewrite PS. exact S2. }
  unfold statement_text at 2. rewrite T. rewrite <- (map_map (fun q => text (print_query E q)) trim_space). apply (joined_trim all (text (print_query E q))). exact KW.
Qed.
Print Assumptions C76_union_text_partial.

(** The same of what the renderer writes: the union, and each statement with a
    renderer of its own. *)
Definition rendering (err : Type) (E : env) (q : query) : string := fst (fst (render (err:=err) (SOk (to_vtq E q)) new_renderer)).
Definition renderable (E : env) (q : query) : Prop := well_keyed (to_vtq E q) = true /\ well_quiet (to_vtq E q) = true.
Theorem C76_rendered_union_partial : forall (err : Type) E ku all xs qs u,
  2 <= length xs -> Forall proper xs -> Forall2 builds xs qs -> union_impl ku all (map StOk qs) = StOk u ->
  (forall k, In k (union_keys u ++ flat_map part_keys (members u)) -> ~ In k (aliased_keys (print_query E u))) ->
  separate E qs -> renderable E u -> Forall (renderable E) qs ->
  joined all (map (rendering err E) qs) (rendering err E u).
Proof.
  intros err E ku all xs qs u L PR BU UN A S R RS.
  assert (T : forall q, renderable E q -> rendering err E q = statement_text E q).
  { intros q (W & Q). unfold rendering. now rewrite (C01_rendering_prints_the_statement_partial err E q W Q). }
  rewrite (T u R). replace (map (rendering err E) qs) with (map (statement_text E) qs).
  - exact (C76_union_text_partial E ku all xs qs u L PR BU UN A S).
  - apply map_ext_in. intros q J. symmetry. apply T. rewrite Forall_forall in RS. now apply RS.
Qed.
Print Assumptions C76_rendered_union_partial.

(** ** Statements that meet the hypotheses *)

Definition people : SpecUnited.chain := Chain K0 (K0 97) [matched; Where (cond "a"); Returning false [GOk (EAlias "al" "pz" (prop nn "pz" "z") "total")]].
Definition new_movie : SpecUnited.chain := Chain other_addresses (other_addresses 98) [Create [GOk m_]].
Definition one_number : SpecUnited.chain := Chain other_addresses (other_addresses 99) [Returning true [GOk (EAlias "am" "one" (num "one" 1) "total")]].
Definition built_by (x : SpecUnited.chain) : query := match build_program (making x) (closing x) (program x) with Some (Returns (Built (StOk q))) => q | _ => QSingle [] None end.
Definition three : list SpecUnited.chain := [people; new_movie; one_number].
Definition union_by (xs : list SpecUnited.chain) : query :=
  match union_impl (other_addresses 7) false (map (fun x => StOk (built_by x)) xs) with StOk u => u | _ => QSingle [] None end.

Lemma pairs_by : forall E qs, forallb (fun x => let '(d, d') := x in
    forallb (fun k => negb (existsb (String.eqb k) (shared_keys d' ++ aliased_keys d'))) (aliased_keys d)
    && forallb (fun k => negb (existsb (String.eqb k) (once_keys d'))) (once_keys d))
  (flat_map (fun i => map (fun q => (print_query E (nth i qs (QSingle [] None)), print_query E q)) (skipn (Datatypes.S i) qs)) (List.seq 0 (length qs))) = true ->
  separate E qs.
Proof.
  intros E qs H. rewrite forallb_forall in H.
  assert (G : forall n l, l = skipn n qs -> n + length l = length qs -> separate E l); [|apply (G 0 qs); reflexivity].
  intros n l. revert n. induction l as [|q l IH]; intros n L N; [constructor|].
  assert (SK : l = skipn (Datatypes.S n) qs). { clear - L. revert qs L. induction n; intros [|a qs] L; cbn in *; try discriminate; [now injection L|]. now apply IHn. }
  assert (NT : nth n qs (QSingle [] None) = q). { clear - L. revert qs L. induction n; intros [|a qs] L; cbn in *; try discriminate; [now injection L|]. now apply IHn. }
  constructor; [|apply (IH (Datatypes.S n)); [exact SK|cbn in N; lia]]. apply Forall_forall. intros q' J. specialize (H (print_query E q, print_query E q')). cbv beta iota in H.
  assert (X : In (print_query E q, print_query E q') (flat_map (fun i => map (fun q => (print_query E (nth i qs (QSingle [] None)), print_query E q)) (skipn (Datatypes.S i) qs)) (List.seq 0 (length qs)))).
  { apply in_flat_map. exists n. split; [apply in_seq; cbn in N; lia|]. rewrite NT. apply in_map_iff. exists q'. split; [reflexivity|]. now rewrite <- SK. }
  apply H in X. apply andb_true_iff in X as (X & Y). rewrite forallb_forall in X, Y.
  assert (NE : forall k l, negb (existsb (String.eqb k) l) = true -> ~ In k l).
  { intros k l0 Z I. apply negb_true_iff in Z. assert (existsb (String.eqb k) l0 = true) by (apply existsb_exists; exists k; split; [exact I|apply String.eqb_refl]). congruence. }
  split; intros k I; apply NE; auto.
Qed.

Example C76_case : 2 <= length three /\ Forall proper three /\ Forall2 builds three (map built_by three)
  /\ union_impl (other_addresses 7) false (map StOk (map built_by three)) = StOk (union_by three)
  /\ (forall k, In k (union_keys (union_by three) ++ flat_map part_keys (members (union_by three))) -> ~ In k (aliased_keys (print_query env0 (union_by three))))
  /\ separate env0 (map built_by three) /\ renderable env0 (union_by three) /\ Forall (renderable env0) (map built_by three)
  /\ aliased_keys (print_query env0 (union_by three)) <> [] /\ flat_map once_keys (map (print_query env0) (map built_by three)) <> []
  /\ map (rendering unit env0) (map built_by three) = ["MATCH (n:`Person`) WHERE n.a = 1 RETURN n.z AS total"; "CREATE (m:`Movie`)"; "RETURN DISTINCT 1 AS total"]
  /\ rendering unit env0 (union_by three) = "MATCH (n:`Person`) WHERE n.a = 1 RETURN n.z AS total UNION CREATE (m:`Movie`)  UNION RETURN DISTINCT 1 AS total".
Proof.
  split; [cbn; lia|]. split; [constructor; [|constructor; [|constructor; [|constructor]]]; (split; [eexists; split; vm_compute; reflexivity|vm_compute; reflexivity])|].
  split; [constructor; [|constructor; [|constructor; [|constructor]]]; vm_compute; reflexivity|]. split; [vm_compute; reflexivity|].
  split; [apply disjoint_by; vm_compute; reflexivity|]. split; [apply pairs_by; vm_compute; reflexivity|]. split; [split; vm_compute; reflexivity|].
  split; [constructor; [|constructor; [|constructor; [|constructor]]]; (split; vm_compute; reflexivity)|].
  split; [vm_compute; discriminate|]. split; [vm_compute; discriminate|]. split; vm_compute; reflexivity.
Qed.

(** Not if a named node is used in two statements: its labels are written in the
    first only. *)
Definition sharing : list SpecUnited.chain := [people; Chain other_addresses (other_addresses 98) [matched; Returning false [GOk nn]]].
Theorem C76_shared_node_refuted :
  Forall proper sharing /\ Forall2 builds sharing (map built_by sharing)
  /\ union_impl (other_addresses 7) false (map StOk (map built_by sharing)) = StOk (union_by sharing)
  /\ Forall (renderable env0) (map built_by sharing)
  /\ map (rendering unit env0) (map built_by sharing) = ["MATCH (n:`Person`) WHERE n.a = 1 RETURN n.z AS total"; "MATCH (n:`Person`) RETURN n"]
  /\ rendering unit env0 (union_by sharing) = "MATCH (n:`Person`) WHERE n.a = 1 RETURN n.z AS total UNION MATCH (n) RETURN n"
  /\ forall all, ~ joined all (map (rendering unit env0) (map built_by sharing)) (rendering unit env0 (union_by sharing)).
Proof.
  split; [constructor; [|constructor; [|constructor]]; (split; [eexists; split; vm_compute; reflexivity|vm_compute; reflexivity])|].
  split; [constructor; [|constructor; [|constructor]]; vm_compute; reflexivity|]. split; [vm_compute; reflexivity|].
  split; [constructor; [|constructor; [|constructor]]; (split; vm_compute; reflexivity)|].
  assert (T1 : map (rendering unit env0) (map built_by sharing) = ["MATCH (n:`Person`) WHERE n.a = 1 RETURN n.z AS total"; "MATCH (n:`Person`) RETURN n"]) by (vm_compute; reflexivity).
  assert (T2 : rendering unit env0 (union_by sharing) = "MATCH (n:`Person`) WHERE n.a = 1 RETURN n.z AS total UNION MATCH (n) RETURN n") by (vm_compute; reflexivity).
  split; [exact T1|]. split; [exact T2|]. intros all J. rewrite T1, T2 in J. inversion J as [|? b ? s B J2 [H1 H2] H3]; subst.
  inversion J2 as [|? ? ? ? ? J3]; subst; [|inversion J3]. apply (f_equal String.length) in H3. rewrite !slen_app in H3. cbn in H3. destruct all; cbn in H3; lia.
Qed.
Print Assumptions C76_shared_node_refuted.
