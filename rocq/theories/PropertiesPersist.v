(** Properties of builder values that are used more than once: C28, C29, C45. *)

From Coq Require Import Ascii String List ZArith Bool Arith Lia.
From Verif Require Import GoStr Escape VTree Ast SpecDoc SpecPrint GoVal Cond Queries Builder BuilderText Slices HeapBuilder
  SpecPersist PersistProofs AgainProofs PropertiesText PropertiesBuilder.
Import ListNotations.
Open Scope string_scope.
Open Scope list_scope.

(** ** C29: builder values are immutable *)

(** A careful program does what it would do if values were immutable: it panics
    and diverges just when that one does, and gives the same values and
    statements, however append allocates.  What a value behind a pointer shows is
    left out.  All is read at the end of the program. *)
Theorem C29_careful_programs_partial : forall grow ps, careful ps = true ->
  match actual grow empty_store [] [] ps, ideal [] [] ps with
  | Some (Returns (st, vs, hs)), Some (Returns (ss, bs)) =>
      Forall2 (fun v s => by_pointer s = false -> now st v = s) vs ss
      /\ Forall2 (fun h b => built_now st h = Returns b) hs bs
  | Some Panics, Some Panics | Some Diverges, Some Diverges | None, None => True
  | _, _ => False
  end.
Proof.
  intros grow ps C. pose proof (careful_ok grow ps empty_store _ [] no_uses [] [] inv_empty C) as A. simpl map in A.
  destruct (actual grow empty_store [] [] ps) as [[[[st vs] hs]| |]|], (ideal [] [] ps) as [[[ss bs]| |]|]; try contradiction; try exact Logic.I.
  destruct A as (g & es & u & H & <- & <-). split.
  - assert (X : forall l, (forall e, In e l -> In e es) ->
      Forall2 (fun v s => by_pointer s = false -> now st v = s) (map val l) (map ideally l)).
    { induction l as [|e l IH]; intros Hl; simpl; constructor.
      - intros P. destruct (In_nth_error es e (Hl e (or_introl eq_refl))) as [i Hi].
        apply (inv_shows st g es u hs bs i); [exact H| | |exact P]; rewrite nth_error_map, Hi; reflexivity.
      - apply IH. intros x Hx. apply Hl. now right. }
    apply X. auto.
  - pose proof (i_built _ _ _ _ _ _ H) as B. clear -B. induction B as [|h b hs bs [_ E] B IH]; constructor; auto.
Qed.
Print Assumptions C29_careful_programs_partial.

(** Each statement is the one that its own chain of calls gives, and so is each
    value, whatever else the program does. *)
Theorem C29_own_calls_partial : forall grow ps st vs hs, careful ps = true ->
  actual grow empty_store [] [] ps = Some (Returns (st, vs, hs)) ->
  Forall2 (fun h x => alone x = Some (built_now st h)) hs (finished [] ps)
  /\ Forall2 (fun v l => exists s, replay l = Some (Returns s) /\ (by_pointer s = false -> now st v = s)) vs (chains [] ps).
Proof.
  intros grow ps st vs hs C E. pose proof (C29_careful_programs_partial grow ps C) as A. rewrite E in A.
  destruct (ideal [] [] ps) as [[[ss bs]| |]|] eqn:Ei; try contradiction. destruct A as [Av Ab].
  destruct (ideal_chains ps [] [] [] ss bs (Forall2_nil _) Ei) as [Hc [fs [Hf Hb]]]. simpl in Hf. subst fs. split.
  - clear -Ab Hb. revert Hb. generalize (finished [] ps). induction Ab as [|h b hs bs E Ab IH]; intros fs Hb; inversion Hb; subst; constructor; auto.
    rewrite E. assumption.
  - clear -Av Hc. revert Hc. generalize (chains [] ps). induction Av as [|v s vs ss E Av IH]; intros cs Hc; inversion Hc; subst; constructor; eauto.
Qed.
Print Assumptions C29_own_calls_partial.

(** ** C45: a built statement does not change *)

Lemma actual_app : forall grow ps1 ps2 st vs bs,
  actual grow st vs bs (ps1 ++ ps2) =
  after (actual grow st vs bs ps1) (fun r => actual grow (fst (fst r)) (snd (fst r)) (snd r) ps2).
Proof.
  intros grow. induction ps1 as [|p ps1 IH]; intros ps2 st vs bs; [reflexivity|].
  destruct p as [ks c|ks i c|ks i]; cbn [app actual].
  - destruct (h_start grow ks st c) as [[r| |]|]; cbn [after]; auto.
  - destruct (nth_error vs i) as [v|]; [|reflexivity]. destruct (h_step grow ks st v c) as [[r| |]|]; cbn [after]; auto.
  - destruct (nth_error vs i) as [v|]; [|reflexivity]. destruct (h_build grow ks st v) as [[r| |]|]; cbn [after]; auto.
Qed.

Lemma actual_grows : forall grow ps st vs bs st' vs' bs',
  actual grow st vs bs ps = Some (Returns (st', vs', bs')) ->
  (exists ws, vs' = vs ++ ws) /\ exists cs, bs' = bs ++ cs.
Proof.
  intros grow. induction ps as [|p ps IH]; intros st vs bs st' vs' bs' E.
  { simpl in E. injection E as <- <- <-. split; exists []; now rewrite app_nil_r. }
  destruct p as [ks c|ks i c|ks i]; cbn [actual] in E.
  - destruct (h_start grow ks st c) as [[r| |]|]; cbn [after] in E; try discriminate.
    destruct (IH _ _ _ _ _ _ E) as [[ws ->] X]. split; [exists ([snd r] ++ ws); now rewrite <- app_assoc|exact X].
  - destruct (nth_error vs i) as [v|]; [|discriminate]. destruct (h_step grow ks st v c) as [[r| |]|]; cbn [after] in E; try discriminate.
    destruct (IH _ _ _ _ _ _ E) as [[ws ->] X]. split; [exists ([snd r] ++ ws); now rewrite <- app_assoc|exact X].
  - destruct (nth_error vs i) as [v|]; [|discriminate]. destruct (h_build grow ks st v) as [[r| |]|]; cbn [after] in E; try discriminate.
    destruct (IH _ _ _ _ _ _ E) as [X [ws ->]]. split; [exact X|exists ([snd r] ++ ws); now rewrite <- app_assoc].
Qed.

Lemma careful_prefix : forall ps1 ps2 vs u, careful_from vs u (ps1 ++ ps2) = true -> careful_from vs u ps1 = true.
Proof.
  induction ps1 as [|p ps1 IH]; intros ps2 vs u H; [reflexivity|].
  destruct p as [ks c|ks i c|ks i]; cbn [app careful_from] in *.
  - destruct (start ks c) as [[v| |]|]; auto. eapply IH; exact H.
  - destruct (nth_error vs i) as [[v o]|]; auto. apply andb_true_iff in H as [A B]. rewrite A. cbn [andb].
    destruct (step ks v c) as [[v'| |]|]; auto. eapply IH; exact B.
  - destruct (nth_error vs i) as [[v o]|]; auto. apply andb_true_iff in H as [A B]. rewrite A. cbn [andb].
    destruct (build ks v) as [[v'| |]|]; auto. eapply IH; exact B.
Qed.

Lemma ideal_app : forall ps1 ps2 vs bs,
  ideal vs bs (ps1 ++ ps2) = after (ideal vs bs ps1) (fun r => ideal (fst r) (snd r) ps2).
Proof.
  induction ps1 as [|p ps1 IH]; intros ps2 vs bs; [reflexivity|].
  destruct p as [ks c|ks i c|ks i]; cbn [app ideal].
  - destruct (start ks c) as [[r| |]|]; cbn [after]; auto.
  - destruct (nth_error vs i) as [v|]; [|reflexivity]. destruct (step ks v c) as [[r| |]|]; cbn [after]; auto.
  - destruct (nth_error vs i) as [v|]; [|reflexivity]. destruct (build ks v) as [[r| |]|]; cbn [after]; auto.
Qed.

Lemma ideal_grows : forall ps vs bs vs' bs', ideal vs bs ps = Some (Returns (vs', bs')) -> exists cs, bs' = bs ++ cs.
Proof.
  induction ps as [|p ps IH]; intros vs bs vs' bs' E.
  { simpl in E. injection E as <- <-. exists []; now rewrite app_nil_r. }
  destruct p as [ks c|ks i c|ks i]; cbn [ideal] in E.
  - destruct (start ks c) as [[r| |]|]; cbn [after] in E; try discriminate. eauto.
  - destruct (nth_error vs i) as [v|]; [|discriminate]. destruct (step ks v c) as [[r| |]|]; cbn [after] in E; try discriminate. eauto.
  - destruct (nth_error vs i) as [v|]; [|discriminate]. destruct (build ks v) as [[r| |]|]; cbn [after] in E; try discriminate.
    destruct (IH _ _ _ _ E) as [ws ->]. exists ([r] ++ ws); now rewrite <- app_assoc.
Qed.

Lemma app_same_len : forall A (a b c d : list A), length a = length c -> a ++ b = c ++ d -> a = c.
Proof.
  intros A. induction a as [|x a IH]; intros b [|y c] d L E; try discriminate; [reflexivity|].
  simpl in *. injection L as L. injection E as -> E. f_equal. exact (IH b c d L E).
Qed.

Lemma Forall2_len : forall A B (R : A -> B -> Prop) a b, Forall2 R a b -> length a = length b.
Proof. intros A B R a b F. induction F; simpl; auto. Qed.

(** What a careful program does later changes no statement that is there. *)
Theorem C45_built_statements_stay_partial : forall grow ps1 ps2 st1 vs1 hs1 st2 vs2 hs2, careful (ps1 ++ ps2) = true ->
  actual grow empty_store [] [] ps1 = Some (Returns (st1, vs1, hs1)) ->
  actual grow empty_store [] [] (ps1 ++ ps2) = Some (Returns (st2, vs2, hs2)) ->
  (exists hs, hs2 = hs1 ++ hs) /\ forall h, In h hs1 -> built_now st2 h = built_now st1 h.
Proof.
  intros grow ps1 ps2 st1 vs1 hs1 st2 vs2 hs2 C E1 E2.
  assert (C1 : careful ps1 = true) by (eapply careful_prefix; exact C).
  pose proof (C29_careful_programs_partial grow ps1 C1) as A1. pose proof (C29_careful_programs_partial grow _ C) as A2.
  rewrite E1 in A1. rewrite E2 in A2. rewrite actual_app, E1 in E2. cbn [after fst snd] in E2.
  destruct (actual_grows _ _ _ _ _ _ _ _ E2) as [_ [hs ->]]. split; [now exists hs|].
  destruct (ideal [] [] ps1) as [[[ss1 bs1]| |]|] eqn:I1; try contradiction.
  destruct (ideal [] [] (ps1 ++ ps2)) as [[[ss2 bs2]| |]|] eqn:I2; try contradiction.
  rewrite ideal_app, I1 in I2. cbn [after fst snd] in I2. destruct (ideal_grows _ _ _ _ _ I2) as [bs ->].
  destruct A1 as [_ B1], A2 as [_ B2].
  assert (B3 : Forall2 (fun h b => built_now st2 h = Returns b) hs1 bs1).
  { apply Forall2_app_inv_l in B2 as (l1 & l2 & X1 & X2 & X3).
    assert (L : length l1 = length bs1).
    { rewrite <- (Forall2_len _ _ _ _ _ X1). exact (Forall2_len _ _ _ _ _ B1). }
    assert (l1 = bs1) by (symmetry; exact (app_same_len _ _ _ _ _ (eq_sym L) X3)).
    subst. exact X1. }
  clear -B1 B3. revert B3. induction B1 as [|h b hs1 bs1 X B1 IH]; intros B3 h' Hh; [contradiction|].
  inversion B3 as [|? ? ? ? Y B4]; subst. destruct Hh as [<-|Hh]; [congruence|]. now apply IH.
Qed.
Print Assumptions C45_built_statements_stay_partial.

(** ** C28: Build can be called again *)

(** The same statement but for the keys of the elements that Build makes: the
    same text, where these are not keys of expressions with an alias; the same
    error otherwise. *)
Definition same_text (ks1 ks2 : nat -> key) (b1 b2 : built) : Prop :=
  match b1, b2 with
  | Built (StOk q1), Built (StOk q2) =>
      forall E, (forall n, ~ In (ks1 n) (aliased_keys (print_query E q1)) /\ ~ In (ks2 n) (aliased_keys (print_query E q1))) ->
        statement_text E q1 = statement_text E q2
  | Built (StOk _), _ | _, Built (StOk _) => False
  | _, _ => b1 = b2
  end.
Definition same_result (ks1 ks2 : nat -> key) (o1 o2 : option (outcome built)) : Prop :=
  match o1, o2 with
  | Some (Returns b1), Some (Returns b2) => same_text ks1 ks2 b1 b2
  | Some Panics, Some Panics | Some Diverges, Some Diverges | None, None => True
  | _, _ => False
  end.

(** Build twice on the same contents, ending in RETURN, in an updating clause or
    in neither. *)
Theorem C28_same_contents_same_text : forall s ks1 ks2, same_result ks1 ks2 (build ks1 s) (build ks2 s).
Proof.
  intros s ks1 ks2. set (N := fun k => exists n, k = ks1 n \/ k = ks2 n).
  assert (H1 : all_new N ks1) by (intros n; exists n; now left).
  assert (H2 : all_new N ks2) by (intros n; exists n; now right).
  assert (G : forall E, obsame N E (build ks1 s) (build ks2 s)) by (intros E; now apply build_again).
  unfold obsame, same_result, bsame, same_text, stsame in *.
  pose proof (G env0) as G0.
  destruct (build ks1 s) as [[[[q1|x1 m1|x1|]|m1]| |]|], (build ks2 s) as [[[[q2|x2 m2|x2|]|m2]| |]|]; try contradiction;
    try exact Logic.I; try reflexivity; try (destruct G0; congruence); try congruence.
  intros E U. unfold statement_text. f_equal. apply (AgainProofs.same_text N); [apply G|].
  intros k [n [->| ->]]; apply U.
Qed.
Print Assumptions C28_same_contents_same_text.

(** In a careful program all statements of the same builder value have the same
    text, whatever happens in between. *)
Theorem C28_careful_programs_partial : forall grow ps st vs hs i j h1 h2 l ks1 ks2, careful ps = true ->
  actual grow empty_store [] [] ps = Some (Returns (st, vs, hs)) ->
  nth_error hs i = Some h1 -> nth_error hs j = Some h2 ->
  nth_error (finished [] ps) i = Some (l, ks1) -> nth_error (finished [] ps) j = Some (l, ks2) ->
  same_result ks1 ks2 (Some (built_now st h1)) (Some (built_now st h2)).
Proof.
  intros grow ps st vs hs i j h1 h2 l ks1 ks2 C E Hi Hj Fi Fj.
  destruct (C29_own_calls_partial grow ps st vs hs C E) as [A _].
  assert (X : forall n h x, nth_error hs n = Some h -> nth_error (finished [] ps) n = Some x -> alone x = Some (built_now st h)).
  { clear -A. induction A as [|h x hs fs R A IH]; intros [|n] h' x' P Q; try discriminate; simpl in *.
    - injection P as <-. injection Q as <-. exact R.
    - eapply IH; eassumption. }
  rewrite <- (X i h1 (l, ks1) Hi Fi), <- (X j h2 (l, ks2) Hj Fj). unfold alone. cbn [fst snd].
  destruct (replay l) as [[s| |]|]; cbn [after]; try exact Logic.I. apply C28_same_contents_same_text.
Qed.
Print Assumptions C28_careful_programs_partial.

(** Build of a value may be repeated any number of times, unless the value ends
    in an updating clause. *)
Lemma repeat_finish : forall i kss vs u ks,
  (forall w o, nth_error vs i = Some (w, o) -> build_adds_clause w = false) ->
  careful_from vs u [Finish ks i] = true -> careful_from vs u (map (fun ks => Finish ks i) kss) = true.
Proof.
  intros i. induction kss as [|k kss IH]; intros vs u ks H C; [reflexivity|]. cbn [map careful_from] in *.
  destruct (nth_error vs i) as [[v o]|] eqn:Ev; [|reflexivity]. specialize (H v o eq_refl) as Hv. rewrite Hv in *.
  apply andb_true_iff in C as [A _]. rewrite A. cbn [andb]. destruct (build k v) as [[b| |]|]; try reflexivity.
  apply (IH _ _ ks).
  - intros w o' Hw. rewrite Ev in Hw. injection Hw as <- <-. exact Hv.
  - cbn [careful_from]. rewrite Ev, Hv. apply andb_true_iff. split; [|now destruct (build ks v) as [[]|]].
    unfold allowed, use in *. cbn [negb orb andb] in *. destruct (build_sort_use v) eqn:X; cbn [sorts_free used_sorts] in *; auto.
    + destruct v; cbn in X; try discriminate; destruct (pending _); discriminate.
    + cbn [forallb fst snd]. rewrite A, Nat.eqb_refl, (Nat.eqb_refl (of_last o)). reflexivity.
Qed.

Theorem C28_build_any_number_of_times_partial : forall ps ks i kss,
  careful (ps ++ [Finish ks i]) = true ->
  (forall ss bs u, ideal [] [] ps = Some (Returns (ss, bs)) -> nth_error ss i <> Some (U u)) ->
  careful (ps ++ map (fun ks => Finish ks i) kss) = true.
Proof.
  intros ps ks i kss. unfold careful. change (@nil state) with (map (@fst state origin) []). generalize (@nil (state * origin)), no_uses, (@nil built).
  induction ps as [|p ps IH]; intros vs u bs0 C H; cbn [app] in *.
  - apply (repeat_finish i kss vs u ks); [|exact C]. intros w o Hw. destruct w as [d|x|w|r|d p|p]; try reflexivity.
    exfalso. apply (H (map fst vs) bs0 x eq_refl). rewrite nth_error_map, Hw. reflexivity.
  - destruct p as [k c|k n c|k n]; cbn [careful_from ideal] in *.
    + destruct (start k c) as [[v| |]|]; try reflexivity. cbn [after] in H. apply (IH _ _ bs0); [exact C|].
      intros ss bs x E. apply (H ss bs x). rewrite map_app in E. exact E.
    + destruct (nth_error vs n) as [[v o]|] eqn:Ev; [|reflexivity]. rewrite nth_error_map, Ev in H. cbn [option_map fst] in H.
      apply andb_true_iff in C as [A B]. rewrite A. cbn [andb]. destruct (step k v c) as [[v'| |]|]; try reflexivity. cbn [after] in H.
      apply (IH _ _ bs0); [exact B|]. intros ss bs x E. apply (H ss bs x). rewrite map_app in E. exact E.
    + destruct (nth_error vs n) as [[v o]|] eqn:Ev; [|reflexivity]. rewrite nth_error_map, Ev in H. cbn [option_map fst] in H.
      apply andb_true_iff in C as [A B]. rewrite A. cbn [andb]. destruct (build k v) as [[b| |]|]; try reflexivity. cbn [after] in H.
      apply (IH _ _ (bs0 ++ [b])); [exact B|]. exact H.
Qed.
Print Assumptions C28_build_any_number_of_times_partial.

(** ** Cases *)

(** The texts of the statements at the end of a program; and what they are if
    values are immutable. *)
Definition text_of (b : built) : string := match b with Built (StOk q) => statement_text env0 q | Built _ => "broken" | BuildFails m => m end.
Definition shown (ps : list instr) : list string :=
  match actual go_grow empty_store [] [] ps with
  | Some (Returns (st, _, hs)) => map (fun h => match built_now st h with Returns b => text_of b | _ => "panic" end) hs
  | _ => []
  end.
Definition wanted (ps : list instr) : list string :=
  match ideal [] [] ps with Some (Returns (_, bs)) => map text_of bs | _ => [] end.

(** The program, with new keys in every call. *)
Inductive act := Start (c : Builder.call) | On (i : nat) (c : Builder.call) | Build (i : nat).
Fixpoint number_from (n : nat) (l : list act) : list instr :=
  match l with
  | [] => []
  | Start c :: l => Begin (K0 n) c :: number_from (Datatypes.S n) l
  | On i c :: l => Do (K0 n) i c :: number_from (Datatypes.S n) l
  | Build i :: l => Finish (K0 n) i :: number_from (Datatypes.S n) l
  end.
Definition program : list act -> list instr := number_from 0.

(** One MATCH, continued in two ways, twice; RETURN built twice, with further
    calls in between. *)
Definition branches : list instr := program
  [Start matched;                                  (* 0 *)
   On 0 (Where (cond "a"));                        (* 1 *)
   On 0 (Where (cond "b"));                        (* 2 *)
   On 1 returned_n;                                (* 3 *)
   On 2 returned_n;                                (* 4 *)
   On 3 (OrderBy (GOk (prop nn "q" "age")));       (* 5 *)
   On 4 (Limit 2);                                 (* 6 *)
   Build 5; Build 4; Build 6;
   On 2 (Match false [GOk m_]);                    (* 7 *)
   On 7 returned_n;                                (* 8 *)
   Build 8; Build 5; Build 3].

Example C29_case : careful branches = true
  /\ shown branches = ["MATCH (n:`Person`) WHERE n.a = 1 RETURN n ORDER BY n.age";
                       "MATCH (n:`Person`) WHERE n.b = 1 RETURN n";
                       "MATCH (n:`Person`) WHERE n.b = 1 RETURN n LIMIT 2";
                       "MATCH (n:`Person`) WHERE n.b = 1 MATCH (m:`Movie`) RETURN n";
                       "MATCH (n:`Person`) WHERE n.a = 1 RETURN n ORDER BY n.age";
                       "MATCH (n:`Person`) WHERE n.a = 1 RETURN n"].
Proof. split; vm_compute; reflexivity. Qed.

(** The first and the fifth statement are of the same value; their keys are those
    of no aliased expression; the branches are no updating clauses. *)
Example C28_case :
  option_map fst (nth_error (finished [] branches) 0) = option_map fst (nth_error (finished [] branches) 4)
  /\ nth 0 (shown branches) "" = nth 4 (shown branches) ""
  /\ careful (firstn 7 branches ++ [Finish (K0 50) 5]) = true
  /\ (forall ss bs u, ideal [] [] (firstn 7 branches) = Some (Returns (ss, bs)) -> nth_error ss 5 <> Some (U u))
  /\ shown (firstn 7 branches ++ [Finish (K0 50) 5; Finish (K0 51) 5; Finish (K0 52) 5])
     = repeat "MATCH (n:`Person`) WHERE n.a = 1 RETURN n ORDER BY n.age" 3.
Proof.
  repeat split; try (vm_compute; reflexivity).
  intros ss bs u H. vm_compute in H. injection H as <- _. vm_compute. discriminate.
Qed.

(** The hypothesis on keys holds, with an alias in the statement. *)
Example C28_keys_case :
  let s := match replay [(K0 0, matched); (K0 1, Returning false [GOk (EAlias "al" "sn" nn "x")])] with
           | Some (Returns s) => s | _ => S (CallB true (None, "") None None Nil) end in
  match build (K0 2) s with
  | Some (Returns (Built (StOk q))) =>
      aliased_keys (print_query env0 q) = ["sn"] /\ (forall n, K0 2 n <> "sn") /\ statement_text env0 q = "MATCH (n:`Person`) RETURN n AS x"
  | _ => False
  end.
Proof. vm_compute. split; [reflexivity|]. split; [|reflexivity]. intros n. discriminate. Qed.

Example C45_case :
  let ps1 := firstn 10 branches in let ps2 := skipn 10 branches in
  careful (ps1 ++ ps2) = true /\ length (shown ps1) = 3 /\ length (shown (ps1 ++ ps2)) = 6.
Proof. repeat split; vm_compute; reflexivity. Qed.

(** ** Where it fails *)

(** Build of a builder that ends in an updating clause adds that clause to the
    builder: the second statement has it twice. *)
Definition set_twice : list instr := program [Start matched; On 0 (SetItems a_is_1); Build 1; Build 1].

Theorem C28_update_built_twice_refuted :
  careful (firstn 3 set_twice) = true
  /\ shown set_twice = ["MATCH (n:`Person`) SET n.a = 1"; "MATCH (n:`Person`) SET n.a = 1 SET n.a = 1"]
  /\ wanted set_twice = ["MATCH (n:`Person`) SET n.a = 1"; "MATCH (n:`Person`) SET n.a = 1"].
Proof. repeat split; vm_compute; reflexivity. Qed.
Print Assumptions C28_update_built_twice_refuted.

(** The same with a RETURN after it. *)
Definition set_return_twice : list instr :=
  program [Start matched; On 0 (SetItems a_is_1); On 1 returned_n; Build 2; Build 2; Build 2].

Theorem C28_update_with_return_built_again_refuted :
  shown set_return_twice = ["MATCH (n:`Person`) SET n.a = 1 RETURN n";
                            "MATCH (n:`Person`) SET n.a = 1 SET n.a = 1 RETURN n";
                            "MATCH (n:`Person`) SET n.a = 1 SET n.a = 1 SET n.a = 1 RETURN n"].
Proof. vm_compute. reflexivity. Qed.
Print Assumptions C28_update_with_return_built_again_refuted.

(** Two continuations of a builder with four MATCH clauses: the condition of the
    second appears in the first. *)
Definition node (x : string) : expr := ENode x (Some (("s" ++ x)%string, x)) [] None.
Definition four_matches : list instr := program
  [Start matched;
   On 0 (Match false [GOk (node "a")]);
   On 1 (Match false [GOk (node "b")]);
   On 2 (Match false [GOk (node "c")]);            (* 3 *)
   On 3 (Match false [GOk (node "d")]);            (* 4 *)
   On 3 (Where (cond "x"));                        (* 5 *)
   On 4 returned_n;                                (* 6 *)
   On 5 (Match false [GOk (node "e")]);            (* 7 *)
   Build 6].

Theorem C29_two_continuations_refuted :
  shown four_matches = ["MATCH (n:`Person`) MATCH (a) MATCH (b) MATCH (c) WHERE n.x = 1 MATCH (d) RETURN n"]
  /\ wanted four_matches = ["MATCH (n:`Person`) MATCH (a) MATCH (b) MATCH (c) MATCH (d) RETURN n"].
Proof. split; vm_compute; reflexivity. Qed.
Print Assumptions C29_two_continuations_refuted.

(** Two updating clauses after the same MATCH ... SET: both are in the second
    statement. *)
Definition b_is_2 : list gval := [GOk (prop nn "b" "b"); GOk (num "two" 2)].
Definition c_is_3 : list gval := [GOk (prop nn "c" "c"); GOk (num "three" 3)].
Definition two_sets : list instr := program
  [Start matched; On 0 (SetItems a_is_1); On 1 (SetItems b_is_2); On 1 (SetItems c_is_3); Build 3].

Theorem C29_two_updates_refuted :
  shown two_sets = ["MATCH (n:`Person`) SET n.a = 1 SET n.a = 1 SET n.c = 3"]
  /\ wanted two_sets = ["MATCH (n:`Person`) SET n.a = 1 SET n.c = 3"].
Proof. split; vm_compute; reflexivity. Qed.
Print Assumptions C29_two_updates_refuted.

(** Two conditions on the same procedure call: the last is in both statements. *)
Definition two_wheres : list instr := program
  [Start matched; On 0 (Proc ["f"]); On 1 (Yield [GOk (ESym "sx" "x")]);
   On 2 (Where (cond "a")); On 2 (Where (cond "b")); On 3 returned_n; On 4 returned_n; Build 5; Build 6].

Theorem C29_two_conditions_refuted :
  shown two_wheres = ["MATCH (n:`Person`) CALL f() YIELD x WHERE n.b = 1 RETURN n";
                      "MATCH (n:`Person`) CALL f() YIELD x WHERE n.b = 1 RETURN n"]
  /\ wanted two_wheres = ["MATCH (n:`Person`) CALL f() YIELD x WHERE n.a = 1 RETURN n";
                          "MATCH (n:`Person`) CALL f() YIELD x WHERE n.b = 1 RETURN n"].
Proof. split; vm_compute; reflexivity. Qed.
Print Assumptions C29_two_conditions_refuted.

(** A statement that is there changes when another is built: both have three
    sort items in common. *)
Definition by_name (k : string) : sort := Sort k (prop nn ("p" ++ k)%string k) (Some true).
Definition sorted : list act :=
  [Start matched; On 0 returned_n; On 1 (OrderItems [by_name "a"]); On 2 (OrderItems [by_name "b"]);
   On 3 (OrderItems [by_name "c"]);                    (* 4 *)
   On 4 (OrderBy (GOk (prop nn "pd" "d")));            (* 5 *)
   On 4 (OrderBy (GOk (prop nn "pe" "e")));            (* 6 *)
   Build 5].

Theorem C45_built_statement_changes_refuted :
  careful (program sorted) = true
  /\ shown (program sorted) = ["MATCH (n:`Person`) RETURN n ORDER BY n.a DESC, n.b DESC, n.c DESC, n.d"]
  /\ shown (program (sorted ++ [Build 6])) = ["MATCH (n:`Person`) RETURN n ORDER BY n.a DESC, n.b DESC, n.c DESC, n.e";
                                              "MATCH (n:`Person`) RETURN n ORDER BY n.a DESC, n.b DESC, n.c DESC, n.e"].
Proof. repeat split; vm_compute; reflexivity. Qed.
Print Assumptions C45_built_statement_changes_refuted.
