(** Properties C16 to C20: what the conditions built with And, Or, Xor and Not
    say.  Specification: SpecCond.v; model: Cond.v.

    [makes c x]: the calls [c] on the API produce the condition [x];
    [cond_expr x]: what is rendered. *)

From Coq Require Import Ascii String List ZArith Bool Lia.
From Verif Require Import GoStr Escape Num VTree Ast SpecDoc SpecPrint DocProofs EscapeProofs SpecCond Cond CondProofs PropertiesText.
Import ListNotations.
Open Scope string_scope.

(** Example conditions: constants and comparisons. *)
Definition atom (n : string) : expr := EComparison ("k" ++ n) (Some (ESym ("s" ++ n) n)) Equality (Some (ENum ("n" ++ n) (num_of_Z 1))).
Definition ks0 (n : nat) : key := match n with 0 => "c0" | 1 => "c1" | 2 => "c2" | 3 => "c3" | _ => "c4" end.

(** ** C16 *)

(** The text of a condition made by calls in which a chain is extended by a
    chain only with the connective it has: a sequence of tokens whose reading is
    the meaning of the calls, whatever the basic conditions evaluate to. *)
Theorem C16_chains_keep_their_meaning : forall E c x m,
  makes c x -> proper c = true -> blank c = false -> unmixed c = true ->
  Forall (operand_ok E) (operands c) -> introduced m = [] ->
  exists ts, write (print E (cond_expr x)) m = write (Cat (map (token_doc (print E)) ts)) m
          /\ forall rho, exists v, meaning rho c = Some v /\ reads rho 0 ts v.
Proof.
  intros E c x m H P B U O I. exists (tokens x). split.
  - rewrite write_Cat. apply tokens_text with (fun _ => None); [now apply makes_val with c| |assumption].
    apply tokens_over. now apply makes_over with c.
  - intros rho. destruct (makes_val rho c x H P) as [S V].
    destruct (meaning rho c) as [v|] eqn:Mv; [|apply meaning_blank in Mv; congruence].
    exists v. split; [reflexivity|]. apply reads_weaken with 3; [|lia|lia].
    apply tight_reads; [assumption| |assumption]. apply uniform_tight. now apply makes_uniform with c.
Qed.
Print Assumptions C16_chains_keep_their_meaning.

(** The reading of a token sequence is unique. *)
Theorem C16_reading_unique : forall A (rho : A -> tv) ts v w, reads rho 0 ts v -> reads rho 0 ts w -> v = w.
Proof. intros A rho ts v w. apply reads_unique; lia. Qed.
Print Assumptions C16_reading_unique.

(** All chains: the meaning is kept if in every pair of parentheses the
    operators come in the order of their precedence, AND before XOR before OR. *)
Theorem C16_ordered_operators : forall E c x m,
  makes c x -> proper c = true -> blank c = false -> tight x ->
  Forall (operand_ok E) (operands c) -> introduced m = [] ->
  exists ts, write (print E (cond_expr x)) m = write (Cat (map (token_doc (print E)) ts)) m
          /\ forall rho, exists v, meaning rho c = Some v /\ reads rho 0 ts v.
Proof.
  intros E c x m H P B U O I. exists (tokens x). split.
  - rewrite write_Cat. apply tokens_text with (fun _ => None); [now apply makes_val with c| |assumption].
    apply tokens_over. now apply makes_over with c.
  - intros rho. destruct (makes_val rho c x H P) as [S V].
    destruct (meaning rho c) as [v|] eqn:Mv; [|apply meaning_blank in Mv; congruence].
    exists v. split; [reflexivity|]. apply reads_weaken with 3; [|lia|lia]. now apply tight_reads.
Qed.
Print Assumptions C16_ordered_operators.

(** a.Or(b).And(c).Xor(Not(d.Or(e))) *)
Definition chain1 : call expr :=
  Chain CXor (Chain CAnd (Chain COr (Basic (atom "a")) (Basic (atom "b"))) (Basic (atom "c")))
        (Negate (Chain COr (Basic (atom "d")) (Basic (atom "e")))).

Lemma chain1_makes : exists x, makes chain1 x
  /\ text (print env0 (cond_expr x)) = "(((a = 1 OR b = 1) AND c = 1) XOR NOT ((d = 1 OR e = 1)))".
Proof.
  eexists. split.
  - eapply (m_chain ks0).
    + eapply (m_chain ks0); [eapply (m_chain ks0); [constructor|constructor|reflexivity]|constructor|reflexivity].
    + eapply (m_not ks0); [|reflexivity]. eapply (m_chain ks0); [constructor|constructor|reflexivity].
    + reflexivity.
  - reflexivity.
Qed.

Example C16_case : proper chain1 = true /\ blank chain1 = false /\ unmixed chain1 = true
  /\ Forall (operand_ok env0) (operands chain1).
Proof. repeat split; repeat constructor. Qed.

(** a.Or(b).And(c.Or(d)): the parentheses around the first chain are missing. *)
Definition mixed : call expr :=
  Chain CAnd (Chain COr (Basic (atom "a")) (Basic (atom "b"))) (Chain COr (Basic (atom "c")) (Basic (atom "d"))).

Theorem C16_mixed_chains_refuted : exists E c x ts rho v w,
  makes c x /\ proper c = true /\ Forall (operand_ok E) (operands c)
  /\ text (print E (cond_expr x)) = text (Cat (map (token_doc (print E)) ts))
  /\ text (print E (cond_expr x)) = "(a = 1 OR b = 1 AND (c = 1 OR d = 1))"
  /\ meaning rho c = Some v /\ reads rho 0 ts w /\ v <> w.
Proof.
  assert (M : exists x, makes mixed x /\ x = Comp "c0" BOr [Atom (atom "a"); Atom (atom "b"); Comp "c3" BAnd [Comp "c0" BOr [Atom (atom "c"); Atom (atom "d")] 2] 0] 2).
  { eexists. split; [|reflexivity]. eapply (m_chain ks0); [eapply (m_chain ks0); [constructor|constructor|reflexivity]
      |eapply (m_chain ks0); [constructor|constructor|reflexivity]|reflexivity]. }
  destruct M as [x [M Ex]].
  (* a holds, the others do not *)
  exists env0, mixed, x, (tokens x),
    (fun e => match e with EComparison k _ _ _ => if String.eqb k "ka" then Some true else Some false | _ => None end),
    (Some false), (Some true).
  split; [assumption|]. split; [reflexivity|]. split; [repeat constructor|]. subst x.
  split; [reflexivity|]. split; [reflexivity|]. split; [reflexivity|]. split; [|discriminate].
  set (rho := fun e => match e with EComparison k _ _ _ => if String.eqb k "ka" then Some true else Some false | _ => None end).
  cbn [tokens joiner conn_of flat_map app].
  apply reads_weaken with 3; [|lia|lia].
  change (reads rho 3 (TL :: ([TAtom (atom "a")] ++ TOp COr :: ([TAtom (atom "b")] ++ TOp CAnd :: TL :: ([TAtom (atom "c")] ++ TOp COr :: [TAtom (atom "d")]) ++ [TR])) ++ [TR])
                    (connect COr (rho (atom "a")) (connect CAnd (rho (atom "b")) (connect COr (rho (atom "c")) (rho (atom "d")))))).
  assert (W : forall n e, n <= 3 -> reads rho n [TAtom e] (rho e)) by (intros; apply reads_weaken with 3; [constructor|lia|lia]).
  apply r_paren. apply (r_op rho COr); [apply W; cbn; lia|].
  apply reads_weaken with 2; [|lia|cbn; lia].
  apply (r_op rho CAnd); [apply W; cbn; lia|]. cbn [prec]. apply r_paren. apply (r_op rho COr); apply W; cbn; lia.
Qed.
Print Assumptions C16_mixed_chains_refuted.

(** ** C17 *)

(** Chains with one connective, however nested, are one list of their operands. *)
Theorem C17_single_connective_flat : forall E o c x m,
  makes c x -> only o c -> Forall (operand_ok E) (operands c) -> introduced m = [] ->
  write (print E (cond_expr x)) m = write (Cat (map (token_doc (print E)) (joined o (operands c)))) m.
Proof.
  intros E o c x m H O F I. rewrite <- (single_tokens o _ x (makes_single o c x H O)), write_Cat.
  assert (P : proper c = true).
  { clear - O. induction c; cbn in *; try reflexivity; [|contradiction]. destruct O as [_ [O1 O2]]. now rewrite IHc1, IHc2. }
  apply tokens_text with (fun _ => None); [now apply makes_val with c| |assumption].
  apply tokens_over. now apply makes_over with c.
Qed.
Print Assumptions C17_single_connective_flat.

Definition chain2 : call expr :=
  Chain CAnd (Chain CAnd (Basic (atom "a")) NoCondition) (Chain CAnd (Basic (atom "b")) (Chain CAnd (Basic (atom "c")) (Basic (atom "d")))).

Example C17_case : (exists x, makes chain2 x) /\ only CAnd chain2 /\ Forall (operand_ok env0) (operands chain2)
  /\ text (Cat (map (token_doc (print env0)) (joined CAnd (operands chain2)))) = "(a = 1 AND b = 1 AND c = 1 AND d = 1)".
Proof.
  split; [|repeat split; repeat constructor].
  eexists. eapply (m_chain ks0); [eapply (m_chain ks0); [constructor|constructor|reflexivity]| |reflexivity].
  eapply (m_chain ks0); [constructor| |reflexivity]. eapply (m_chain ks0); [constructor|constructor|reflexivity].
Qed.

(** ** C18 *)

(** One step of a chain, called on a container or on a condition. *)
Definition extended (ks : nat -> key) (o : conn) (x y z : cnd) : Prop :=
  container_chain ks (bop_of_conn o) x y = Val z \/ condition_chain ks (bop_of_conn o) x y = Val z.

Lemma same_text : forall E rho x z m, sound rho x -> sound rho z -> over_atoms (operand_ok E) x -> over_atoms (operand_ok E) z ->
  introduced m = [] -> tokens z = tokens x ->
  write (print E (cond_expr z)) m = write (print E (cond_expr x)) m.
Proof.
  intros E rho x z m Sx Sz Ox Oz I T.
  rewrite (tokens_text E rho x Sx (tokens_over _ x Ox) m I), (tokens_text E rho z Sz (tokens_over _ z Oz) m I).
  now rewrite T.
Qed.

(** A condition that contributes nothing does not change the text of the
    condition it is added to, nor of the condition added to it. *)
Theorem C18_empty_operand : forall E ks o c d x y z m,
  makes c x -> makes d y -> proper c = true -> proper d = true -> blank d = true ->
  Forall (operand_ok E) (operands c) -> Forall (operand_ok E) (operands d) -> introduced m = [] ->
  extended ks o x y z ->
  write (print E (cond_expr z)) m = write (print E (cond_expr x)) m.
Proof.
  intros E ks o c d x y z m Hx Hy P1 P2 B F1 F2 I X. set (rho := fun _ : expr => @None bool).
  destruct (makes_val rho _ _ Hx P1) as [S1 _]. destruct (makes_val rho _ _ Hy P2) as [S2 V2].
  assert (Hc : container_chain ks (bop_of_conn o) x y = Val z).
  { destruct X as [X|X]; [assumption|]. now rewrite (method_chain rho _ _ _ _ S1) in X. }
  destruct (chain_val rho _ _ _ _ _ S1 S2 Hc) as [Sz _].
  apply same_text with rho; try assumption.
  - now apply makes_over with c.
  - eapply chain_over; [eapply makes_over; [exact Hx|exact P1|exact F1]|eapply makes_over; [exact Hy|exact P2|exact F2]|exact Hc].
  - apply meaning_blank with (rho := rho) in B. rewrite <- V2 in B.
    exact (chain_empty_right rho ks _ x y z S1 (compound_none_val rho y S2 B) (sound_no_error rho y S2) Hc).
Qed.
Print Assumptions C18_empty_operand.

Theorem C18_empty_receiver : forall E ks o c d x y z m,
  makes c x -> makes d y -> proper c = true -> proper d = true -> blank c = true ->
  Forall (operand_ok E) (operands c) -> Forall (operand_ok E) (operands d) -> introduced m = [] ->
  extended ks o x y z ->
  write (print E (cond_expr z)) m = write (print E (cond_expr y)) m.
Proof.
  intros E ks o c d x y z m Hx Hy P1 P2 B F1 F2 I X. set (rho := fun _ : expr => @None bool).
  destruct (makes_val rho _ _ Hx P1) as [S1 V1]. destruct (makes_val rho _ _ Hy P2) as [S2 V2].
  assert (Hc : container_chain ks (bop_of_conn o) x y = Val z).
  { destruct X as [X|X]; [assumption|]. now rewrite (method_chain rho _ _ _ _ S1) in X. }
  destruct (chain_val rho _ _ _ _ _ S1 S2 Hc) as [Sz _].
  apply same_text with rho; try assumption.
  - now apply makes_over with d.
  - eapply chain_over; [eapply makes_over; [exact Hx|exact P1|exact F1]|eapply makes_over; [exact Hy|exact P2|exact F2]|exact Hc].
  - apply meaning_blank with (rho := rho) in B. rewrite <- V1 in B. exact (chain_empty_any rho ks _ x y z S1 S2 B Hc).
Qed.
Print Assumptions C18_empty_receiver.

(** No WHERE is written for conditions that contribute nothing, and only for those. *)
Theorem C18_no_where : forall c x, makes c x -> proper c = true -> (build_condition x = None <-> blank c = true).
Proof.
  intros c x H P. set (rho := fun _ : expr => @None bool). destruct (makes_val rho _ _ H P) as [S V].
  rewrite (meaning_blank rho c), <- V. split.
  - intros B. destruct S; cbn in B; try discriminate; [reflexivity|]. destruct cs; [reflexivity|discriminate].
  - intros B. pose proof (compound_none_val rho x S B) as C. destruct S; try discriminate; [reflexivity|].
    cbn in C. inversion C. reflexivity.
Qed.
Print Assumptions C18_no_where.

Example C18_case : exists x z1 z2, makes mixed x /\ extended ks0 CAnd x Empty z1 /\ extended ks0 CAnd Empty x z2
  /\ text (print env0 (cond_expr z1)) = "(a = 1 OR b = 1 AND (c = 1 OR d = 1))"
  /\ text (print env0 (cond_expr z2)) = "(a = 1 OR b = 1 AND (c = 1 OR d = 1))".
Proof.
  eexists. eexists. eexists. split; [eapply (m_chain ks0); [eapply (m_chain ks0); [constructor|constructor|reflexivity]
      |eapply (m_chain ks0); [constructor|constructor|reflexivity]|reflexivity]|].
  split; [left; reflexivity|]. split; [left; reflexivity|]. split; reflexivity.
Qed.

(** ** C19 *)

(** Not on what And, Or, Xor return: the reading of the negated condition is
    negated, whatever the condition is. *)
Theorem C19_negation : forall ks c x z rho n v, makes c x -> proper c = true -> blank c = false ->
  container_not ks x = Val z -> n <= 3 -> reads rho n (tokens x) v -> reads rho 3 (tokens z) (not3 v).
Proof.
  intros ks c x z rho n v H P B Hz L R. destruct (makes_val rho _ _ H P) as [S V].
  unfold container_not, comparison_not in Hz. rewrite (sound_no_error _ _ S) in Hz.
  assert (E : z = Neg (ks 0) (ks 1) x) by (destruct x; inversion Hz; subst; try reflexivity; inversion S). subst z.
  cbn. apply r_not. apply r_paren. apply reads_weaken with n; [assumption|lia|lia].
Qed.
Print Assumptions C19_negation.

(** ... and its text is NOT, and the text of the condition in parentheses. *)
Theorem C19_negation_text : forall E ks c x z m, makes c x -> proper c = true -> blank c = false ->
  introduced m = [] -> container_not ks x = Val z ->
  write (print E (cond_expr z)) m = write (Cat [Txt "NOT ("; print E (cond_expr x); Txt ")"]) m.
Proof.
  intros E ks c x z m H P B I Hz. set (rho := fun _ : expr => @None bool). destruct (makes_val rho _ _ H P) as [S V].
  unfold container_not, comparison_not in Hz. rewrite (sound_no_error _ _ S) in Hz.
  assert (Ez : z = Neg (ks 0) (ks 1) x) by (destruct x; inversion Hz; subst; try reflexivity; inversion S). subst z.
  cbn [cond_expr print option_map maybe app]. rewrite write_Shared, I. cbn [alias_of]. rewrite !write_Cat. cbn [wcat].
  rewrite write_op by assumption. rewrite write_Shared, I. cbn [alias_of]. rewrite write_Cat. cbn [wcat].
  change (write (Txt "(") m) with ("(", m). change (write (Txt "NOT (") m) with ("NOT (", m). cbv iota beta.
  destruct (write (print E (cond_expr x)) m) as [a m1]. change (write (Txt ")") m1) with (")", m1). cbv iota beta.
  cbn [op_word]. now rewrite !sapp_nil_r.
Qed.
Print Assumptions C19_negation_text.

Example C19_case : exists x z, makes mixed x /\ proper mixed = true /\ blank mixed = false /\ container_not ks0 x = Val z
  /\ text (print env0 (cond_expr z)) = "NOT ((a = 1 OR b = 1 AND (c = 1 OR d = 1)))".
Proof.
  eexists. eexists. split; [eapply (m_chain ks0); [eapply (m_chain ks0); [constructor|constructor|reflexivity]
      |eapply (m_chain ks0); [constructor|constructor|reflexivity]|reflexivity]|]. repeat split.
Qed.

(** ConditionsNot does the same for conditions that are not compound and for
    compound conditions to which nothing was added since they were created. *)
Theorem C19_conditions_not : forall ks c x, makes c x -> proper c = true -> blank c = false ->
  (match x with Comp _ _ cs n => length cs <= n | _ => True end) ->
  exists z z', conditions_not ks x = Val z /\ container_not ks x = Val z' /\ tokens z = tokens z' /\ get_error z = None.
Proof.
  intros ks c x H P B L. set (rho := fun _ : expr => @None bool). destruct (makes_val rho _ _ H P) as [S V].
  assert (N : val rho x <> None). { rewrite V. intros M. apply meaning_blank in M. congruence. }
  destruct S as [e|k kn c0 Sc Vc| |k o cs n Hcs].
  - do 2 eexists. repeat split.
  - do 2 eexists. repeat split.
  - now cbn in N.
  - do 2 eexists. split; [reflexivity|]. split; [reflexivity|]. split; [|reflexivity].
    cbn [embedded tokens]. now rewrite firstn_all2.
Qed.
Print Assumptions C19_conditions_not.

(** The negation of a.And(b).And(c).Get() forgets c; that of
    NoCondition().And(a).Get() forgets everything. *)
Theorem C19_conditions_not_refuted : exists ks c x z,
  makes c x /\ proper c = true /\ blank c = false /\ unmixed c = true
  /\ text (print env0 (cond_expr x)) = "(a = 1 AND b = 1 AND c = 1)"
  /\ conditions_not ks x = Val z /\ text (print env0 (cond_expr z)) = "NOT ((a = 1 AND b = 1))".
Proof.
  exists ks0, (Chain CAnd (Chain CAnd (Basic (atom "a")) (Basic (atom "b"))) (Basic (atom "c"))).
  eexists. eexists.
  split; [eapply (m_chain ks0); [eapply (m_chain ks0); [constructor|constructor|reflexivity]|constructor|reflexivity]|].
  repeat (split; [reflexivity|]). reflexivity.
Qed.
Print Assumptions C19_conditions_not_refuted.

Theorem C19_not_after_no_condition_refuted : exists ks c x z,
  makes c x /\ proper c = true /\ blank c = false
  /\ text (print env0 (cond_expr x)) = "a = 1"
  /\ conditions_not ks x = Val z /\ text (print env0 (cond_expr z)) = "NOT ()".
Proof.
  exists ks0, (Chain CAnd NoCondition (Basic (atom "a"))). eexists. eexists.
  split; [eapply (m_method ks0); [constructor|constructor|reflexivity]|].
  repeat (split; [reflexivity|]). reflexivity.
Qed.
Print Assumptions C19_not_after_no_condition_refuted.

(** AndPattern, OrPattern and XorPattern of a condition add the pattern as those of
    the container do, unless conditions were added since it was created. *)
Theorem C16_patterns_added : forall ks o c x p, makes c x -> proper c = true -> blank c = false ->
  (match x with Comp _ _ cs n => length cs <= n | _ => True end) ->
  exists z z', condition_pattern ks o x (Atom p) = Val z /\ container_pattern ks o x (Atom p) = Val z' /\ tokens z = tokens z' /\ get_error z = None.
Proof.
  intros ks o c x p H P B L. set (rho := fun _ : expr => @None bool). destruct (makes_val rho _ _ H P) as [S V].
  assert (N : val rho x <> None). { rewrite V. intros M. apply meaning_blank in M. congruence. }
  destruct S as [e|k kn c0 Sc Vc| |k o' cs n Hcs].
  - do 2 eexists. repeat split.
  - do 2 eexists. repeat split.
  - now cbn in N.
  - do 2 eexists. split; [reflexivity|]. split; [reflexivity|]. cbn [embedded]. rewrite firstn_all2 by exact L. split; [|reflexivity].
    unfold create. cbn [get_error tokens]. unfold added, add_conditions. cbn [compound_conditions has_op compound_op]. destruct cs as [|c1 cs]; [reflexivity|].
    destruct (bop_eqb o' o); cbn [andb]; [destruct (can_be_flattened o (c1 :: cs))|]; reflexivity.
Qed.
Print Assumptions C16_patterns_added.
Example C16_case_pattern : exists z, condition_pattern ks0 BOr (Atom (atom "a")) (Atom (atom "p")) = Val z /\ text (print env0 (cond_expr z)) = "(a = 1 OR p = 1)".
Proof. eexists. split; reflexivity. Qed.

(** a.And(b).And(c).Get().AndPattern(p) forgets c. *)
Theorem C16_pattern_after_more_refuted : exists ks c x z,
  makes c x /\ proper c = true /\ blank c = false /\ unmixed c = true
  /\ text (print env0 (cond_expr x)) = "(a = 1 AND b = 1 AND c = 1)"
  /\ condition_pattern ks BAnd x (Atom (atom "p")) = Val z /\ text (print env0 (cond_expr z)) = "(a = 1 AND b = 1 AND p = 1)".
Proof.
  exists ks0, (Chain CAnd (Chain CAnd (Basic (atom "a")) (Basic (atom "b"))) (Basic (atom "c"))).
  eexists. eexists.
  split; [eapply (m_chain ks0); [eapply (m_chain ks0); [constructor|constructor|reflexivity]|constructor|reflexivity]|].
  repeat (split; [reflexivity|]). reflexivity.
Qed.
Print Assumptions C16_pattern_after_more_refuted.

(** ** C20 *)

(** An error in the condition that is extended or negated is an error of the result. *)
Theorem C20_receiver_error_kept : forall ks o x y z e, get_error x = Some e ->
  container_chain ks o x y = Val z -> get_error z = Some e.
Proof.
  intros ks o x y z e X H. destruct x; try discriminate; cbn [container_chain] in H; inversion H; subst; clear H.
  - unfold create. rewrite X. reflexivity.
  - cbn [get_error] in X. inversion X; subst. unfold add. destruct (add_conditions (ks 3) false cs o y); [reflexivity|].
    unfold create. reflexivity.
Qed.
Print Assumptions C20_receiver_error_kept.

Theorem C20_negation_keeps_error : forall ks x z e, get_error x = Some e ->
  container_not ks x = Val z -> get_error z = Some e.
Proof. intros ks x z e X H. unfold container_not, comparison_not in H. rewrite X in H. inversion H. reflexivity. Qed.
Print Assumptions C20_negation_keeps_error.

Theorem C20_conditions_not_errors : forall ks x z, (x = Nil \/ exists e, get_error x = Some e) ->
  conditions_not ks x = Val z -> exists e, get_error z = Some e.
Proof.
  intros ks x z X H. destruct X as [->|[e X]].
  - inversion H. cbn. eauto.
  - destruct x; try discriminate; inversion H; cbn; eauto.
Qed.
Print Assumptions C20_conditions_not_errors.

(** An error in the condition added, or a nil one, is an error of the result if
    the receiver is not compound, or it is compound with another operator and
    the condition added is not compound.  It is the error of the receiver,
    or else that of the condition added. *)
Theorem C20_operand_error_reported : forall ks o x y z,
  (exists e, get_error y = Some e) \/ y = Nil ->
  (compound_conditions x = None /\ x <> Nil) \/ (compound_op x <> Some o /\ x <> Empty /\ compound_conditions x <> None /\ compound_conditions y = None) ->
  container_chain ks o x y = Val z ->
  exists e, get_error z = Some e
         /\ (forall e', get_error x = Some e' -> e = e')
         /\ (forall e', get_error x = None -> get_error y = Some e' -> e = e').
Proof.
  intros ks o x y z Y X H.
  assert (C : x <> Nil -> exists e, get_error (create ks x o y) = Some e
                                 /\ (forall e', get_error x = Some e' -> e = e')
                                 /\ (forall e', get_error x = None -> get_error y = Some e' -> e = e')).
  { intros Nx. unfold create. destruct (get_error x) as [ex|] eqn:Ex.
    - exists ex. cbn. split; [reflexivity|]. split; intros e' H'; congruence.
    - destruct Y as [[e Y]| ->].
      + rewrite Y. exists e. cbn. split; [reflexivity|]. split; intros e' H'; congruence.
      + cbn [get_error]. destruct x; try congruence; cbn; eexists; (split; [reflexivity|]); split; intros e' H'; congruence. }
  destruct X as [[X N]|[X [N [Cx Y']]]].
  - destruct x; try discriminate; try congruence; cbn [container_chain] in H; inversion H; subst; now apply C.
  - destruct x; cbn in Cx; try congruence; cbn [container_chain] in H; inversion H; subst; clear H.
    + cbn in X. assert (Eo : bop_eqb o0 o = false) by (destruct (bop_eqb o0 o) eqn:E; [apply bop_eqb_eq in E; congruence|reflexivity]).
      unfold add, add_conditions. rewrite Eo, Y'. apply C. discriminate.
    + unfold add, add_conditions. rewrite Y'. apply C. discriminate.
Qed.
Print Assumptions C20_operand_error_reported.

Example C20_case : container_chain ks0 BOr (Comp "c" BAnd [Atom (atom "a"); Atom (atom "b")] 2) (Bad "expression is nil")
  = Val (CompErr "expression is nil" []).
Proof. reflexivity. Qed.

(** Exactly: the result carries an error if and only if the receiver does, or
    the condition added does (or is nil) and stands in one of these places. *)
Theorem C20_exactly : forall ks o x y z, container_chain ks o x y = Val z ->
  ((exists e, get_error z = Some e) <->
   (exists e, get_error x = Some e)
   \/ (((exists e, get_error y = Some e) \/ y = Nil)
       /\ (compound_conditions x = None \/ (compound_op x <> Some o /\ x <> Empty /\ compound_conditions y = None)))).
Proof.
  intros ks o x y z H.
  assert (C : forall e, x <> Nil -> get_error x = None -> get_error (create ks x o y) = Some e -> (exists e, get_error y = Some e) \/ y = Nil).
  { intros e N X G. unfold create in G. rewrite X in G. destruct (get_error y) eqn:Y; [eauto|]. destruct x, y; try congruence; try (now right); cbn in G; discriminate. }
  split.
  - intros [e Z]. destruct (get_error x) as [e'|] eqn:X; [left; eauto|]. right.
    destruct x; try discriminate; cbn [container_chain] in H; inversion H; subst; clear H; try (split; [apply (C e); [discriminate|reflexivity|exact Z]|now left]).
    + cbn [add get_error] in Z. discriminate.
    + unfold add in Z. destruct (add_conditions (ks 3) (bop_eqb o0 o) cs o y) as [cs'|] eqn:A; [discriminate|]. split; [apply (C e); [discriminate|reflexivity|exact Z]|]. right.
      unfold add_conditions in A. destruct (compound_conditions y) as [[|]|] eqn:Y; [discriminate| |].
      * destruct (bop_eqb o0 o && has_op o y); [destruct (can_be_flattened o (c :: l))|]; discriminate.
      * destruct (bop_eqb o0 o) eqn:B; [discriminate|]. split; [|split; [discriminate|reflexivity]]. cbn. intros Q. injection Q as ->. now rewrite bop_eqb_refl in B.
  - intros [[e X]|[Y X]]; [exists e; exact (C20_receiver_error_kept _ _ _ _ _ _ X H)|].
    destruct (get_error x) as [e|] eqn:Ex; [exists e; exact (C20_receiver_error_kept _ _ _ _ _ _ Ex H)|].
    destruct (C20_operand_error_reported ks o x y z Y) as (e & Z & _); [|exact H|eauto].
    destruct X as [X|(X1 & X2 & X3)].
    + left. split; [exact X|]. intros ->. discriminate.
    + destruct (compound_conditions x) eqn:Cx; [right; repeat split; auto; congruence|left; split; [reflexivity|]; intros ->; discriminate].
Qed.
Print Assumptions C20_exactly.

(** In the other cases it is lost: a.And(b).And(x) where x carries an error has
    no error.  A compound x is dropped, another one is kept as a part. *)
Theorem C20_operand_error_refuted : exists ks x bad1 bad2 z1 z2,
  makes (Chain CAnd (Basic (atom "a")) (Basic (atom "b"))) x
  /\ get_error bad1 = Some "boom" /\ container_chain ks BAnd x bad1 = Val z1 /\ get_error z1 = None
  /\ text (print env0 (cond_expr z1)) = "(a = 1 AND b = 1)"
  /\ get_error bad2 = Some "boom" /\ container_chain ks BAnd x bad2 = Val z2 /\ get_error z2 = None
  /\ build_condition z1 <> None /\ build_condition z2 <> None.
Proof.
  exists ks0. eexists. exists (CompErr "boom" []), (Bad "boom"). eexists. eexists.
  split; [eapply (m_chain ks0); [constructor|constructor|reflexivity]|].
  repeat (split; [reflexivity|]). split; discriminate.
Qed.
Print Assumptions C20_operand_error_refuted.

(** A condition with an error cannot be extended by its own methods unless it is
    compound: And, Or and Xor panic. *)
Theorem C20_method_of_error_panics : forall ks o e y, condition_chain ks o (Bad e) y = Panic.
Proof. reflexivity. Qed.
