(** C16: exactly which conditions keep their meaning. *)

From Coq Require Import Ascii String List ZArith Bool Lia.
From Verif Require Import GoStr Escape Num VTree Ast SpecDoc SpecPrint DocProofs EscapeProofs SpecCond SpecOrder Cond CondProofs CondExact PropertiesText PropertiesCond.
Import ListNotations.
Open Scope string_scope.
Open Scope list_scope.

(** All chains of calls on basic conditions that are told apart by some name:
    the text is read with the truth value of the calls, whatever the values of
    the basic conditions, if and only if in every pair of parentheses the
    operators come from the strongest to the weakest. *)
Theorem C16_exactly_ordered_operators : forall E c x m (name : expr -> string),
  makes c x -> proper c = true -> blank c = false -> NoDup (map name (operands c)) ->
  Forall (operand_ok E) (operands c) -> introduced m = [] ->
  exists ts, write (print E (cond_expr x)) m = write (Cat (map (token_doc (print E)) ts)) m
          /\ ((forall rho, exists v, meaning rho c = Some v /\ reads rho 0 ts v) <-> strongest_first ts).
Proof.
  intros E c x m name H P B D O I. exists (tokens x). split.
  { rewrite write_Cat. apply tokens_text with (fun _ => None); [now apply makes_val with c| |assumption].
    apply tokens_over. now apply makes_over with c. }
  assert (SV : forall rho, sound rho x /\ val rho x = meaning rho c) by (intros rho; now apply makes_val).
  assert (S : forall rho, sound rho x) by (intros rho; apply SV).
  assert (V : forall rho, exists v, val rho x = Some v).
  { intros rho. destruct (SV rho) as [_ ->]. destruct (meaning rho c) as [v|] eqn:Mv; [eauto|apply meaning_blank in Mv; congruence]. }
  assert (Q : strongest_first (tokens x) <-> tight x).
  { unfold strongest_first. rewrite <- (app_nil_r (tokens x)). rewrite (tokens_in_order x S). cbn. tauto. }
  rewrite Q. clear Q. split.
  - intros Q. rewrite <- (makes_atoms c x H P) in D.
    destruct (tight_or_misread name x S V D) as [T|(b & g & Hv & Hr)]; [exact T|].
    destruct (Q (fun e => g (name e))) as (v & Mv & R). destruct (SV (fun e => g (name e))) as [_ W]. rewrite Hv, Mv in W. injection W as <-.
    exfalso. assert (R' : reads (fun e => g (name e)) 0 (tokens x) (Some (negb b))) by (apply reads_weaken with 3; [exact Hr|lia|lia]).
    pose proof (C16_reading_unique _ _ _ _ _ R R') as X. destruct b; discriminate.
  - intros T rho. destruct (V rho) as [v W]. exists v. destruct (SV rho) as [S' <-]. split; [exact W|]. apply reads_weaken with 3; [|lia|lia]. now apply tight_reads.
Qed.
Print Assumptions C16_exactly_ordered_operators.

(** ** The hypotheses are met, on both sides *)

Definition atom_key (e : expr) : string := match e with EComparison k _ _ _ => k | _ => "" end.

(** a.Or(b).And(c).Xor(Not(d.Or(e))) keeps its meaning. *)
Example C16_ordered_case : exists x, makes chain1 x /\ proper chain1 = true /\ blank chain1 = false
  /\ NoDup (map atom_key (operands chain1)) /\ Forall (operand_ok env0) (operands chain1)
  /\ text (print env0 (cond_expr x)) = "(((a = 1 OR b = 1) AND c = 1) XOR NOT ((d = 1 OR e = 1)))"
  /\ tokens x = TL :: TL :: TL :: TAtom (atom "a") :: TOp COr :: TAtom (atom "b") :: TR :: TOp CAnd :: TAtom (atom "c") :: TR :: TOp CXor
       :: TNot :: TL :: TL :: TAtom (atom "d") :: TOp COr :: TAtom (atom "e") :: TR :: TR :: TR :: []
  /\ strongest_first (tokens x).
Proof.
  eexists. split.
  { eapply (m_chain ks0).
    + eapply (m_chain ks0); [eapply (m_chain ks0); [constructor|constructor|reflexivity]|constructor|reflexivity].
    + eapply (m_not ks0); [|reflexivity]. eapply (m_chain ks0); [constructor|constructor|reflexivity].
    + reflexivity. }
  split; [reflexivity|]. split; [reflexivity|]. split; [|split; [repeat constructor|split; [reflexivity|split; [reflexivity|cbn; lia]]]].
  cbn. repeat constructor; cbn; intuition discriminate.
Qed.

(** a.Or(b).And(c.Or(d)) does not: OR stands in front of AND. *)
Example C16_not_ordered_case : exists x, makes mixed x /\ proper mixed = true /\ blank mixed = false
  /\ NoDup (map atom_key (operands mixed)) /\ Forall (operand_ok env0) (operands mixed)
  /\ text (print env0 (cond_expr x)) = "(a = 1 OR b = 1 AND (c = 1 OR d = 1))"
  /\ ~ strongest_first (tokens x).
Proof.
  eexists. split.
  { eapply (m_chain ks0); [eapply (m_chain ks0); [constructor|constructor|reflexivity]
      |eapply (m_chain ks0); [constructor|constructor|reflexivity]|reflexivity]. }
  split; [reflexivity|]. split; [reflexivity|]. split; [|split; [repeat constructor|split; [reflexivity|]]].
  - cbn. repeat constructor; cbn; intuition discriminate.
  - unfold strongest_first. cbn. lia.
Qed.

(** Neither does a.Or(b).Xor(c.And(d)): OR stands in front of XOR. *)
Example C16_not_ordered_case_2 : exists x, makes (Chain CXor (Chain COr (Basic (atom "a")) (Basic (atom "b"))) (Chain CAnd (Basic (atom "c")) (Basic (atom "d")))) x
  /\ text (print env0 (cond_expr x)) = "(a = 1 OR b = 1 XOR (c = 1 AND d = 1))" /\ ~ strongest_first (tokens x).
Proof.
  eexists. split.
  { eapply (m_chain ks0); [eapply (m_chain ks0); [constructor|constructor|reflexivity]
      |eapply (m_chain ks0); [constructor|constructor|reflexivity]|reflexivity]. }
  split; [reflexivity|]. unfold strongest_first. cbn. lia.
Qed.
