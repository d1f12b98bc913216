(** The visit tree of a statement writes the document of the specification. *)

From Coq Require Import Ascii String List ZArith Bool Lia.
From Verif Require Import GoStr Escape Num VTree WellKeyed EscapeProofs VTreeProofs VTreeSim Ast SpecDoc SpecPrint DocProofs.
Import ListNotations.
Open Scope string_scope.

(** ** Induction on expressions *)

Lemma expr_ind' : forall P : expr -> Prop, (forall e, Forall P (children e) -> P e) -> forall e, P e.
Proof.
  intros P H. fix IH 1. intros e. apply H.
  assert (L : forall l, Forall P l -> Forall P l) by auto.
  destruct e; cbn [children opt_list];
    repeat match goal with
    | |- Forall P [] => constructor
    | |- Forall P (?x :: _) => constructor; [apply IH|]
    | |- Forall P (opt_list ?o ++ _) => destruct o; cbn [opt_list app]
    | |- Forall P (opt_list ?o) => destruct o; cbn [opt_list]
    | |- Forall P (match ?o with Some x => [snd x] | None => [] end) => destruct o as [[? ?]|]; cbn [snd]
    | |- Forall P (flat_map _ ?l ++ _) => apply Forall_app; split
    | |- Forall P (flat_map _ ?l) => induction l as [|p l IHl]; cbn [flat_map app]; [constructor|]
    | p : (_ * _)%type |- _ => destruct p; cbn [fst snd]
    | IHl : Forall P (flat_map _ ?l) |- Forall P (flat_map _ ?l) => exact IHl
    | |- Forall P ?l => induction l as [|y l IHl]; [constructor|constructor; [apply IH|exact IHl]]
    end.
Qed.

(** ** Operators and small parts *)

Lemma op_text_word : forall o, op_text o = op_word o.
Proof. destruct o; reflexivity. Qed.
Lemma grouping_parens : forall o, needs_grouping o = in_parens o.
Proof. destruct o; reflexivity. Qed.

Lemma write_Txt : forall s m, write (Txt s) m = (s, m).
Proof. reflexivity. Qed.
Lemma intro_Txt : forall s m, introduce_all (Txt s) m = m.
Proof. reflexivity. Qed.
Lemma intro_Shared : forall k d m, introduce_all (Shared k d) m = introduce_all d m.
Proof. reflexivity. Qed.

(** Equality of documents built from the same parts. *)
Ltac deq_solve :=
  let m := fresh "m" in
  intros m; split;
  [ repeat match goal with
           | |- context [write (Txt ?s) ?m] => change (write (Txt s) m) with (s, m); cbv beta iota
           | |- context [write (Cat ?l) ?m] => rewrite (write_Cat l m)
           | |- context [wcat [] ?m] => change (wcat [] m) with ("", m); cbv beta iota
           | |- context [wcat (?d :: ?l) ?m] =>
               change (wcat (d :: l) m) with (let (x, m1) := write d m in let (y, m2) := wcat l m1 in (x ++ y, m2))
           | |- context [wcat (?a ++ ?b) ?m] => rewrite (wcat_app a b m)
           | |- context [let (_, _) := write ?d ?m in _] => destruct (write d m) as [? ?]
           | |- context [let (_, _) := wcat ?d ?m in _] => destruct (wcat d m) as [? ?]
           end;
    rewrite ?sapp_assoc, ?sapp_nil_r; cbn [append]; rewrite ?sapp_nil_r; reflexivity
  | repeat (rewrite ?intro_Cat, ?intros_app; cbn [intros_l app]; rewrite ?intro_Txt); reflexivity ].

Lemma item_leaf : forall als k s, item als (leaf k s) (Shared k (Txt s)).
Proof.
  intros als k s. unfold leaf. eapply item_deq; [|apply item_el, seq_nil].
  apply deq_shared. cbn [app]. deq_solve.
Qed.
Lemma item_op : forall als E o, item als (op_vt E o) (print_op E o).
Proof. intros. unfold op_vt, print_op. rewrite op_text_word. apply item_leaf. Qed.
Lemma item_label : forall als l, item als (label_vt l) (print_label l).
Proof. intros. apply item_leaf. Qed.

(** ** Expressions *)

Definition good (E : env) (als : list alias) (e : expr) : Prop :=
  if silent e
  then mute (to_vt E e) /\ (forall m, write (print E e) m = ("", m) /\ introduce_all (print E e) m = m)
  else item als (to_vt E e) (print E e).

Lemma seq_good : forall E als e ts ds, good E als e -> seq als ts ds ->
  seq als (to_vt E e :: ts) (print E e :: ds).
Proof.
  intros E als e ts ds H G. unfold good in H. destruct (silent e).
  - destruct H. now apply seq_mute.
  - now apply seq_cons.
Qed.
Lemma seq_label : forall als ls ts ds, seq als ts ds ->
  seq als (map label_vt ls ++ ts) (map print_label ls ++ ds).
Proof.
  intros als ls ts ds H. induction ls as [|l ls IH]; [exact H|]. cbn [map app]. apply seq_cons; [apply item_label|exact IH].
Qed.
Lemma seq_labels : forall als ls, seq als (map label_vt ls) (map print_label ls).
Proof.
  intros als ls. pose proof (seq_label als ls [] [] (seq_nil als)) as H. now rewrite !app_nil_r in H.
Qed.

Lemma seq_opt : forall E als (o : option expr) ts ds, Forall (good E als) (opt_list o) -> seq als ts ds ->
  seq als (opt (to_vt E) o ++ ts) (maybe (option_map (print E) o) ++ ds).
Proof.
  intros E als [e|] ts ds H G; [|exact G]. cbn. apply seq_good; [now inversion H|exact G].
Qed.
Lemma seq_opt_last : forall E als (o : option expr), Forall (good E als) (opt_list o) ->
  seq als (opt (to_vt E) o) (maybe (option_map (print E) o)).
Proof.
  intros E als o H. pose proof (seq_opt E als o [] [] H (seq_nil als)) as G. now rewrite !app_nil_r in G.
Qed.

Definition shown (E : env) (es : list expr) : list doc := flat_map (fun e => if silent e then [] else [print E e]) es.

Lemma rest_listing : forall E als es, Forall (good E als) es -> rest als (map (to_vt E) es) (shown E es).
Proof.
  intros E als es H. induction H as [|e es He Hes IH]; [apply rest_nil|].
  unfold shown. cbn [map flat_map]. unfold good in He. destruct (silent e); cbn [app].
  - now apply rest_mute.
  - now apply rest_cons.
Qed.
Lemma commas_listing : forall E als es, Forall (good E als) es -> commas als (map (to_vt E) es) (shown E es).
Proof.
  intros E als es H. induction H as [|e es He Hes IH]; [apply commas_nil|].
  unfold shown. cbn [map flat_map]. unfold good in He. destruct (silent e); cbn [app].
  - now apply commas_mute.
  - apply commas_cons; [assumption|]. now apply rest_listing.
Qed.

Lemma item_sub_listing : forall E als k b a es, Forall (good E als) es ->
  item als (sub k b a (map (to_vt E) es)) (Shared k (Cat [Txt b; listing (print E) es; Txt a])).
Proof. intros. apply item_sub. now apply commas_listing. Qed.

Lemma seq_literals : forall E als es, Forall (good E als) es ->
  exists ds, seq als (literal_items (map (to_vt E) es)) ds
             /\ deq (Cat ds) (literals (map (print E) es)).
Proof.
  intros E als es H. destruct H as [|e es He Hes].
  - exists []. split; [apply seq_nil|]. cbn. deq_solve.
  - exists (print E e :: flat_map (fun x => [Txt ", "; x]) (map (print E) es)). split; [|apply deq_refl].
    cbn [map literal_items]. apply seq_good; [assumption|].
    induction Hes as [|x es Hx Hes IH]; [apply seq_nil|]. cbn [map flat_map app].
    apply seq_txt. now apply seq_good.
Qed.

Lemma seq_ops : forall E als (f : expr -> op) es, Forall (good E als) es ->
  seq als (flat_map (fun d => [op_vt E (f d); to_vt E d]) es) (flat_map (fun d => [print_op E (f d); print E d]) es).
Proof.
  intros E als f es H. induction H as [|x es Hx Hes IH]; [apply seq_nil|]. cbn [flat_map app].
  apply seq_cons; [apply item_op|]. now apply seq_good.
Qed.

Lemma seq_pairs : forall E als (l : list (expr * expr)),
  Forall (good E als) (flat_map (fun p => [fst p; snd p]) l) ->
  seq als (flat_map (fun p => [to_vt E (fst p); to_vt E (snd p)]) l)
          (flat_map (fun p => [print E (fst p); print E (snd p)]) l).
Proof.
  intros E als l H. induction l as [|p l IH]; [apply seq_nil|]. cbn [flat_map app] in *.
  inversion H as [|? ? H1 H2]; subst. inversion H2 as [|? ? H3 H4]; subst.
  apply seq_good; [assumption|]. apply seq_good; [assumption|]. auto.
Qed.

Lemma item_good : forall E als e b a k, good E als e ->
  item als (el k b a [to_vt E e]) (Shared k (Cat [Txt b; print E e; Txt a])).
Proof.
  intros E als e b a k H. unfold el.
  apply (item_el als k b a [to_vt E e] [print E e]). apply seq_good; [assumption|apply seq_nil].
Qed.

Lemma seq_branches : forall E als (l : list (key * expr * expr)),
  Forall (good E als) (flat_map (fun p => [snd (fst p); snd p]) l) ->
  seq als (flat_map (fun b => [el (fst (fst b)) " WHEN " " THEN " [to_vt E (snd (fst b))]; to_vt E (snd b)]) l)
          (flat_map (fun b => [Shared (fst (fst b)) (Cat [Txt " WHEN "; print E (snd (fst b)); Txt " THEN "]);
                               print E (snd b)]) l).
Proof.
  intros E als l H. induction l as [|p l IH]; [apply seq_nil|]. cbn [flat_map app] in *.
  inversion H as [|? ? H1 H2]; subst. inversion H2 as [|? ? H3 H4]; subst.
  apply seq_cons; [now apply item_good|]. apply seq_good; [assumption|]. auto.
Qed.

Ltac split_children :=
  repeat match goal with
  | H : Forall _ (_ :: _) |- _ => inversion H; subst; clear H
  | H : Forall _ (_ ++ _) |- _ => apply Forall_app in H; destruct H
  | H : Forall _ [] |- _ => clear H
  end.

Ltac seq_tac :=
  repeat first
  [ apply seq_nil
  | apply seq_good; [assumption|]
  | apply seq_cons; [apply item_op|]
  | apply seq_opt; [assumption|]
  | apply seq_opt_last; assumption
  | apply seq_label
  | apply seq_labels
  | apply seq_app
  | apply seq_cons; [apply item_leaf|]
  | apply seq_ops; assumption
  | apply seq_pairs; assumption
  | apply seq_branches; assumption ].

Theorem print_good : forall E als e, good E als e.
Proof.
  intros E als. apply expr_ind'. intros e H.
  destruct e; cbn [children] in H; split_children; unfold good; cbn [silent];
    try (cbn [to_vt print]; apply item_leaf);
    try (cbn [to_vt print]; unfold el; eapply item_deq; [|apply item_el; seq_tac]; apply deq_shared; cbn [app]; deq_solve).
  - (* list literal *)
    destruct (seq_literals E als items H) as [ds [S D]]. cbn [to_vt print]. unfold el.
    eapply item_deq; [|apply item_el; exact S]. apply deq_shared.
    apply deq_cat_cons; [apply deq_refl|].
    eapply deq_trans; [apply deq_sym, (deq_nested [] ds [Txt "]"])|]. cbn [app].
    apply deq_cat_cons; [exact D|apply deq_refl].
  - (* operation *)
    cbn [to_vt print]. rewrite grouping_parens. unfold el. eapply item_deq; [|apply item_el; seq_tac].
    apply deq_shared. cbn [app]. destruct (in_parens o); deq_solve.
  - (* compound condition *)
    destruct cs as [|c [|c2 cs]]; split_children.
    + split; [split; [reflexivity|reflexivity]|]. intros m. split; reflexivity.
    + cbn [to_vt print]. destruct (silent c) eqn:Sc; unfold good in H2; rewrite Sc in H2.
      * destruct H2. split; [now apply mute_B|assumption].
      * now apply item_B.
    + change (to_vt E (ECompound k o (c :: c2 :: cs))) with
        (el k "(" ")" (to_vt E c :: flat_map (fun d => [op_vt E (match d with ECompound _ o' _ => o' | _ => o end); to_vt E d]) (c2 :: cs))).
      change (print E (ECompound k o (c :: c2 :: cs))) with
        (Shared k (Cat [Txt "("; print E c;
                         Cat (flat_map (fun d => [print_op E (match d with ECompound _ o' _ => o' | _ => o end);
                                                  print E d]) (c2 :: cs));
                         Txt ")"])).
      unfold el. eapply item_deq; [|apply item_el; apply seq_good; [assumption|];
        apply (seq_ops E als (fun d => match d with ECompound _ o' _ => o' | _ => o end)); now constructor].
      apply deq_shared. cbn [app].
      match goal with |- deq (Cat (Txt "(" :: print E c :: ?f ++ _)) _ => generalize f end. intros f. deq_solve.
  - (* boolean function *)
    cbn [to_vt print]. unfold good in H2. destruct (silent e).
    + destruct H2. split; [now apply mute_B|assumption].
    + now apply item_B.
  - (* function invocation *)
    cbn [to_vt print]. unfold el. eapply item_deq; [|apply item_el; apply seq_cons; [now apply item_sub_listing|apply seq_nil]].
    apply deq_shared. cbn [app].
    assert (D : deq (Shared ka (Cat [Txt ""; listing (print E) args; Txt ""])) (Shared ka (listing (print E) args))).
    { apply deq_shared. generalize (listing (print E) args). intros d. eapply deq_trans; [|apply deq_one]. deq_solve. }
    eapply deq_trans.
    { apply deq_cat_cons; [apply deq_refl|]. apply deq_cat_cons; [exact D|apply deq_refl]. }
    deq_solve.
  - (* arguments *)
    cbn [to_vt print]. now apply item_sub_listing.
  - (* alias *)
    cbn [to_vt print]. apply item_alias. apply seq_good; [assumption|apply seq_nil].
  - cbn [to_vt print]. now apply item_sub_listing.
  - cbn [to_vt print]. eapply item_deq; [|now apply item_sub_listing].
    apply deq_shared. generalize (listing (print E) items). intros d. eapply deq_trans; [|apply deq_one]. deq_solve.
  - (* list operator *)
    cbn [to_vt print]. unfold el at 1. eapply item_deq.
    2:{ apply item_el. apply seq_good; [assumption|]. apply seq_cons; [|apply seq_nil].
        apply item_el. apply seq_opt; [assumption|]. apply seq_app; [|apply seq_opt_last; assumption].
        instantiate (1 := if dots then [Shared (e_dotkey E) (Txt "..")] else []).
        destruct dots; seq_tac. }
    apply deq_shared. cbn [app].
    eapply deq_trans.
    { apply deq_cat_cons; [apply deq_refl|]. apply deq_cat_cons; [apply deq_refl|].
      apply deq_cat_cons; [|apply deq_refl]. apply deq_shared.
      instantiate (1 := Cat (Txt "[" :: maybe (option_map (print E) start)
                                     ++ (if dots then [Shared (e_dotkey E) (Txt "..")] else [])
                                     ++ maybe (option_map (print E) stop) ++ [Txt "]"])).
      rewrite <- !app_assoc. apply deq_refl. }
    deq_solve.
  - (* list comprehension *)
    cbn [to_vt print]. unfold el. eapply item_deq.
    2:{ apply item_el. seq_tac.
        instantiate (1 := match def with Some d => [print_op E Pipe; print E d] | None => [] end).
        destruct def; cbn [opt_list] in *; split_children; seq_tac. }
    apply deq_shared. cbn [app]. rewrite <- !app_assoc. apply deq_refl.
  - (* existential subquery *)
    cbn [to_vt print]. unfold el at 1. eapply item_deq.
    2:{ apply item_el. apply seq_cons; [|apply seq_nil]. apply item_el. seq_tac. }
    apply deq_shared. cbn [app]. destruct optional; cbn [append]; apply deq_refl.
  - (* node *)
    cbn [to_vt print]. destruct name as [[kn x]|]; cbn [option_map snd].
    + eapply item_deq; [|apply item_node; cbn [opt fst snd]; seq_tac].
      apply deq_shared, deq_once. cbn [app]. apply deq_refl.
    + eapply item_deq; [|apply item_anon; cbn [opt app]; seq_tac].
      apply deq_refl.
  - (* details *)
    cbn [to_vt print]. unfold el. eapply item_deq.
    2:{ apply item_el. seq_tac.
        - instantiate (1 := match types with Some (kt, v) => [Shared kt (Txt (rel_types_text v))] | None => [] end).
          destruct types as [[kt v]|]; cbn [opt fst snd]; seq_tac.
        - instantiate (1 := match len with Some (kl, u, lo, hi) => [Shared kl (Txt (rel_length_text u lo hi))] | None => [] end).
          destruct len as [[[[kl u] lo] hi]|]; cbn [opt]; seq_tac. }
    apply deq_shared.
    destruct d; destruct name, types as [[? ?]|], len as [[[[? ?] ?] ?]|], props;
      cbn [option_map maybe app has_content is_some orb arrow_left arrow_right append]; deq_solve.
  - (* case *)
    cbn [to_vt print]. unfold el at 1. eapply item_deq.
    2:{ apply item_el. seq_tac.
        instantiate (1 := match default with Some x => [Shared (fst x) (Cat [Txt " ELSE "; print E (snd x)])] | None => [] end).
        destruct default as [[kd x]|]; cbn [opt fst snd] in *; split_children; [|seq_tac].
        apply seq_cons; [|apply seq_nil]. eapply item_deq; [|now apply item_good]. apply deq_shared. deq_solve. }
    apply deq_shared. cbn [app]. rewrite <- !app_assoc. apply deq_refl.
  - cbn [to_vt print]. eapply item_deq; [|now apply item_sub_listing].
    apply deq_shared. generalize (listing (print E) items). intros d. eapply deq_trans; [|apply deq_one]. deq_solve.
  - cbn [to_vt print]. eapply item_deq; [|now apply item_sub_listing].
    apply deq_shared. generalize (listing (print E) items). intros d. deq_solve.
  - (* sort item *)
    cbn [to_vt print]. unfold el. eapply item_deq.
    2:{ apply item_el. apply seq_good; [assumption|].
        instantiate (1 := match desc with Some d => [Shared "" (Txt (if d then " DESC" else " ASC"))] | None => [] end).
        destruct desc; seq_tac. }
    apply deq_shared. destruct desc; cbn [app]; deq_solve.
  - cbn [to_vt print]. eapply item_deq; [|now apply item_sub_listing].
    apply deq_shared. generalize (listing (print E) items). intros d. deq_solve.
Qed.

(** ** Clauses and statements *)

Fixpoint query_ind' (P : query -> Prop)
  (HMatch : forall k o p w, P (QMatch k o p w)) (HCreate : forall k p, P (QCreate k p))
  (HMerge : forall k p evs, Forall P evs -> P (QMerge k p evs)) (HBlank : forall k, P (QBlank k))
  (HAction : forall k c s, P s -> P (QAction k c s)) (HDelete : forall k d e, P (QDelete k d e))
  (HSet : forall k e, P (QSet k e)) (HRemove : forall k e, P (QRemove k e))
  (HUnwind : forall k e v, P (QUnwind k e v)) (HWith : forall k d b w, P (QWith k d b w))
  (HReturn : forall k d b, P (QReturn k d b)) (HCall : forall k kn sp n a y w, P (QCall k kn sp n a y w))
  (HSub : forall k q, P q -> P (QSubquery k q))
  (HSingle : forall cs r, Forall P cs -> (forall q, r = Some q -> P q) -> P (QSingle cs r))
  (HMulti : forall ps r, Forall (fun p : key * list query * query => Forall P (snd (fst p)) /\ P (snd p)) ps -> P r ->
                         P (QMulti ps r))
  (HUnion : forall k q qs, P q -> Forall (fun p : key * bool * query => P (snd p)) qs -> P (QUnion k q qs))
  (q : query) : P q.
Proof.
  pose (IH := query_ind' P HMatch HCreate HMerge HBlank HAction HDelete HSet HRemove HUnwind HWith HReturn HCall HSub
                HSingle HMulti HUnion).
  assert (L : forall l : list query, (fix go l := match l with [] => True | x :: l' => P x /\ go l' end) l -> Forall P l).
  { induction l as [|x l IHl]; intros H; [constructor|]. destruct H. constructor; auto. }
  destruct q.
  - apply HMatch.
  - apply HCreate.
  - apply HMerge. induction events as [|x l IHl]; constructor; [apply IH|exact IHl].
  - apply HBlank.
  - apply HAction, IH.
  - apply HDelete.
  - apply HSet.
  - apply HRemove.
  - apply HUnwind.
  - apply HWith.
  - apply HReturn.
  - apply HCall.
  - apply HSub, IH.
  - apply HSingle.
    + induction clauses as [|x l IHl]; constructor; [apply IH|exact IHl].
    + intros q E. destruct ret as [q'|]; [|discriminate]. injection E as <-. apply IH.
  - apply HMulti; [|apply IH].
    induction parts as [|[[kk cs] w] l IHl]; constructor; [|exact IHl]. cbn [fst snd]. split; [|apply IH].
    induction cs as [|x cs IHc]; constructor; [apply IH|exact IHc].
  - apply HUnion; [apply IH|].
    induction more as [|[[kk a] x] l IHl]; constructor; [apply IH|exact IHl].
Defined.

Definition goodq (E : env) (als : list alias) (q : query) : Prop := seq als [to_vtq E q] [print_query E q].

Lemma seq_deq : forall als ts ds ds', deq (Cat ds) (Cat ds') -> seq als ts ds -> seq als ts ds'.
Proof.
  intros als ts ds ds' D [A B]. split.
  - intros s. destruct (D (mem s)) as [_ D2]. rewrite !intro_Cat in D2. rewrite <- D2. apply A.
  - intros Q I s M. destruct (B Q I s M) as [s' [P1 P2]]. exists s'.
    destruct (D (mem s)) as [D1 _]. rewrite !write_Cat in D1. rewrite <- D1. split; assumption.
Qed.

Lemma seq_B : forall als ts ds, seq als ts ds -> seq als [B ts] [Cat ds].
Proof.
  intros als ts ds [A G]. split.
  - intros s. specialize (A s). cbn [intros_l]. rewrite intro_Cat. rewrite A. reflexivity.
  - intros Q I s M. cbn [quiet_l] in Q. rewrite quiet_B, andb_true_r in Q. cbn [aliases_l] in I.
    rewrite aliases_B, app_nil_r in I. destruct (G Q I s M) as [s' [P1 P2]]. exists s'.
    cbn [pps]. rewrite pp_B, P1. cbn [wcat]. rewrite write_Cat. 
    destruct (wcat ds (mem s)) as [x m]. cbn [fst snd] in *. rewrite sapp_nil_r. split; [reflexivity|exact P2].
Qed.

Lemma seq_q : forall E als q ts ds, goodq E als q -> seq als ts ds ->
  seq als (to_vtq E q :: ts) (print_query E q :: ds).
Proof. intros E als q ts ds H G. exact (seq_app als _ _ _ _ H G). Qed.
Lemma seq_qs : forall E als qs ts ds, Forall (goodq E als) qs -> seq als ts ds ->
  seq als (map (to_vtq E) qs ++ ts) (map (print_query E) qs ++ ds).
Proof. intros E als qs ts ds H G. induction H; [exact G|]. cbn [map app]. now apply seq_q. Qed.
Lemma seq_e : forall E als e ts ds, seq als ts ds -> seq als (to_vt E e :: ts) (print E e :: ds).
Proof. intros. apply seq_good; [apply print_good|assumption]. Qed.
Lemma seq_o : forall E als (o : option expr) ts ds, seq als ts ds ->
  seq als (opt (to_vt E) o ++ ts) (maybe (option_map (print E) o) ++ ds).
Proof. intros. apply seq_opt; [|assumption]. destruct o; repeat constructor. apply print_good. Qed.
Lemma seq_o1 : forall E als (o : option expr), seq als (opt (to_vt E) o) (maybe (option_map (print E) o)).
Proof. intros. apply seq_opt_last. destruct o; repeat constructor. apply print_good. Qed.

(** A clause that writes [b], its parts and [a]. *)
Lemma goodq_el : forall E als q k b a kids ds, to_vtq E q = el k b a kids ->
  print_query E q = Shared k (Cat (Txt b :: ds ++ [Txt a])) -> seq als kids ds -> goodq E als q.
Proof.
  intros E als q k b a kids ds H1 H2 S. unfold goodq. rewrite H1, H2.
  apply seq_cons; [|apply seq_nil]. now apply item_el.
Qed.

Lemma seq_body : forall E als d b, seq als (distinct_vt d ++ [body_vt E b]) [print_body E d b].
Proof.
  intros E als d b. eapply seq_deq.
  2:{ apply seq_app.
      - instantiate (1 := if d then [Shared "DISTINCT_INSTANCE" (Txt "DISTINCT ")] else []).
        unfold distinct_vt. destruct d; [apply seq_cons; [apply item_leaf|]|]; apply seq_nil.
      - apply seq_B. apply seq_e, seq_o, seq_o, seq_o1. }
  unfold print_body. eapply deq_trans; [apply (deq_nested _ _ [])|]. rewrite app_nil_r.
  eapply deq_trans; [|apply deq_sym, (deq_nested [] _ [])]. cbn [app]. rewrite app_nil_r. apply deq_refl.
Qed.

Lemma goodq_item : forall E als q d, item als (to_vtq E q) d -> deq d (print_query E q) -> goodq E als q.
Proof. intros E als q d H D. unfold goodq. apply seq_cons; [|apply seq_nil]. eapply item_deq; eassumption. Qed.

Theorem print_goodq : forall E als q, goodq E als q.
Proof.
  intros E als. apply query_ind'; intros;
    try (eapply goodq_item; [cbn [to_vtq]; apply item_el|cbn [print_query]; apply deq_shared]).
  - apply seq_e, seq_o1.
  - destruct o; cbn [append]; rewrite <- ?app_assoc; apply deq_refl.
  - apply seq_e, seq_nil.
  - apply deq_refl.
  - apply seq_e. rewrite <- (app_nil_r (map _ evs)). apply seq_qs; [exact H|apply seq_nil].
  - rewrite app_nil_r. destruct evs; [deq_solve|]. rewrite app_nil_r. cbn [app].
    intros m. rewrite !write_Cat, !intro_Cat.
    rewrite !app_comm_cons, wcat_app, intros_app. cbn [wcat intros_l].
    change (write (Txt "MERGE ") m) with ("MERGE ", m). cbv beta iota.
    destruct (write (print E p) m) as [x m1].
    match goal with |- context [wcat ?l m1] => destruct (wcat l m1) as [y m2] end.
    change (write (Txt "") m2) with ("", m2). cbv beta iota. now rewrite !sapp_nil_r.
  - apply seq_nil.
  - deq_solve.
  - apply seq_q; [exact H|apply seq_nil].
  - deq_solve.
  - apply seq_e, seq_nil.
  - destruct d; apply deq_refl.
  - apply seq_e, seq_nil.
  - apply deq_refl.
  - apply seq_e, seq_nil.
  - apply deq_refl.
  - apply seq_e, seq_nil.
  - cbn [app]. deq_solve.
  - rewrite app_assoc. apply seq_app; [apply seq_body|apply seq_o1].
  - apply deq_refl.
  - apply seq_body.
  - deq_solve.
  - apply seq_cons; [apply item_el|apply seq_o, seq_o, seq_o1].
    instantiate (1 := match sp with Some (ks, x) => [Shared ks (Txt x)] | None => [] end).
    destruct sp as [[ks x]|]; [apply seq_cons; [apply item_leaf|]|]; apply seq_nil.
  - cbn [app]. rewrite <- !app_assoc. apply deq_cat_cons; [apply deq_refl|]. apply deq_cat_cons; [|apply deq_refl].
    apply deq_shared. destruct sp as [[ks x]|]; cbn [app]; deq_solve.
  - apply seq_q; [exact H|apply seq_nil].
  - apply deq_refl.
  - unfold goodq. cbn [to_vtq print_query]. apply seq_B. apply seq_qs; [exact H|].
    destruct r as [q|]; cbn [opt option_map maybe]; [|apply seq_nil]. apply seq_q; [now apply H0|apply seq_nil].
  - unfold goodq. cbn [to_vtq print_query]. apply seq_B. apply seq_app; [|exact H0].
    induction H as [|[[k cs] w] ps [Hc Hw] Hps IH]; [apply seq_nil|]. cbn [map fst snd] in *.
    apply seq_cons; [|exact IH]. eapply item_deq; [|apply item_el, seq_qs; [exact Hc|exact Hw]].
    apply deq_shared. rewrite <- app_assoc. cbn [app]. intros m. rewrite !write_Cat, !intro_Cat. cbn [wcat intros_l].
    change (write (Txt "") m) with ("", m). change (introduce_all (Txt "") m) with m. cbv iota beta.
    rewrite !wcat_app, !intros_app. match goal with |- context [wcat ?l m] => destruct (wcat l m) as [x m1] end. cbn [wcat intros_l].
    destruct (write (print_query E w) m1) as [y m2]. change (write (Txt "") m2) with ("", m2). cbv beta iota.
    now rewrite !sapp_nil_r.
  - apply seq_q; [exact H|].
    instantiate (1 := map (fun p : key * bool * query => Shared (fst (fst p))
                                        (Cat [Txt (if snd (fst p) then " UNION ALL " else " UNION ");
                                              print_query E (snd p)])) qs).
    induction H0 as [|[[kk a] x] l Hx Hl IH]; [apply seq_nil|]. cbn [map fst snd] in *. apply seq_cons; [|exact IH].
    eapply item_deq; [|apply item_el, Hx]. apply deq_shared. cbn [app]. deq_solve.
  - cbn [app]. intros m. rewrite !write_Cat, !intro_Cat. cbn [wcat intros_l].
    change (write (Txt "") m) with ("", m). change (introduce_all (Txt "") m) with m. cbv iota beta.
    destruct (write (print_query E q) m) as [x m1].
    rewrite !wcat_app, !intros_app. match goal with |- context [wcat ?l m1] => destruct (wcat l m1) as [y m2] end. cbn [write introduce_all wcat intros_l append].
    now rewrite sapp_nil_r.
Qed.
