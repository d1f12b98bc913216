(** Headline theorems: C40. *)

From Coq Require Import Ascii String List ZArith Bool Lia.
From Verif Require Import GoStr Escape Num VTree WellKeyed SpecSpace EscapeProofs VTreeProofs VTreeSim Ast SpecDoc SpecPrint
  PrintProofs Alloc AllocProofs RenderProofs SpecBrackets BracketProofs SpecLeaves PropertiesText PropertiesRender.
Import ListNotations.
Open Scope string_scope.

Lemma sound_el : forall k b a kids, around b a -> Forall sound kids -> sound (el k b a kids).
Proof. intros. constructor; assumption. Qed.
Lemma sound_sub : forall k b a kids, around b a -> Forall sound kids -> sound (sub k b a kids).
Proof. intros. constructor; assumption. Qed.
Lemma sound_leaf : forall k s, balanced s -> sound (leaf k s).
Proof.
  intros. apply sound_el; [|constructor]. apply around_balanced; [assumption|apply balanced_nil].
Qed.

Lemma around_words : forall b a, dullsb b = true -> dullsb a = true -> around b a.
Proof. intros. apply around_balanced; now apply dullsb_balanced. Qed.
Lemma around_square : around "[" "]".
Proof. apply (around_pair "[" "]"). cbn. auto. Qed.
Lemma around_curly : around "{" "}".
Proof. apply (around_pair "{" "}"). cbn. auto. Qed.

Lemma sound_op : forall E o, sound (op_vt E o).
Proof. intros E o. apply sound_leaf, dullsb_balanced. destruct o; reflexivity. Qed.
Lemma sound_label : forall l, sound (label_vt l).
Proof. intros l. apply sound_leaf, balanced_label. Qed.
Lemma sound_labels : forall ls, Forall sound (map label_vt ls).
Proof. intros ls. apply Forall_forall. intros t H. apply in_map_iff in H. destruct H as [l [<- _]]. apply sound_label. Qed.

Lemma sound_opt : forall E (o : option expr), Forall (fun e => sound (to_vt E e)) (opt_list o) -> Forall sound (opt (to_vt E) o).
Proof. intros E [e|] H; [inversion H; subst; now repeat constructor|constructor]. Qed.
Lemma sound_map : forall E l, Forall (fun e => sound (to_vt E e)) l -> Forall sound (map (to_vt E) l).
Proof. intros E l H. induction H; constructor; assumption. Qed.

Lemma Forall_mp : forall A (P Q : A -> Prop) l, Forall (fun x => P x -> Q x) l -> Forall P l -> Forall Q l.
Proof. intros A P Q l H. induction H; intros F; inversion F; subst; constructor; auto. Qed.

Ltac split_parts :=
  repeat match goal with
  | H : Forall _ (_ ++ _) |- _ => apply Forall_app in H; destruct H
  | H : Forall _ (_ :: _) |- _ => inversion H; subst; clear H
  | H : Forall _ [] |- _ => clear H
  end.

Ltac sound_kids := repeat first
  [ assumption
  | apply Forall_nil
  | apply Forall_cons
  | (apply Forall_app; split)
  | apply sound_op
  | apply sound_label
  | apply sound_labels
  | (apply sound_opt; assumption)
  | (apply sound_map; assumption) ].

Lemma sound_expr : forall E, balanced (e_guid E) -> forall e, well_lexed e -> sound (to_vt E e).
Proof.
  intros E G. apply (expr_ind' (fun e => well_lexed e -> sound (to_vt E e))). intros e IH H.
  inversion H as [e' O C]; subst. assert (K := Forall_mp _ _ _ _ IH C). clear IH C H.
  destruct e; cbn [children opt_list own_words] in O, K; split_parts; cbn [to_vt];
    try (apply sound_leaf; first [ now apply dullsb_balanced | now apply balanced_resolve | apply balanced_string
                                 | apply balanced_lookup | assumption ]);
    try (first [apply sound_el | apply sound_sub];
         [first [apply around_words; reflexivity | apply around_square | apply around_curly | apply paren_around]
         |sound_kids; fail]).
  - apply sound_leaf. unfold param_text. apply balanced_app; [now apply dullsb_balanced|exact O].
  - apply sound_leaf, dullsb_balanced. destruct b; reflexivity.
  - apply sound_leaf. apply dulls_balanced. now apply dull_number.
  - apply sound_el; [apply around_square|]. apply sound_map in K. clear O.
    destruct (map (to_vt E) items) as [|x l]; [constructor|]. inversion K; subst. constructor; [assumption|].
    induction l as [|y l IHl]; [constructor|]. inversion H2; subst. cbn [flat_map app].
    constructor; [constructor; now apply dullsb_balanced|]. constructor; [assumption|]. apply IHl; [|assumption].
    constructor; assumption.
  - apply sound_el; [destruct (needs_grouping o); [apply paren_around|now apply around_words]|sound_kids].
  - destruct cs as [|c [|d cs]]; [repeat constructor|inversion K; subst; repeat constructor; assumption|].
    apply sound_el; [apply paren_around|]. inversion K; subst. constructor; [assumption|].
    clear K H1 O. induction H2; [constructor|]. cbn [flat_map app]. constructor; [apply sound_op|].
    constructor; assumption.
  - constructor. repeat constructor; assumption.
  - apply sound_el; [|sound_kids; apply sound_sub; [now apply around_words|sound_kids]].
    replace ")" with (")" ++ "") by reflexivity. apply around_app; [exact O|apply paren_around|apply balanced_nil].
  - apply sound_el; [now apply around_words|]. constructor; [apply sound_leaf; now apply dullsb_balanced|sound_kids].
  - constructor; [cbn [h_kind kind_ok]; apply balanced_name|sound_kids].
  - apply sound_el; [|sound_kids]. apply around_balanced; [|apply balanced_nil].
    apply balanced_app; [apply balanced_name|now apply dullsb_balanced].
  - apply sound_el; [now apply around_words|]. constructor; [assumption|]. constructor; [|constructor].
    apply sound_el; [apply around_square|]. sound_kids.
    destruct dots; sound_kids. apply sound_leaf. now apply dullsb_balanced.
  - apply sound_el; [apply around_square|]. sound_kids. destruct def; cbn [opt_list] in *; split_parts; sound_kids.
  - apply sound_el.
    + apply (around_app "EXISTS " "{" "" "}"); [now apply dullsb_balanced|apply around_curly|apply balanced_nil].
    + constructor; [|constructor]. apply sound_el; [destruct optional; now apply around_words|sound_kids].
  - constructor.
    + cbn [h_kind kind_ok]. intros x Hx. destruct name as [[kn n]|]; [|discriminate]. inversion Hx; subst. exact O.
    + sound_kids. destruct name as [[kn n]|]; [|constructor]. repeat constructor; cbn [fst snd].
      apply around_balanced; [now apply balanced_resolve|apply balanced_nil].
  - apply sound_el.
    + destruct (has_content name types len props).
      * apply around_app; [destruct d; now apply dullsb_balanced|apply around_square|destruct d; now apply dullsb_balanced].
      * destruct d; now apply around_words.
    + sound_kids.
      * destruct types as [[kt v]|]; [|constructor]. repeat constructor; cbn [fst snd].
        apply around_balanced; [apply balanced_types|apply balanced_nil].
      * destruct len as [[[[kl u] lo] hi]|]; [|constructor]. repeat constructor.
        apply around_balanced; [apply balanced_length|apply balanced_nil].
  - apply sound_el; [now apply around_words|]. sound_kids. clear O.
    match goal with H : Forall _ (flat_map _ rels) |- _ => induction rels as [|[x y] rels IHr]; [constructor|]; cbn [flat_map app fst snd] in * end.
    split_parts. sound_kids. auto.
  - apply sound_el; [destruct generic; now apply around_words|]. sound_kids.
    + clear O. match goal with H : Forall _ (flat_map _ branches) |- _ =>
        induction branches as [|[[kb x] y] branches IHb]; [constructor|]; cbn [flat_map app fst snd] in * end.
      split_parts. sound_kids; [|auto]. apply sound_el; [now apply around_words|sound_kids].
    + destruct default as [[kd x]|]; [|constructor]. split_parts. cbn [fst snd] in *. constructor; [|constructor].
      apply sound_el; [now apply around_words|sound_kids].
  - apply sound_el; [now apply around_words|]. sound_kids. destruct desc as [[]|]; sound_kids; apply sound_leaf; now apply dullsb_balanced.
Qed.

Lemma sound_body : forall E d b, balanced (e_guid E) -> Forall well_lexed (body_parts b) ->
  Forall sound (distinct_vt d ++ [body_vt E b]).
Proof.
  intros E d b G H. apply Forall_app. split.
  - destruct d; [|constructor]. constructor; [|constructor]. apply sound_leaf. now apply dullsb_balanced.
  - assert (H' : Forall (fun e => sound (to_vt E e)) (body_parts b)).
    { eapply Forall_impl; [|exact H]. intros e He. now apply sound_expr. }
    unfold body_parts in H'. split_parts. constructor; [|constructor]. constructor. sound_kids.
Qed.

Lemma sound_exprs : forall E l, balanced (e_guid E) -> Forall well_lexed l -> Forall (fun e => sound (to_vt E e)) l.
Proof. intros E l G H. eapply Forall_impl; [|exact H]. intros e He. now apply sound_expr. Qed.

Lemma sound_query : forall E, balanced (e_guid E) -> forall q, well_lexed_q q -> sound (to_vtq E q).
Proof.
  intros E G.
  assert (X : forall e, well_lexed e -> sound (to_vt E e)) by (intros; now apply sound_expr).
  assert (XO : forall o, Forall well_lexed (opt_list o) -> Forall sound (opt (to_vt E) o))
    by (intros; now apply sound_opt, sound_exprs).
  apply (query_ind' (fun q => well_lexed_q q -> sound (to_vtq E q))); intros;
    match goal with H : well_lexed_q _ |- _ => inversion H; subst; clear H end; cbn [to_vtq];
    try (apply sound_el; [now apply around_words|repeat constructor; auto; fail]).
  - apply sound_el; [destruct o; now apply around_words|constructor; auto].
  - apply sound_el; [destruct evs; now apply around_words|]. constructor; [auto|].
    match goal with H : Forall (fun q => well_lexed_q q -> _) evs |- _ => revert H end.
    match goal with H : Forall well_lexed_q evs |- _ => revert H end.
    clear. induction evs as [|x evs IH]; intros A B; [constructor|]. inversion A; inversion B; subst.
    constructor; [auto|]. apply IH; assumption.
  - apply sound_el; [destruct c; now apply around_words|repeat constructor; auto].
  - apply sound_el; [destruct d; now apply around_words|repeat constructor; auto].
  - apply sound_el; [|repeat constructor; auto]. apply around_balanced; [now apply dullsb_balanced|].
    apply balanced_app; [now apply dullsb_balanced|]. apply balanced_app; [assumption|now apply dullsb_balanced].
  - apply sound_el; [now apply around_words|]. rewrite app_assoc. apply Forall_app. split; [now apply sound_body|auto].
  - apply sound_el; [now apply around_words|]. now apply sound_body.
  - apply sound_el; [now apply around_words|]. constructor.
    + apply sound_el; [apply around_balanced; [apply balanced_nil|assumption]|].
      destruct sp as [[ks x]|]; [|constructor]. constructor; [|constructor]. apply sound_leaf. eauto.
    + apply Forall_app. split; [auto|]. apply Forall_app. split; auto.
  - apply sound_el; [|repeat constructor; auto].
    apply (around_app "CALL " "{" " " "}"); [now apply dullsb_balanced|apply around_curly|now apply dullsb_balanced].
  - constructor. apply Forall_app. split.
    + match goal with A : Forall (fun q => well_lexed_q q -> _) cs, B : Forall well_lexed_q cs |- _ => revert A B end.
      clear. induction cs as [|x cs IH]; intros A B; [constructor|]. inversion A; inversion B; subst. constructor; auto.
    + destruct r as [q|]; [|constructor]. repeat constructor.
      match goal with A : Forall _ (opt_list (Some q)) |- _ => inversion A; subst end. auto.
  - constructor. apply Forall_app. split; [|repeat constructor; auto].
    match goal with A : Forall _ ps, B : forall k cs w, In _ ps -> _ |- _ => revert A B end. clear.
    induction ps as [|[[k cs] w] ps IH]; intros A B; [constructor|]. inversion A; subst. cbn [fst snd] in *.
    constructor; [|apply IH; [assumption|]; intros; eapply B; right; eassumption].
    destruct (B k cs w (or_introl eq_refl)) as [B1 B2]. destruct H1 as [H1 H3].
    apply sound_el; [now apply around_words|]. apply Forall_app. split; [|repeat constructor; auto].
    revert H1 B1. clear. induction cs as [|x cs IH]; intros A B; [constructor|]. inversion A; inversion B; subst. constructor; auto.
  - apply sound_el; [now apply around_words|]. constructor; [auto|].
    match goal with A : Forall _ qs, B : forall k a x, In _ qs -> _ |- _ => revert A B end. clear.
    induction qs as [|[[k a] x] qs IH]; intros A B; [constructor|]. inversion A; subst. cbn [fst snd] in *.
    constructor; [|apply IH; [assumption|]; intros; eapply B; right; eassumption].
    apply sound_el; [destruct a; now apply around_words|]. repeat constructor. apply H1. eapply B. now left.
Qed.

(** ** C40 *)

(** The text of a statement is balanced if the texts written as the caller gave
    them are. *)
Theorem C40_rendered_text_balanced : forall (err : Type) E q,
  well_keyed (to_vtq E q) = true -> balanced (e_guid E) -> well_lexed_q q ->
  balanced (fst (fst (render (err:=err) (SOk (to_vtq E q)) new_renderer))).
Proof.
  intros err E q W G L. cbn [render fst]. apply balanced_trim.
  pose proof (accept_new _ W) as A. pose proof (proj1 pp_balanced (to_vtq E q) None none_seen (sound_query E G q L)) as P.
  destruct (pp (to_vtq E q) None none_seen) as [[txt sep] s]. destruct A as [A _ _ _ _ _ _ _ _].
  rewrite A. cbn [r_out new_renderer append]. apply P; [intros k a []|apply balanced_nil].
Qed.
Print Assumptions C40_rendered_text_balanced.

(** The same for statements made by constructor calls with keys that were never
    handed out twice. *)
Theorem C40_built_statements : forall (err : Type) E q hp,
  built false hp -> over hp (to_vtq E q) -> balanced (e_guid E) -> well_lexed_q q ->
  balanced (fst (fst (render (err:=err) (SOk (to_vtq E q)) new_renderer))).
Proof.
  intros err E q hp Hb Ho G L. apply C40_rendered_text_balanced; [|exact G|exact L]. now apply (built_well_keyed hp).
Qed.
Print Assumptions C40_built_statements.

Ltac lexed := repeat first
  [ progress cbn [children opt_list own_words app flat_map fst snd body_parts b_items b_order b_skip b_limit num_of_Z n_mant]
  | match goal with
    | |- balanced _ => apply dullsb_balanced; reflexivity
    | |- (_ <= _)%Z => vm_compute; congruence
    | |- True => exact Logic.I
    | |- well_lexed _ => apply wl
    | |- well_lexed_q (QMulti _ _) => apply wq_multi
    | |- well_lexed_q _ => constructor
    | |- Forall _ _ => constructor
    | |- forall k cs w, In _ _ -> _ => let H := fresh in intros ? ? ? H; cbn in H; decompose [or] H; try contradiction;
        match goal with E : (_, _, _) = (_, _, _) |- _ => inversion E; subst; clear E end; split
    end ].

(** A statement with a quoted name, a string with a bracket and a quote in it,
    functions, labels and types. *)
Definition q_texts : query :=
  QSingle [QMatch "m1" false
             (EPattern "pa1" [ERel "r1" (ENode "n1" (Some ("s1", "u")) [("l1", "a`(b")] None)
                                (EDetails "d1" LTR None (Some ("t1", ["]"])) (Some ("ln", false, Some 1%Z, None)) None)
                                (ENode "n2" None [] (Some (EProps "pp" (EMap "mp" [EEntry "en" "k {" (EStr "st1" "it's [")]))))])
             None]
          (Some (QReturn "ret1" true (Body (EExprs "es1"
             [EFun "f1" "sum" "fl1" [EProp "p1" (ESym "s1" "u") (ELookup "k1" ")")];
              EAlias "al1" "li" (EListLit "li" [ENum "i1" (num_of_Z 1); EParam "pm" "rate"]) "list }"]) None None None))).
Example C40_case : well_keyed (to_vtq env0 q_texts) = true /\ balanced (e_guid env0) /\ well_lexed_q q_texts
  /\ fst (fst (render (err:=unit) (SOk (to_vtq env0 q_texts)) new_renderer)) =
     "MATCH (u:`a``(b`)-[:`]`*1..]->( {`k {`: 'it\'s ['}) RETURN DISTINCT sum(u.`)`), [1, $rate] AS `list }`".
Proof.
  split; [vm_compute; reflexivity|]. split; [apply dullsb_balanced; reflexivity|].
  split; [|vm_compute; reflexivity]. unfold q_texts. lexed.
Qed.

(** A text that is not balanced. *)
Lemma not_balanced : forall s l, code Code s = (l, Code) ->
  (forall l', matched_brackets l' -> l' <> l) -> ~ balanced s.
Proof. intros s l H N [l' [C M]]. rewrite H in C. inversion C; subst. now apply (N l'). Qed.

(** As many opening as closing brackets of each kind. *)
Definition count (a : ascii) (l : list ascii) : nat := List.length (filter (Ascii.eqb a) l).
Lemma count_app : forall a x y, count a (x ++ y) = count a x + count a y.
Proof. intros. unfold count. now rewrite filter_app, app_length. Qed.
Lemma count_cons : forall a b l, count a (b :: l) = (if Ascii.eqb a b then 1 else 0) + count a l.
Proof. intros. unfold count. cbn [filter]. now destruct (Ascii.eqb a b). Qed.
Lemma counts : forall l, matched_brackets l -> count "(" l = count ")" l.
Proof.
  induction 1 as [|a l N H IH|o c l l' P H1 IH1 H2 IH2].
  - reflexivity.
  - rewrite !count_cons.
    destruct (Ascii.eqb_spec "(" a) as [<-|]; [exfalso; apply N; exists "("%char, ")"%char; cbn; auto|].
    destruct (Ascii.eqb_spec ")" a) as [<-|]; [exfalso; apply N; exists "("%char, ")"%char; cbn; auto|]. exact IH.
  - rewrite !count_cons, !count_app, !count_cons.
    cbn in P. destruct P as [P|[P|[P|[]]]]; inversion P; subst; cbn; lia.
Qed.
Lemma unequal_not_balanced : forall s, snd (code Code s) = Code ->
  count "(" (fst (code Code s)) <> count ")" (fst (code Code s)) -> ~ balanced s.
Proof.
  intros s H N [l [C M]]. rewrite C in N. apply N. cbn [fst]. now apply counts.
Qed.

(** Names that need quotes: a node with such a name is written with quotes at
    first, and without them afterwards. *)
Theorem C40_repeated_node_refuted : exists q,
  well_keyed (to_vtq env0 q) = true
  /\ fst (fst (render (err:=unit) (SOk (to_vtq env0 q)) new_renderer)) = "CREATE (`a)`), (a))"
  /\ ~ balanced (fst (fst (render (err:=unit) (SOk (to_vtq env0 q)) new_renderer))).
Proof.
  exists (QSingle [QCreate "c" (EPattern "pa" [ENode "n" (Some ("s", "a)")) [] None; ENode "n" (Some ("s", "a)")) [] None])] None).
  split; [vm_compute; reflexivity|]. split; [vm_compute; reflexivity|].
  apply unequal_not_balanced; vm_compute; congruence.
Qed.
Print Assumptions C40_repeated_node_refuted.

(** Names of parameters are written as they are. *)
Theorem C40_parameter_refuted : exists q,
  well_keyed (to_vtq env0 q) = true
  /\ fst (fst (render (err:=unit) (SOk (to_vtq env0 q)) new_renderer)) = "RETURN $p)"
  /\ ~ balanced (fst (fst (render (err:=unit) (SOk (to_vtq env0 q)) new_renderer))).
Proof.
  exists (QSingle [] (Some (QReturn "r" false (Body (EExprs "es" [EParam "p" "p)"]) None None None)))).
  split; [vm_compute; reflexivity|]. split; [vm_compute; reflexivity|].
  apply unequal_not_balanced; vm_compute; congruence.
Qed.
Print Assumptions C40_parameter_refuted.

(** Without consistent identities brackets may stay open: an element around an
    alias whose expression was stored at the address the element now has. *)
Theorem C40_reused_address_refuted : exists q,
  well_lexed_q q
  /\ fst (fst (render (err:=unit) (SOk (to_vtq env0 q)) new_renderer)) = "RETURN (x AS y"
  /\ ~ balanced (fst (fst (render (err:=unit) (SOk (to_vtq env0 q)) new_renderer))).
Proof.
  exists (QSingle [] (Some (QReturn "r" false
            (Body (EExprs "es" [ENested "k" (EAlias "a" "k" (ESym "s" "x") "y")]) None None None)))).
  split; [lexed|]. split; [vm_compute; reflexivity|].
  apply unequal_not_balanced; vm_compute; congruence.
Qed.
Print Assumptions C40_reused_address_refuted.
