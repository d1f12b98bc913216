(** The aliases a statement's document introduces are those the statement gives_alias. *)

From Coq Require Import Ascii String List ZArith Bool Lia.
From Verif Require Import GoStr Escape Num VTree Ast SpecDoc SpecPrint SpecShape PrintProofs SpecReading GrammarDocs.
Import ListNotations.
Open Scope string_scope.
Open Scope list_scope.

Section Gives.
Context (E : env) (A : register).
Notation introduces := (introduces E A).

Lemma intro_shared : forall k d, introduces d -> introduces (Shared k d).
Proof. auto. Qed.
Lemma intro_cat : forall l, Forall introduces l -> introduces (Cat l).
Proof. intros l. apply introduces_all. Qed.
Lemma intro_txt : forall s, introduces (Txt s).
Proof. exact (fun _ => Logic.I). Qed.
Lemma intro_opt : forall l, Forall (fun e => introduces (print E e)) (opt_list l) -> Forall introduces (maybe (option_map (print E) l)).
Proof. intros [e|] H; cbn in *; [|constructor]. inversion H; subst. now repeat constructor. Qed.
Lemma intro_map : forall l, Forall (fun e => introduces (print E e)) l -> Forall introduces (map (print E) l).
Proof. intros l H. induction H; constructor; auto. Qed.
Lemma intro_listing : forall l, Forall (fun e => introduces (print E e)) l -> introduces (listing (print E) l).
Proof.
  intros l H. unfold listing. apply introduces_commas. induction H as [|e l He H IH]; [constructor|]. cbn [flat_map]. destruct (silent e); [exact IH|]. now constructor.
Qed.
Lemma intro_literals : forall l, Forall introduces l -> introduces (literals l).
Proof.
  intros l H. unfold literals. destruct H as [|e l He H]; [exact Logic.I|]. apply intro_cat. constructor; [exact He|]. induction H; cbn [flat_map app]; repeat (constructor; auto).
Qed.
Lemma intro_labels : forall l, Forall introduces (map print_label l).
Proof. induction l; constructor; auto. exact Logic.I. Qed.
Lemma intro_op : forall o, introduces (print_op E o).
Proof. intros o. exact Logic.I. Qed.

Definition covers (e : expr) : Prop := forall k a, gives_alias_in k a e -> A k a.
Lemma covers_children : forall e, covers e -> Forall covers (children e).
Proof. intros e H. apply Forall_forall. intros d I k a G. apply H. now apply (ge_inside k a e d). Qed.

Ltac step := repeat first
  [ assumption
  | match goal with
    | |- GrammarDocs.introduces _ _ (print_op _ _) => apply intro_op
    | |- GrammarDocs.introduces _ _ (Txt _) => apply intro_txt
    | |- GrammarDocs.introduces _ _ (Shared _ _) => apply intro_shared
    | |- GrammarDocs.introduces _ _ (Cat _) => apply intro_cat
    | |- GrammarDocs.introduces _ _ (listing _ _) => apply intro_listing; assumption
    | |- Forall _ (maybe _) => apply intro_opt; assumption
    | |- Forall _ (map print_label _) => apply intro_labels
    | |- Forall _ (_ ++ _) => apply Forall_app; split
    | |- Forall _ [] => apply Forall_nil
    | |- Forall _ (_ :: _) => apply Forall_cons
    end ].

Lemma print_introduces : forall e, covers e -> introduces (print E e).
Proof.
  apply (expr_ind' (fun e => covers e -> introduces (print E e))). intros e IH C. pose proof (covers_children e C) as CC.
  assert (H : Forall (fun d => introduces (print E d)) (children e)).
  { rewrite Forall_forall in *. intros d I. now apply IH; [|apply CC]. }
  clear IH CC. destruct e; cbn [children] in H; split_children; cbn [print]; try (step; fail).
  - apply intro_shared, intro_cat. repeat constructor. now apply intro_literals, intro_map.
  - destruct (in_parens o); step.
  - destruct cs as [|c [|c2 cs]]; split_children; step. assert (X : Forall (fun d => introduces (print E d)) (c2 :: cs)) by (now constructor). clear -X.
    induction X; cbn [flat_map app]; repeat (constructor; auto).
  - step. cbn [GrammarDocs.introduces]. split; [assumption|]. exists alias. split; [apply C; constructor|reflexivity].
  - destruct dots; step.
  - destruct def; cbn [opt_list] in *; split_children; step.
  - destruct name as [[kn x]|]; step. cbn [GrammarDocs.introduces]. apply intro_cat. step.
  - destruct types as [[kt v]|]; destruct len as [[[[kl u] lo] hi]|]; destruct name; destruct props; cbn [opt_list option_map maybe app] in *; split_children; destruct d; step.
  - apply intro_shared, intro_cat. apply Forall_app. split; [|step]. clear -H. induction rels as [|p rels IH]; [constructor|]. cbn [flat_map app] in *. split_children. step. auto.
  - assert (X : Forall introduces (flat_map (fun b => [Shared (fst (fst b)) (Cat [Txt " WHEN "; print E (snd (fst b)); Txt " THEN "]); print E (snd b)]) branches)).
    { match goal with G : Forall _ (flat_map _ branches) |- _ => revert G end. clear. induction branches as [|p bs IH]; intros G; cbn [flat_map app] in *; [constructor|]. split_children. step. auto. }
    destruct default as [[kd x]|]; split_children; cbn [snd fst] in *; step.
  - destruct desc as [[|]|]; step.
Qed.

Definition covers_q (q : query) : Prop := forall k a, gives_alias k a q -> A k a.
Lemma covers_exprs : forall q, covers_q q -> Forall (fun e => introduces (print E e)) (exprs_of q).
Proof. intros q H. apply Forall_forall. intros e I. apply print_introduces. intros k a G. apply H. now apply (gs_expr k a q e). Qed.
Lemma covers_queries : forall q, covers_q q -> Forall covers_q (queries_of q).
Proof. intros q H. apply Forall_forall. intros s I k a G. apply H. now apply (gs_query k a q s). Qed.

Lemma body_introduces : forall d b, Forall (fun e => introduces (print E e)) (body_exprs b) -> introduces (print_body E d b).
Proof.
  intros d b H. unfold body_exprs in H. split_children. unfold print_body. apply intro_cat. destruct d; step.
Qed.
Lemma intro_queries : forall qs, Forall (fun q => covers_q q -> introduces (print_query E q)) qs -> Forall covers_q qs -> Forall introduces (map (print_query E) qs).
Proof. intros qs H C. induction H; cbn [map]; constructor; inversion C; subst; auto. Qed.
Lemma print_query_introduces : forall q, covers_q q -> introduces (print_query E q).
Proof.
  apply (query_ind' (fun q => covers_q q -> introduces (print_query E q))); intros; match goal with C : covers_q _ |- _ => pose proof (covers_exprs _ C) as CE; pose proof (covers_queries _ C) as CQ; clear C end;
    cbn [exprs_of queries_of] in *; split_children; cbn [print_query]; try (step; fail).
  - step; [now apply intro_queries|]. destruct evs; step.
  - step. auto.
  - step. now apply body_introduces.
  - step. now apply body_introduces.
  - destruct sp as [[ks x]|]; step.
  - step. auto.
  - apply intro_cat. apply Forall_app. split; [now apply intro_queries|]. destruct r as [q|]; cbn [opt_list] in *; split_children; cbn [option_map maybe]; step. auto.
  - apply intro_cat. apply Forall_app. split; [|step; auto].
    match goal with G : Forall covers_q (flat_map _ ps) |- _ => revert G end. match goal with G : Forall _ ps |- _ => revert G end. clear. intros H C. induction H as [|[[k cs] q] ps [H1 H2] H IH]; [constructor|].
    cbn [map flat_map] in *. split_children. cbn [fst snd] in *. constructor; [|auto]. step; [now apply intro_queries|auto].
  - step; [auto|]. match goal with G : Forall covers_q (map snd qs) |- _ => revert G end. match goal with G : Forall _ qs |- _ => revert G end. clear. intros H C.
    induction H as [|[[k c] q] ps H1 H IH]; [constructor|]. cbn [map] in *. split_children. cbn [fst snd] in *. constructor; [|auto]. step. auto.
Qed.
End Gives.
