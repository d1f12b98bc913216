(** Proofs: the text of a statement is the text of its clauses in order. *)

From Coq Require Import Ascii String List ZArith Bool Lia.
From Verif Require Import GoStr Escape VTree Ast SpecDoc SpecPrint DocProofs RenderProofs EscapeProofs GoVal SpecCond Cond Queries Builder SpecBuilder.
Import ListNotations.
Open Scope string_scope.
Open Scope list_scope.

(** The keys of the expressions that get an alias in a document. *)
Fixpoint aliased_keys (d : doc) : list string :=
  match d with
  | Txt _ => []
  | Cat l | Commas l => (fix go l := match l with [] => [] | d :: l' => aliased_keys d ++ go l' end) l
  | Shared _ d | Once _ _ d => aliased_keys d
  | Aliased k _ d => k :: aliased_keys d
  end.

Lemma aliased_Cat : forall l, aliased_keys (Cat l) = flat_map aliased_keys l.
Proof. induction l as [|d l IH]; [reflexivity|]. cbn in *. now rewrite IH. Qed.
Lemma aliased_Commas : forall l, aliased_keys (Commas l) = flat_map aliased_keys l.
Proof. induction l as [|d l IH]; [reflexivity|]. cbn in *. now rewrite IH. Qed.

Definition free (k : string) (m : memory) : Prop := alias_of k (introduced m) = None.

Lemma free_introduce_all : forall k d m, ~ In k (aliased_keys d) -> free k m -> free k (introduce_all d m).
Proof.
  intros k. apply (doc_ind' (fun d => forall m, ~ In k (aliased_keys d) -> free k m -> free k (introduce_all d m))
                  (fun l => forall m, ~ In k (flat_map aliased_keys l) -> free k m -> free k (intros_l l m))).
  - auto.
  - intros l IH m H F. rewrite intro_Cat. rewrite aliased_Cat in H. now apply IH.
  - intros l IH m H F. rewrite intro_Commas. rewrite aliased_Commas in H. now apply IH.
  - intros k0 d IH m H F. now apply IH.
  - intros k0 n d IH m H F. now apply IH.
  - intros k0 a d IH m H F. cbn in H. unfold free. cbn. destruct (String.eqb_spec k k0); [subst; exfalso; auto|].
    apply IH; [|assumption]. intros X. apply H. now right.
  - auto.
  - intros d l IHd IHl m H F. cbn in H. cbn [intros_l]. apply IHl; [|apply IHd; [|assumption]]; intros X; apply H; apply in_or_app; auto.
Qed.

Lemma free_write : forall k d m, ~ In k (aliased_keys d) -> free k m -> free k (snd (write d m)).
Proof.
  intros k. apply (doc_ind' (fun d => forall m, ~ In k (aliased_keys d) -> free k m -> free k (snd (write d m)))
                  (fun l => forall m, ~ In k (flat_map aliased_keys l) -> free k m -> free k (snd (wcat l m)) /\ free k (snd (wrest l m)))).
  - auto.
  - intros l IH m H F. rewrite write_Cat. rewrite aliased_Cat in H. now apply IH.
  - intros l IH m H F. destruct l as [|d l]; [exact F|]. rewrite write_Commas. rewrite aliased_Commas in H.
    destruct (IH m H F) as [_ J]. cbn [wrest] in J. destruct (write d m) as [x m1]. destruct (wrest l m1) as [y m2]. exact J.
  - intros k0 d IH m H F. rewrite write_Shared. destruct (alias_of k0 (introduced m)); [now apply free_introduce_all|now apply IH].
  - intros k0 n d IH m H F. cbn [write]. destruct (existsb (String.eqb k0) (SpecDoc.written m)).
    + cbn [snd]. now apply free_introduce_all.
    + specialize (IH (mark k0 m) H F). destruct (write d (mark k0 m)). exact IH.
  - intros k0 a d IH m H F. cbn in H. assert (N : k <> k0) by (intros ->; apply H; now left).
    assert (H' : ~ In k (aliased_keys d)) by (intros X; apply H; now right).
    assert (G : forall m', free k m' -> free k (introduce k0 a m')).
    { intros m' F'. unfold free. cbn. destruct (String.eqb_spec k k0); [contradiction|exact F']. }
    cbn [write]. destruct (alias_of k0 (introduced m)); cbn [snd].
    + apply G. now apply free_introduce_all.
    + specialize (IH m H' F). destruct (write d m). now apply G.
  - auto.
  - intros d l IHd IHl m H F. cbn in H.
    assert (H1 : ~ In k (aliased_keys d)) by (intros X; apply H; apply in_or_app; auto).
    assert (H2 : ~ In k (flat_map aliased_keys l)) by (intros X; apply H; apply in_or_app; auto).
    cbn [wcat wrest]. specialize (IHd m H1 F). destruct (write d m) as [x m1]. cbn [snd] in IHd.
    destruct (IHl m1 H2 IHd) as [A B]. destruct (wcat l m1). destruct (wrest l m1). now split.
Qed.

Fixpoint part_keys (q : query) : list key :=
  match q with QMulti ps r => map (fun p => fst (fst p)) ps ++ part_keys r | _ => [] end.

Lemma write_one : forall d m, write (Cat [d]) m = write d m.
Proof. intros d m. rewrite write_Cat. cbn [wcat]. destruct (write d m). now rewrite sapp_nil_r. Qed.

Lemma wcat_single : forall d m, wcat [d] m = write d m.
Proof. intros. now rewrite <- write_Cat, write_one. Qed.

Lemma flat_map_aliased_app : forall a b, flat_map aliased_keys (a ++ b) = flat_map aliased_keys a ++ flat_map aliased_keys b.
Proof. intros. apply flat_map_app. Qed.

Lemma clauses_text : forall E q m,
  (forall k, In k (part_keys q) -> free k m /\ ~ In k (aliased_keys (print_query E q))) ->
  write (print_query E q) m = write (Cat (map (print_query E) (clauses q))) m.
Proof.
  intros E. fix IH 1. intros q m H.
  assert (Triv : clauses q = [q] -> write (print_query E q) m = write (Cat (map (print_query E) (clauses q))) m).
  { intros ->. cbn [map]. now rewrite write_one. }
  destruct q as [ | | | | | | | | | | | | |cs r|ps r|]; try (apply Triv; reflexivity); clear Triv.
  - cbn [print_query clauses]. rewrite !write_Cat, map_app, !wcat_app. destruct (wcat (map (print_query E) cs) m) as [x m1].
    now destruct r.
  - cbn [print_query clauses part_keys] in *. rewrite aliased_Cat, flat_map_aliased_app in H.
    rewrite !write_Cat, map_app.
    revert m H. induction ps as [|[[k cs] w] ps IHp]; intros m H.
    + cbn [map flat_map app] in *. rewrite wcat_single, <- write_Cat.
      apply IH. intros k Hk. destruct (H k Hk) as [F N]. split; [assumption|]. now rewrite app_nil_r in N.
    + cbn [map flat_map] in *. rewrite map_app, <- app_assoc. unfold clauses_of_part at 1. cbn [fst snd] in *.
      rewrite <- app_comm_cons. rewrite wcat_app. cbn [wcat]. destruct (H k (or_introl eq_refl)) as [Fk Nk].
      rewrite write_Shared. unfold free in Fk. rewrite Fk.
      rewrite write_Cat, map_app. cbn [map].
      destruct (wcat (map (print_query E) cs ++ [print_query E w]) m) as [x m1] eqn:Ex.
      rewrite IHp; [reflexivity|].
      intros k' Hk'. destruct (H k' (or_intror Hk')) as [F N]. split.
      * assert (G : free k' (snd (write (Cat (map (print_query E) cs ++ [print_query E w])) m))).
        { apply free_write; [|assumption]. intros X. apply N. apply in_or_app. left. apply in_or_app. now left. }
        rewrite write_Cat, Ex in G. exact G.
      * intros X. apply N. apply in_app_or in X as [X|X]; apply in_or_app; [left; apply in_or_app; now right|now right].
Qed.
