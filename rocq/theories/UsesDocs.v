(** Documents: nothing is lost by abbreviating. *)

From Coq Require Import Ascii String List ZArith Bool Lia.
From Verif Require Import GoStr SpecDoc SpecShape.
Import ListNotations.
Open Scope string_scope.
Open Scope list_scope.

(** A document and the documents inside it. *)
Fixpoint subs (d : doc) : list doc :=
  d :: match d with
       | Txt _ => []
       | Cat l | Commas l => flat_map subs l
       | Shared _ d | Once _ _ d | Aliased _ _ d => subs d
       end.

Lemma doc_ind' : forall P : doc -> Prop,
  (forall s, P (Txt s)) -> (forall l, Forall P l -> P (Cat l)) -> (forall l, Forall P l -> P (Commas l)) ->
  (forall k d, P d -> P (Shared k d)) -> (forall k n d, P d -> P (Once k n d)) -> (forall k a d, P d -> P (Aliased k a d)) ->
  forall d, P d.
Proof.
  intros P H1 H2 H3 H4 H5 H6. fix IH 1. intros [s|l|l|k d|k n d|k a d].
  - apply H1.
  - apply H2. induction l; constructor; auto.
  - apply H3. induction l; constructor; auto.
  - apply H4, IH.
  - apply H5, IH.
  - apply H6, IH.
Qed.

Lemma subs_self : forall d, In d (subs d).
Proof. intros d. destruct d; now left. Qed.
Lemma subs_trans : forall d x y, In x (subs d) -> In y (subs x) -> In y (subs d).
Proof.
  apply (doc_ind' (fun d => forall x y, In x (subs d) -> In y (subs x) -> In y (subs d))); intros; cbn [subs] in *.
  - match goal with H : In x _ |- _ => destruct H as [<-|[]] end. assumption.
  - match goal with H : In x _ |- _ => destruct H as [<-|J] end; [assumption|]. right. apply in_flat_map in J. destruct J as (z & Z & J).
    apply in_flat_map. exists z. split; [exact Z|]. rewrite Forall_forall in H. eauto.
  - match goal with H : In x _ |- _ => destruct H as [<-|J] end; [assumption|]. right. apply in_flat_map in J. destruct J as (z & Z & J).
    apply in_flat_map. exists z. split; [exact Z|]. rewrite Forall_forall in H. eauto.
  - match goal with H : In x _ |- _ => destruct H as [<-|J] end; [assumption|]. right. eauto.
  - match goal with H : In x _ |- _ => destruct H as [<-|J] end; [assumption|]. right. eauto.
  - match goal with H : In x _ |- _ => destruct H as [<-|J] end; [assumption|]. right. eauto.
Qed.

(** Writing several documents, one after the other. *)
Fixpoint pieces_cat (l : list doc) (m : memory) : list string * memory :=
  match l with
  | [] => ([], m)
  | d :: l' => let (x, m1) := pieces d m in let (y, m2) := pieces_cat l' m1 in (x ++ y, m2)
  end.
Fixpoint pieces_more (l : list doc) (m : memory) : list string * memory :=
  match l with
  | [] => ([], m)
  | d :: l' => let (x, m1) := pieces d m in let (y, m2) := pieces_more l' m1 in (", " :: x ++ y, m2)
  end.
Lemma pieces_Cat : forall l m, pieces (Cat l) m = pieces_cat l m.
Proof. intros l m. cbn [pieces]. revert m. induction l as [|d l IH]; intros m; [reflexivity|]. cbn [pieces_cat]. destruct (pieces d m) as [x m1]. now rewrite IH. Qed.
Lemma pieces_Commas : forall l m, pieces (Commas l) m =
  match l with [] => ([], m) | d :: l' => let (x, m1) := pieces d m in let (y, m2) := pieces_more l' m1 in (x ++ y, m2) end.
Proof.
  intros [|d l] m; [reflexivity|]. cbn [pieces]. destruct (pieces d m) as [x m1].
  assert (G : forall m, (fix go l m := match l with [] => ([], m) | d :: l' => let (x, m1) := pieces d m in let (y, m2) := go l' m1 in (", " :: x ++ y, m2) end) l m = pieces_more l m).
  { clear. induction l as [|d l IH]; intros m; [reflexivity|]. cbn [pieces_more]. destruct (pieces d m) as [x m1]. now rewrite IH. }
  now rewrite G.
Qed.
Fixpoint introduce_l (l : list doc) (m : memory) : memory := match l with [] => m | d :: l' => introduce_l l' (introduce_all d m) end.
Lemma introduce_Cat : forall l m, introduce_all (Cat l) m = introduce_l l m.
Proof. intros l m. cbn [introduce_all]. revert m. induction l as [|d l IH]; intros m; [reflexivity|]. apply IH. Qed.
Lemma introduce_Commas : forall l m, introduce_all (Commas l) m = introduce_l l m.
Proof. intros l m. cbn [introduce_all]. revert m. induction l as [|d l IH]; intros m; [reflexivity|]. apply IH. Qed.

(** ** Nothing is lost *)

Section Lost.

(** [Q]: the texts looked for; [al], [on]: the aliased expressions and the nodes
    that have such a text; [A]: the expressions that are given an alias. *)
Context (Q : string -> Prop) (Qdec : forall t, Q t \/ ~ Q t) (A al on : string -> Prop).

Definition has (d : doc) : Prop := exists t, In (Txt t) (subs d) /\ Q t.

Definition in_place (d : doc) : Prop :=
  match d with
  | Shared k d => A k -> has d -> al k
  | Once k _ d => (has d <-> on k) /\ (forall n' d', ~ In (Once k n' d') (subs d))
  | Aliased k _ d => A k /\ (has d <-> al k)
  | _ => True
  end.
Definition all_in_place (d : doc) : Prop := forall x, In x (subs d) -> in_place x.

Definition unseen (P : list string) (m : memory) : Prop :=
  (forall k a, In (k, a) (introduced m) -> A k /\ ~ al k) /\ (forall k, In k (written m) -> In k P \/ ~ on k).
Definition outside (P : list string) (d : doc) : Prop := forall k n x, In k P -> ~ In (Once k n x) (subs d).
Definition hit (l : list string) : Prop := exists t, In t l /\ Q t.

Lemma alias_In : forall k l a, alias_of k l = Some a -> In (k, a) l.
Proof.
  intros k. induction l as [|[k' b] l IH]; intros a H; [discriminate|]. cbn [alias_of] in H. destruct (String.eqb_spec k k') as [->|N].
  - injection H as <-. now left.
  - right. auto.
Qed.
Lemma existsb_In : forall k l, existsb (String.eqb k) l = true -> In k l.
Proof. intros k l H. apply existsb_exists in H. destruct H as (x & J & X). apply String.eqb_eq in X. now subst. Qed.

Lemma place_cat : forall l, (forall x, In x (flat_map subs l) -> in_place x) -> Forall all_in_place l.
Proof. intros l H. apply Forall_forall. intros d J x X. apply H. apply in_flat_map. eauto. Qed.
Lemma outside_cat : forall P l, (forall k n x, In k P -> ~ In (Once k n x) (flat_map subs l)) -> Forall (outside P) l.
Proof. intros P l H. apply Forall_forall. intros d J k n x X Y. apply (H k n x X). apply in_flat_map. eauto. Qed.
Lemma has_cat : forall l, (exists t, In (Txt t) (flat_map subs l) /\ Q t) <-> Exists has l.
Proof.
  intros l. rewrite Exists_exists. split.
  - intros (t & J & X). apply in_flat_map in J. destruct J as (d & D & J). exists d. split; [exact D|]. now exists t.
  - intros (d & D & t & J & X). exists t. split; [|exact X]. apply in_flat_map. eauto.
Qed.
Lemma has_Cat : forall l, has (Cat l) <-> Exists has l.
Proof.
  intros l. rewrite <- has_cat. unfold has. cbn [subs]. split; intros (t & J & X); exists t; (split; [|exact X]).
  - destruct J as [J|J]; [discriminate|exact J].
  - now right.
Qed.
Lemma has_Commas : forall l, has (Commas l) <-> Exists has l.
Proof.
  intros l. rewrite <- has_cat. unfold has. cbn [subs]. split; intros (t & J & X); exists t; (split; [|exact X]).
  - destruct J as [J|J]; [discriminate|exact J].
  - now right.
Qed.
Lemma has_under : forall d d', (forall t, In (Txt t) (subs d) <-> In (Txt t) (subs d')) -> has d <-> has d'.
Proof. intros d d' H. unfold has. split; intros (t & J & X); exists t; (split; [apply H, J|exact X]). Qed.
Lemma has_Shared : forall k d, has (Shared k d) <-> has d.
Proof. intros k d. apply has_under. intros t. cbn [subs]. split; [intros [J|J]; [discriminate|exact J]|now right]. Qed.
Lemma has_Once : forall k n d, has (Once k n d) <-> has d.
Proof. intros k n d. apply has_under. intros t. cbn [subs]. split; [intros [J|J]; [discriminate|exact J]|now right]. Qed.
Lemma has_Aliased : forall k a d, has (Aliased k a d) <-> has d.
Proof. intros k a d. apply has_under. intros t. cbn [subs]. split; [intros [J|J]; [discriminate|exact J]|now right]. Qed.

Lemma place_under : forall d x, all_in_place d -> In x (subs d) -> all_in_place x.
Proof. intros d x H J y Y. apply H. eapply subs_trans; eauto. Qed.
Lemma outside_under : forall P d x, outside P d -> In x (subs d) -> outside P x.
Proof. intros P d x H J k n y K Y. apply (H k n y K). eapply subs_trans; eauto. Qed.

Lemma unseen_introduce : forall P k a m, A k -> ~ al k -> unseen P m -> unseen P (introduce k a m).
Proof.
  intros P k a m X N [I W]. split; [|exact W]. intros k' a' [J|J]; [injection J as <- <-; auto|eauto].
Qed.

Lemma introduce_unseen : forall d P m, all_in_place d -> ~ has d -> unseen P m -> unseen P (introduce_all d m).
Proof.
  apply (doc_ind' (fun d => forall P m, all_in_place d -> ~ has d -> unseen P m -> unseen P (introduce_all d m))).
  - intros s P m _ _ H. exact H.
  - intros l H P m W N U. rewrite introduce_Cat. assert (F : Forall all_in_place l) by (apply place_cat; intros x X; apply W; now right).
    assert (G : Forall (fun d => ~ has d) l). { apply Forall_forall. intros d D X. apply N. apply has_Cat. apply Exists_exists. eauto. }
    clear W N. revert m U. induction l as [|d l IH]; intros m U; [exact U|]. inversion H; inversion F; inversion G; subst. cbn [introduce_l]. auto.
  - intros l H P m W N U. rewrite introduce_Commas. assert (F : Forall all_in_place l) by (apply place_cat; intros x X; apply W; now right).
    assert (G : Forall (fun d => ~ has d) l). { apply Forall_forall. intros d D X. apply N. apply has_Commas. apply Exists_exists. eauto. }
    clear W N. revert m U. induction l as [|d l IH]; intros m U; [exact U|]. inversion H; inversion F; inversion G; subst. cbn [introduce_l]. auto.
  - intros k d IH P m W N U. rewrite has_Shared in N. cbn [introduce_all]. apply IH; auto. eapply place_under; [exact W|]. right. apply subs_self.
  - intros k n d IH P m W N U. rewrite has_Once in N. cbn [introduce_all]. apply IH; auto. eapply place_under; [exact W|]. right. apply subs_self.
  - intros k a d IH P m W N U. rewrite has_Aliased in N. cbn [introduce_all]. destruct (W _ (or_introl eq_refl)) as [X Y].
    apply unseen_introduce; [exact X|rewrite <- Y; exact N|]. apply IH; auto. eapply place_under; [exact W|]. right. apply subs_self.
Qed.

Lemma has_dec : forall d, has d \/ ~ has d.
Proof.
  intros d. unfold has. induction (subs d) as [|y l IHl]; [right; intros (t & [] & _)|].
  destruct IHl as [(t & J & T)|N]; [left; exists t; split; [now right|exact T]|].
  destruct y as [t| | | | | ]; try (right; intros (t & [J|J] & T); [discriminate|apply N; now exists t]).
  destruct (Qdec t) as [T|T]; [left; exists t; split; [now left|exact T]|].
  right. intros (u & [J|J] & U); [injection J as ->; contradiction|apply N; now exists u].
Qed.

Definition kept (d : doc) : Prop := forall P m, all_in_place d -> outside P d -> unseen P m ->
  (has d -> hit (fst (pieces d m))) /\ (hit (fst (pieces d m)) \/ unseen P (snd (pieces d m))).

Lemma hit_l : forall a b, hit a -> hit (a ++ b).
Proof. intros a b (t & J & X). exists t. split; [apply in_or_app; now left|exact X]. Qed.
Lemma hit_r : forall a b, hit b -> hit (a ++ b).
Proof. intros a b (t & J & X). exists t. split; [apply in_or_app; now right|exact X]. Qed.
Lemma hit_cons : forall a b, hit b -> hit (a :: b).
Proof. intros a b. apply (hit_r [a]). Qed.

Lemma kept_cat : forall l, Forall kept l -> forall P m, Forall all_in_place l -> Forall (outside P) l -> unseen P m ->
  (Exists has l -> hit (fst (pieces_cat l m))) /\ (hit (fst (pieces_cat l m)) \/ unseen P (snd (pieces_cat l m))).
Proof.
  intros l H. induction H as [|d l D _ IH]; intros P m W O U; [split; [intros X; inversion X|right; exact U]|].
  inversion W; inversion O; subst. cbn [pieces_cat]. destruct (D P m) as [X Y]; try assumption. destruct (pieces d m) as [x m1]. cbn [fst snd] in X, Y.
  destruct Y as [Y|Y].
  - destruct (pieces_cat l m1) as [y m2]. cbn [fst snd]. split; [intros _|left]; now apply hit_l.
  - destruct (IH P m1) as [X' Y']; try assumption. destruct (pieces_cat l m1) as [y m2]. cbn [fst snd] in *. split.
    + intros Z. inversion Z; subst; [now apply hit_l; auto|now apply hit_r; auto].
    + destruct Y' as [Y'|Y']; [left; now apply hit_r|now right].
Qed.
Lemma kept_more : forall l, Forall kept l -> forall P m, Forall all_in_place l -> Forall (outside P) l -> unseen P m ->
  (Exists has l -> hit (fst (pieces_more l m))) /\ (hit (fst (pieces_more l m)) \/ unseen P (snd (pieces_more l m))).
Proof.
  intros l H. induction H as [|d l D _ IH]; intros P m W O U; [split; [intros X; inversion X|right; exact U]|].
  inversion W; inversion O; subst. cbn [pieces_more]. destruct (D P m) as [X Y]; try assumption. destruct (pieces d m) as [x m1]. cbn [fst snd] in X, Y.
  destruct Y as [Y|Y].
  - destruct (pieces_more l m1) as [y m2]. cbn [fst snd]. split; [intros _|left]; now apply hit_cons, hit_l.
  - destruct (IH P m1) as [X' Y']; try assumption. destruct (pieces_more l m1) as [y m2]. cbn [fst snd] in *. split.
    + intros Z. apply hit_cons. inversion Z; subst; [now apply hit_l; auto|now apply hit_r; auto].
    + destruct Y' as [Y'|Y']; [left; now apply hit_cons, hit_r|now right].
Qed.

Lemma all_kept : forall d, kept d.
Proof.
  apply doc_ind'.
  - intros s P m W O U. split; [|right; exact U]. intros (t & [J|[]] & X). injection J as <-. exists s. split; [now left|exact X].
  - intros l H P m W O U. rewrite has_Cat, pieces_Cat. apply kept_cat; auto; [apply place_cat; intros x X; apply W; now right|apply outside_cat; intros k n x K X; apply (O k n x K); now right].
  - intros l H P m W O U. rewrite has_Commas, pieces_Commas. assert (F : Forall all_in_place l) by (apply place_cat; intros x X; apply W; now right).
    assert (G : Forall (outside P) l) by (apply outside_cat; intros k n x K X; apply (O k n x K); now right). clear W O.
    destruct l as [|d l]; [split; [intros X; inversion X|right; exact U]|]. inversion F; inversion G; inversion H; subst.
    destruct (H10 P m) as [X Y]; try assumption. destruct (pieces d m) as [x m1]. cbn [fst snd] in X, Y. destruct Y as [Y|Y].
    + destruct (pieces_more l m1) as [y m2]. cbn [fst snd]. split; [intros _|left]; now apply hit_l.
    + destruct (kept_more l H11 P m1) as [X' Y']; try assumption. destruct (pieces_more l m1) as [y m2]. cbn [fst snd] in *. split.
      * intros Z. inversion Z; subst; [now apply hit_l; auto|now apply hit_r; auto].
      * destruct Y' as [Y'|Y']; [left; now apply hit_r|now right].
  - intros k d IH P m W O U. rewrite has_Shared. cbn [pieces]. assert (Wd : all_in_place d) by (eapply place_under; [exact W|]; right; apply subs_self).
    assert (Od : outside P d) by (eapply outside_under; [exact O|]; right; apply subs_self).
    destruct (alias_of k (introduced m)) as [a|] eqn:Q'; [|now apply IH]. cbn [fst snd].
    destruct (proj1 U k a (alias_In _ _ _ Q')) as [X N]. assert (ND : ~ has d) by (intros Z; apply N; exact (W _ (or_introl eq_refl) X Z)).
    split; [intros Z; contradiction|right]. now apply introduce_unseen.
  - intros k n d IH P m W O U. rewrite has_Once. cbn [pieces]. destruct (W _ (or_introl eq_refl)) as [X Y].
    assert (Wd : all_in_place d) by (eapply place_under; [exact W|]; right; apply subs_self).
    assert (Od : outside P d) by (eapply outside_under; [exact O|]; right; apply subs_self).
    destruct (existsb (String.eqb k) (written m)) eqn:S.
    + apply existsb_In in S. cbn [fst snd]. destruct (proj2 U k S) as [Z|Z]; [destruct (O k n d Z); now left|]. rewrite <- X in Z.
      split; [intros V; contradiction|right]. apply introduce_unseen; auto. destruct U as [U1 U2]. split; [exact U1|].
      intros k' [<-|J]; [right; now rewrite <- X|auto].
    + destruct (IH (k :: P) (mark k m)) as [G H]; [exact Wd| | |].
      * intros k' n' x [<-|J]; [apply Y|now apply Od].
      * destruct U as [U1 U2]. split; [exact U1|]. intros k' [<-|J]; [left; now left|]. destruct (U2 k' J); [left; now right|now right].
      * destruct (pieces d (mark k m)) as [x m1]. cbn [fst snd] in *. split; [intros Z; apply hit_cons, hit_l; auto|].
        destruct H as [H|H]; [left; now apply hit_cons, hit_l|].
        destruct (has_dec d) as [Z|Z]; [left; apply hit_cons, hit_l; auto|]. right. destruct H as [U1 U2]. split; [exact U1|].
        intros k' J. destruct (U2 k' J) as [[<-|V]|V]; auto. right. now rewrite <- X.
  - intros k a d IH P m W O U. rewrite has_Aliased. cbn [pieces]. destruct (W _ (or_introl eq_refl)) as [X Y].
    assert (Wd : all_in_place d) by (eapply place_under; [exact W|]; right; apply subs_self).
    assert (Od : outside P d) by (eapply outside_under; [exact O|]; right; apply subs_self).
    destruct (alias_of k (introduced m)) as [b|] eqn:S; cbn [fst snd].
    + destruct (proj1 U k b (alias_In _ _ _ S)) as [_ N]. assert (ND : ~ has d) by (now rewrite Y).
      split; [intros Z; contradiction|right]. apply unseen_introduce; auto. now apply introduce_unseen.
    + destruct (IH P m) as [G H]; auto. destruct (pieces d m) as [x m1]. cbn [fst snd] in *.
      split; [intros Z; apply hit_l; auto|]. destruct H as [H|H]; [left; now apply hit_l|].
      destruct (has_dec d) as [Z|Z]; [left; apply hit_l; auto|right]. apply unseen_introduce; auto. now rewrite <- Y.
Qed.

Theorem nothing_lost : forall d, all_in_place d -> has d -> hit (fst (pieces d nothing_written)).
Proof.
  intros d W H. apply (all_kept d [] nothing_written W); [intros k n x []| |exact H]. split; [intros k a []|intros k []].
Qed.

End Lost.

(** ** Nothing is added *)

Section Added.

(** What is written is a text of the document, the name of a node, an alias or
    one of the texts around them. *)
Definition from (d : doc) (t : string) : Prop :=
  In (Txt t) (subs d) \/ (exists k x, In (Once k t x) (subs d)) \/ (exists k x, In (Aliased k t x) (subs d))
  \/ In t ["("; ")"; ", "; " AS "].
Definition from_memory (d : doc) (m : memory) : Prop := forall k a, In (k, a) (introduced m) -> exists x, In (Aliased k a x) (subs d).

Lemma introduce_from : forall D d m, (forall x, In x (subs d) -> In x (subs D)) -> from_memory D m -> from_memory D (introduce_all d m).
Proof.
  intros D. apply (doc_ind' (fun d => forall m, (forall x, In x (subs d) -> In x (subs D)) -> from_memory D m -> from_memory D (introduce_all d m))).
  - intros s m _ H. exact H.
  - intros l H m S U. rewrite introduce_Cat. assert (G : Forall (fun d => forall x, In x (subs d) -> In x (subs D)) l).
    { apply Forall_forall. intros d J x X. apply S. right. apply in_flat_map. eauto. } clear S.
    revert m U. induction l as [|d l IH]; intros m U; [exact U|]. inversion H; inversion G; subst. cbn [introduce_l]. auto.
  - intros l H m S U. rewrite introduce_Commas. assert (G : Forall (fun d => forall x, In x (subs d) -> In x (subs D)) l).
    { apply Forall_forall. intros d J x X. apply S. right. apply in_flat_map. eauto. } clear S.
    revert m U. induction l as [|d l IH]; intros m U; [exact U|]. inversion H; inversion G; subst. cbn [introduce_l]. auto.
  - intros k d IH m S U. cbn [introduce_all]. apply IH; [|exact U]. intros x X. apply S. now right.
  - intros k n d IH m S U. cbn [introduce_all]. apply IH; [|exact U]. intros x X. apply S. now right.
  - intros k a d IH m S U. cbn [introduce_all]. assert (H : from_memory D (introduce_all d m)) by (apply IH; [|exact U]; intros x X; apply S; now right).
    intros k' a' [J|J]; [|eauto]. injection J as <- <-. exists d. apply S. now left.
Qed.

Definition drawn (D d : doc) : Prop := forall m, (forall x, In x (subs d) -> In x (subs D)) -> from_memory D m ->
  (forall t, In t (fst (pieces d m)) -> from D t) /\ from_memory D (snd (pieces d m)).

Lemma drawn_cat : forall D l, Forall (drawn D) l -> forall m, Forall (fun d => forall x, In x (subs d) -> In x (subs D)) l -> from_memory D m ->
  (forall t, In t (fst (pieces_cat l m)) -> from D t) /\ from_memory D (snd (pieces_cat l m)).
Proof.
  intros D l H. induction H as [|d l X _ IH]; intros m S U; [split; [intros t []|exact U]|]. inversion S; subst. cbn [pieces_cat].
  destruct (X m) as [P Q]; auto. destruct (pieces d m) as [x m1]. cbn [fst snd] in *. destruct (IH m1) as [P' Q']; auto. destruct (pieces_cat l m1) as [y m2].
  cbn [fst snd] in *. split; [|exact Q']. intros t J. apply in_app_or in J. destruct J; auto.
Qed.
Lemma drawn_more : forall D l, Forall (drawn D) l -> forall m, Forall (fun d => forall x, In x (subs d) -> In x (subs D)) l -> from_memory D m ->
  (forall t, In t (fst (pieces_more l m)) -> from D t) /\ from_memory D (snd (pieces_more l m)).
Proof.
  intros D l H. induction H as [|d l X _ IH]; intros m S U; [split; [intros t []|exact U]|]. inversion S; subst. cbn [pieces_more].
  destruct (X m) as [P Q]; auto. destruct (pieces d m) as [x m1]. cbn [fst snd] in *. destruct (IH m1) as [P' Q']; auto. destruct (pieces_more l m1) as [y m2].
  cbn [fst snd] in *. split; [|exact Q']. intros t [J|J]; [subst; right; right; right; cbn; auto|]. apply in_app_or in J. destruct J; auto.
Qed.

Lemma all_drawn : forall D d, drawn D d.
Proof.
  intros D. apply doc_ind'.
  - intros s m S U. split; [|exact U]. intros t [<-|[]]. left. apply S. now left.
  - intros l H m S U. rewrite pieces_Cat. apply drawn_cat; auto. apply Forall_forall. intros d J x X. apply S. right. apply in_flat_map. eauto.
  - intros l H m S U. rewrite pieces_Commas. assert (G : Forall (fun d => forall x, In x (subs d) -> In x (subs D)) l).
    { apply Forall_forall. intros d J x X. apply S. right. apply in_flat_map. eauto. } clear S.
    destruct l as [|d l]; [split; [intros t []|exact U]|]. inversion G as [|? ? G1 G2]; inversion H as [|? ? V1 V2]; subst.
    destruct (V1 m) as [P Q]; auto. destruct (pieces d m) as [x m1]. cbn [fst snd] in *. destruct (drawn_more D l V2 m1) as [P' Q']; auto.
    destruct (pieces_more l m1) as [y m2]. cbn [fst snd] in *. split; [|exact Q']. intros t J. apply in_app_or in J. destruct J; auto.
  - intros k d IH m S U. cbn [pieces]. assert (Sd : forall x, In x (subs d) -> In x (subs D)) by (intros x X; apply S; now right).
    destruct (alias_of k (introduced m)) as [a|] eqn:Q; [|now apply IH]. cbn [fst snd]. split; [|now apply introduce_from].
    intros t [<-|[]]. right. right. left. apply alias_In in Q. destruct (U _ _ Q) as [x X]. eauto.
  - intros k n d IH m S U. cbn [pieces]. assert (Sd : forall x, In x (subs d) -> In x (subs D)) by (intros x X; apply S; now right).
    destruct (existsb (String.eqb k) (written m)).
    + cbn [fst snd]. split; [|now apply introduce_from]. intros t [<-|[<-|[<-|[]]]]; [right; right; right; cbn; auto| |right; right; right; cbn; auto].
      right. left. exists k, d. apply S. now left.
    + destruct (IH (mark k m)) as [P Q]; auto. destruct (pieces d (mark k m)) as [x m1]. cbn [fst snd] in *. split; [|exact Q].
      intros t [<-|J]; [right; right; right; cbn; auto|]. apply in_app_or in J. destruct J as [J|[<-|[]]]; [auto|right; right; right; cbn; auto].
  - intros k a d IH m S U. cbn [pieces]. assert (Sd : forall x, In x (subs d) -> In x (subs D)) by (intros x X; apply S; now right).
    assert (Z : forall m', from_memory D m' -> from_memory D (introduce k a m')).
    { intros m' V k' a' [J|J]; [|eauto]. injection J as <- <-. exists d. apply S. now left. }
    assert (Y : from D a) by (right; right; left; exists k, d; apply S; now left).
    destruct (alias_of k (introduced m)).
    + cbn [fst snd]. split; [intros t [<-|[]]; exact Y|]. apply Z. now apply introduce_from.
    + destruct (IH m) as [P Q]; auto. destruct (pieces d m) as [x m1]. cbn [fst snd] in *. split; [|now apply Z].
      intros t J. apply in_app_or in J. destruct J as [J|[<-|[<-|[]]]]; [auto|right; right; right; cbn; auto|exact Y].
Qed.

Theorem nothing_added : forall d t, In t (fst (pieces d nothing_written)) -> from d t.
Proof. intros d t. apply (all_drawn d d nothing_written); [auto|intros k a []]. Qed.

End Added.
