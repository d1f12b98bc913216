(** What the text of a statement keeps of the parameters it uses. *)

From Coq Require Import Ascii String List ZArith Bool Lia.
From Verif Require Import GoStr Escape Num VTree SpecLex SpecNum SpecSpace SpecTokens EscapeProofs GoStrProofs TokenProofs TokenTexts
  Ast SpecDoc SpecPrint SpecShape PrintProofs TokenDocs SpecUses UsesDocs.
Import ListNotations.
Open Scope string_scope.
Open Scope list_scope.

(** ** Parts *)

Lemma part_trans : forall e c d, part e c -> part c d -> part e d.
Proof. intros e c d H. induction H; intros J; [exact J|]. eapply part_of_child; eauto. Qed.
Lemma part_child : forall e c, In c (children e) -> part e c.
Proof. intros e c H. eapply part_of_child; [exact H|constructor]. Qed.
Lemma part_end : forall e d, part e d -> e = d \/ exists c, In c (children e) /\ part c d.
Proof. intros e d [|c d' H J]; eauto. Qed.

Lemma not_own_part : forall e c, In c (children e) -> ~ part c e.
Proof.
  apply (expr_ind' (fun e => forall c, In c (children e) -> ~ part c e)). intros e H c J P. rewrite Forall_forall in H.
  destruct (part_end _ _ P) as [->|(c' & C & P')].
  - apply (H _ J _ J). constructor.
  - apply (H _ J _ C). eapply part_trans; [exact P'|]. now apply part_child.
Qed.

Lemma within_trans : forall q c d, within q c -> within c d -> within q d.
Proof. intros q c d H. induction H; intros J; [exact J|]. eapply within_clause; eauto. Qed.

Section Uses.
Context (E : env) (NS : no_space_in_names E) (GD : asks_nothing E (e_guid E)) (K : key -> Prop).

(** ** Texts without dollar signs *)

Notation mute := (asks_nothing E).

Lemma mute_nil : mute "".
Proof. exists []. split; [reflexivity|intros []]. Qed.
Lemma name_mute : forall n, mute (escape_if_necessary E n).
Proof.
  intros n. exists (name_tokens E n). split; [apply soft_tokens, (name_soft E NS)|]. unfold name_tokens.
  destruct (blank n); [intros []|]. destruct (is_identifier E n); intros [H|[]]; discriminate.
Qed.
Lemma resolve_mute : forall n, mute (resolve E n).
Proof. intros n. unfold resolve. destruct (String.eqb n ""); [exact GD|apply name_mute]. Qed.
Lemma lookup_mute : forall n, n <> "" -> mute (lookup_text E n).
Proof.
  intros n B. unfold lookup_text. destruct (String.eqb_spec n "*") as [->|N].
  - exists [Mark "."; Mark "*"]. split; [vm_compute; reflexivity|]. intros [H|[H|[]]]; discriminate.
  - exists (Mark "." :: name_tokens E n). split.
    + apply soft_tokens. apply dot_hard; [apply (name_soft E NS)|]. now apply name_first.
    + intros [H|H]; [discriminate|]. unfold name_tokens in H. destruct (blank n); [destruct H|].
      destruct (is_identifier E n); destruct H as [H|[]]; discriminate.
Qed.
Lemma number_mute : forall n, (0 <= n_mant n)%Z -> mute (number_text n).
Proof.
  intros n H. exists (number_tokens n). split; [apply soft_tokens; now apply number_soft|]. unfold number_tokens.
  destruct (n_neg n); cbn [app]; [intros [J|[J|[]]]|intros [J|[]]]; discriminate.
Qed.
Lemma literal_mute : forall s, mute (string_literal s).
Proof. intros s. exists [Literal s]. split; [apply soft_tokens, hard_soft, literal_hard|]. intros [J|[]]; discriminate. Qed.
Lemma label_mute : forall v, mute (label_text v).
Proof.
  intros v. destruct (String.eqb_spec v "") as [->|N]; [exact mute_nil|].
  exists [Mark ":"; Name v]. split; [now apply soft_tokens, label_soft|]. intros [J|[J|[]]]; discriminate.
Qed.
Lemma types_mute : forall vs, mute (rel_types_text vs).
Proof.
  intros vs. unfold rel_types_text. destruct vs as [|v vs]; [exact mute_nil|].
  generalize (filter (fun x => negb (String.eqb x "")) (v :: vs)). intros l.
  assert (J : exists ts, soft E (join "|" (map escape_name l)) ts /\ ~ In (Mark "$") ts).
  { induction l as [|x l (ts & IH & Q)]; [exists []; split; [apply hard_soft, hard_nil|intros []]|].
    destruct l as [|y l]; [exists [Name x]; split; [apply quoted_soft|intros [J|[]]; discriminate]|].
    cbn [map]. rewrite join_cons2. cbn [map] in IH. exists ([Name x] ++ [Mark "|"] ++ ts)%list. split.
    - apply soft_led_soft; [apply quoted_soft|right; apply strong_app; apply bar_strong|].
      apply hard_soft_app; [apply mark_bar|exact IH].
    - intros [J|[J|J]]; [discriminate|discriminate|exact (Q J)]. }
  destruct J as (ts & J & Q). exists ([Mark ":"] ++ ts)%list. split.
  - apply soft_tokens. apply hard_soft_app; [apply mark_colon|exact J].
  - intros [H|H]; [discriminate|exact (Q H)].
Qed.
Lemma length_mute : forall u lo hi, mute (rel_length_text u lo hi).
Proof.
  intros u lo hi. unfold rel_length_text.
  destruct u; [exists [Mark "*"]; split; [reflexivity|intros [J|[]]; discriminate]|].
  assert (I : forall z, exists ts, soft E (itoa z) ts /\ ~ In (Mark "$") ts).
  { intros z. unfold itoa. destruct (Z.ltb_spec z 0).
    - exists ([Mark "-"] ++ [Number (digits (- z))])%list. split; [apply hard_soft_app; [apply mark_minus|apply digits_soft; lia]|].
      intros [J|[J|[]]]; discriminate.
    - exists [Number (digits z)]. split; [now apply digits_soft|intros [J|[]]; discriminate]. }
  assert (O : forall o : option Z, exists ts, soft E (match o with Some m => itoa m | None => "" end) ts /\ ~ In (Mark "$") ts).
  { intros [m|]; [apply I|exists []; split; [apply hard_soft, hard_nil|intros []]]. }
  destruct (O lo) as (t1 & H1 & Q1). destruct (O hi) as (t2 & H2 & Q2).
  assert (G : mute ("*" ++ (match lo with Some m => itoa m | None => "" end) ++ ".." ++ (match hi with Some m => itoa m | None => "" end))%string).
  { exists ([Mark "*"] ++ t1 ++ [Mark ".."] ++ t2)%list. split.
    - apply soft_tokens. apply hard_soft_app; [apply mark_star|]. apply soft_led_soft; [exact H1|right; apply strong_app, dots_strong|].
      apply hard_soft_app; [apply dots_hard|exact H2].
    - rewrite !in_app_iff. cbn [In]. intros [[J|[]]|[J|[[J|[]]|J]]]; [discriminate|exact (Q1 J)|discriminate|exact (Q2 J)]. }
  destruct lo, hi; try exact G. exact mute_nil.
Qed.

Ltac literally s := lazymatch s with EmptyString => idtac | String _ ?r => literally r end.
Ltac fixed :=
  match goal with |- asks_nothing _ ?s =>
    literally s;
    let x := eval vm_compute in (tokens E s) in
    match x with Some ?ts => exists ts; split; [vm_compute; reflexivity|cbn [In]; intuition discriminate] end
  end.

Lemma op_mute : forall o, mute (op_word o).
Proof. intros o. destruct o; cbn [op_word]; fixed. Qed.

(** The text of a parameter. *)
Lemma param_tokens : forall x, is_identifier E x = true -> tokens E ("$" ++ x)%string = Some [Mark "$"; Word x].
Proof.
  intros x H. apply soft_tokens. apply (hard_soft_app E "$" [Mark "$"] x [Word x]); [|now apply (word_soft E NS)].
  apply one_hard; reflexivity.
Qed.
Lemma param_loud : forall x, is_identifier E x = true -> ~ mute ("$" ++ x)%string.
Proof. intros x H (ts & T & N). rewrite (param_tokens x H) in T. injection T as <-. apply N. now left. Qed.

(** ** The documents inside a printed expression *)

Context (x : string) (IX : is_identifier E x = true).
Definition wanted (t : string) : Prop := t = ("$" ++ x)%string.
Notation hasx := (has wanted).

Lemma wanted_dec : forall t, wanted t \/ ~ wanted t.
Proof. intros t. unfold wanted. destruct (String.string_dec t ("$" ++ x)); auto. Qed.
Lemma mute_unwanted : forall t, mute t -> ~ wanted t.
Proof. intros t M ->. now apply (param_loud x). Qed.
Lemma has_mute : forall t, mute t -> ~ hasx (Txt t).
Proof. intros t M (u & [J|[]] & W). injection J as <-. now apply (mute_unwanted t). Qed.

Definition here (e : expr) (d : doc) : Prop :=
  match d with
  | Txt t => mute t \/ exists k y, e = EParam k y /\ t = ("$" ++ y)%string
  | Shared k d' => (own_key e = Some k /\ print E e = d) \/ In k (frame_keys e) \/ ~ hasx d'
  | Once k n d' => exists kn ls ps, e = ENode k (Some (kn, n)) ls ps /\ print E e = Shared k d
                     /\ (forall z, In z (subs d') -> match z with Once _ _ _ => exists c, In c (children e) /\ In z (subs (print E c)) | _ => True end)
  | Aliased k a d' => exists kk c b, e = EAlias kk k c b /\ d' = print E c /\ mute a
  | _ => True
  end.

Definition covered (e : expr) (d : doc) : Prop :=
  forall z, In z (subs d) -> here e z \/ exists c, In c (children e) /\ In z (subs (print E c)).

Lemma cov_txt : forall e t, mute t -> covered e (Txt t).
Proof. intros e t M z [<-|[]]. left. now left. Qed.
Lemma cov_cat : forall e l, Forall (covered e) l -> covered e (Cat l).
Proof.
  intros e l H z [<-|J]; [left; exact I|]. apply in_flat_map in J. destruct J as (d & D & J). rewrite Forall_forall in H. eapply H; eauto.
Qed.
Lemma cov_commas : forall e l, Forall (covered e) l -> covered e (Commas l).
Proof.
  intros e l H z [<-|J]; [left; exact I|]. apply in_flat_map in J. destruct J as (d & D & J). rewrite Forall_forall in H. eapply H; eauto.
Qed.
Lemma cov_child : forall e c, In c (children e) -> covered e (print E c).
Proof. intros e c H z J. right. eauto. Qed.
Lemma cov_frame : forall e k d, In k (frame_keys e) -> covered e d -> covered e (Shared k d).
Proof. intros e k d H C z [<-|J]; [left; right; now left|now apply C]. Qed.
Lemma cov_leaf : forall e k t, mute t -> covered e (Shared k (Txt t)).
Proof. intros e k t H z [<-|[<-|[]]]; left; [right; right; now apply has_mute|now left]. Qed.
Lemma cov_own : forall e k d, own_key e = Some k -> print E e = Shared k d -> covered e d -> covered e (Shared k d).
Proof. intros e k d H P C z [<-|J]; [left; left; auto|now apply C]. Qed.
Lemma cov_op : forall e o, covered e (print_op E o).
Proof. intros e o. apply cov_leaf, op_mute. Qed.
Lemma cov_labels : forall e ls, Forall (covered e) (map print_label ls).
Proof. intros e ls. apply Forall_forall. intros d J. apply in_map_iff in J. destruct J as ([k v] & <- & _). apply cov_leaf, label_mute. Qed.
Lemma cov_listing : forall e es, (forall c, In c es -> In c (children e)) -> covered e (listing (print E) es).
Proof.
  intros e es H. apply cov_commas. apply Forall_forall. intros d J. apply in_flat_map in J. destruct J as (c & C & J).
  destruct (silent c); [destruct J|]. destruct J as [<-|[]]. apply cov_child. auto.
Qed.
Lemma cov_literals : forall e es, (forall c, In c es -> In c (children e)) -> covered e (literals (map (print E) es)).
Proof.
  intros e [|c es] H; [apply cov_txt; exact mute_nil|]. apply cov_cat. constructor; [apply cov_child, H; now left|].
  apply Forall_forall. intros d J. apply in_flat_map in J. destruct J as (y & Y & J). apply in_map_iff in Y. destruct Y as (c' & <- & C).
  destruct J as [<-|[<-|[]]]; [apply cov_txt; fixed|apply cov_child, H; now right].
Qed.
Lemma cov_maybe : forall e o, (forall c, In c (opt_list o) -> In c (children e)) -> Forall (covered e) (maybe (option_map (print E) o)).
Proof. intros e [c|] H; constructor; [|constructor]. apply cov_child, H. now left. Qed.

Ltac among := cbn [children opt_list]; repeat (progress (rewrite ?in_app_iff; cbn [In])); tauto.
Ltac kids := intros ? ?; among.
Ltac cover1 :=
  match goal with
  | |- Forall _ [] => constructor
  | |- Forall _ (map print_label _) => apply cov_labels
  | |- Forall _ (maybe (option_map (print E) _)) => apply cov_maybe; kids
  | |- Forall _ (_ ++ _) => apply Forall_app; split
  | |- Forall _ (_ :: _) => constructor
  | |- Forall _ (if ?b then _ else _) => destruct b
  | |- Forall _ (match ?b with Some _ => _ | None => _ end) => first [destruct b as [[? ?]|]|destruct b]
  | |- covered _ (Txt _) => apply cov_txt
  | |- covered _ (Cat _) => apply cov_cat
  | |- covered _ (print_op _ _) => apply cov_op
  | |- covered _ (print E _) => apply cov_child; among
  | |- covered _ (listing (print E) _) => apply cov_listing; kids
  | |- covered _ (literals (map (print E) _)) => apply cov_literals; kids
  | |- covered _ (Shared _ (Txt _)) => apply cov_leaf
  | |- covered _ (if ?b then _ else _) => destruct b
  | |- asks_nothing _ (escape_if_necessary _ _) => apply name_mute
  | |- asks_nothing _ (resolve _ _) => apply resolve_mute
  | |- asks_nothing _ (string_literal _) => apply literal_mute
  | |- asks_nothing _ (rel_types_text _) => apply types_mute
  | |- asks_nothing _ (rel_length_text _ _ _) => apply length_mute
  | |- asks_nothing _ (if ?b then _ else _) => destruct b
  | |- asks_nothing _ _ => first [assumption|fixed]
  end.

Definition sound (e : expr) : Prop := own_shape E K e /\ own_names E e.

Lemma print_covered : forall e, sound e -> covered e (print E e).
Proof.
  intros e [S N].
  assert (OWN : forall k d, own_key e = Some k -> print E e = Shared k d -> covered e d -> covered e (print E e)).
  { intros k d O P C. rewrite P. now apply cov_own. }
  destruct e; try (eapply OWN; [reflexivity|cbn [print]; reflexivity|]; repeat cover1; fail).
  - (* parameter *) eapply OWN; [reflexivity|cbn [print]; reflexivity|]. intros z [<-|[]]. left. right. eauto.
  - (* number *) eapply OWN; [reflexivity|cbn [print]; reflexivity|]. apply cov_txt, number_mute. exact S.
  - (* lookup *) eapply OWN; [reflexivity|cbn [print]; reflexivity|]. apply cov_txt, lookup_mute. exact S.
  - (* compound *) destruct cs as [|c [|c' cs]]; [apply cov_txt, mute_nil|apply (cov_child (ECompound k o [c]) c); now left|].
    eapply OWN; [reflexivity|cbn [print]; reflexivity|]. repeat cover1.
    apply Forall_forall. intros d J. apply in_flat_map in J. destruct J as (y & Y & [<-|[<-|[]]]); [apply cov_op|].
    apply cov_child. cbn [children]. now right.
  - (* boolean function *) apply (cov_child (EBoolFun e) e). now left.
  - (* function *) eapply OWN; [reflexivity|cbn [print]; reflexivity|]. repeat cover1. apply cov_frame; [now left|]. repeat cover1.
  - (* alias *) eapply OWN; [reflexivity|cbn [print]; reflexivity|]. intros z [<-|J]; [left; exists k, e, alias; repeat split; apply name_mute|].
    right. exists e. split; [now left|exact J].
  - (* list operator *) eapply OWN; [reflexivity|cbn [print]; reflexivity|]. repeat cover1. apply cov_frame; [now left|]. repeat cover1.
  - (* exists *) eapply OWN; [reflexivity|cbn [print]; reflexivity|]. repeat cover1. apply cov_frame; [now left|]. repeat cover1.
  - (* node *) destruct name as [[kn n]|]; [|eapply OWN; [reflexivity|cbn [print]; reflexivity|]; repeat cover1].
    eapply OWN; [reflexivity|cbn [print]; reflexivity|]. intros z [<-|J].
    + left. exists kn, labels, props. split; [reflexivity|]. split; [reflexivity|]. intros z J. destruct z; try exact I.
      cbn [subs flat_map] in J. destruct J as [J|J]; [discriminate|]. rewrite flat_map_app, in_app_iff in J.
      destruct J as [J|J]; [cbn in J; intuition discriminate|]. rewrite flat_map_app, in_app_iff in J. destruct J as [J|J].
      * exfalso. apply in_flat_map in J. destruct J as (d & D & J). apply in_map_iff in D. destruct D as ([kl v] & <- & _).
        cbn in J. intuition discriminate.
      * destruct props as [c|]; [|destruct J]. exists c. split; [now left|]. cbn [maybe option_map flat_map] in J. now rewrite app_nil_r in J.
    + revert z J. change (covered (ENode k (Some (kn, n)) labels props)
        (Cat ([Shared kn (Txt (resolve E n))] ++ map print_label labels ++ maybe (option_map (print E) props)))).
      repeat cover1.
  - (* details *) eapply OWN; [reflexivity|cbn [print]; reflexivity|].
    assert (P : Forall (covered (EDetails k d name types len props))
      (maybe (option_map (print E) name)
                    ++ match types with Some (kt, v) => [Shared kt (Txt (rel_types_text v))] | None => [] end
                    ++ match len with Some (kl, u, lo, hi) => [Shared kl (Txt (rel_length_text u lo hi))] | None => [] end
                    ++ maybe (option_map (print E) props))).
    { destruct len as [[[[? ?] ?] ?]|]; repeat cover1. }
    destruct (maybe (option_map (print E) name) ++ _) as [|p ps]; destruct d; repeat cover1; inversion P; assumption.
  - (* chain *) eapply OWN; [reflexivity|cbn [print]; reflexivity|]. repeat cover1.
    apply Forall_forall. intros d J. apply in_flat_map in J. destruct J as (y & Y & J).
    assert (C : forall c, In c [fst y; snd y] -> covered (EChain k rels last) (print E c)).
    { intros c C. apply cov_child. cbn [children]. apply in_or_app. left. apply in_flat_map. eauto. }
    destruct J as [<-|[<-|[]]]; apply C; cbn; auto.
  - (* case *) eapply OWN; [reflexivity|cbn [print]; reflexivity|]. repeat cover1.
    + apply Forall_forall. intros d J. apply in_flat_map in J. destruct J as (y & Y & J).
      assert (C : forall c, In c [snd (fst y); snd y] -> covered (ECase k generic subject branches default) (print E c)).
      { intros c C. apply cov_child. cbn [children]. rewrite !in_app_iff. right. left. apply in_flat_map. eauto. }
      destruct J as [<-|[<-|[]]]; [|apply C; cbn; auto]. apply cov_frame; [cbn [frame_keys]; apply in_or_app; left; apply in_map_iff; eauto|].
      apply cov_cat. constructor; [apply cov_txt; fixed|]. constructor; [apply C; cbn; auto|]. constructor; [apply cov_txt; fixed|constructor].
    + cbn [fst snd]. apply cov_frame; [cbn [frame_keys]; apply in_or_app; right; now left|]. apply cov_cat. constructor; [apply cov_txt; fixed|]. constructor; [|constructor].
      apply cov_child. cbn [children]. rewrite !in_app_iff. right. right. now left.
Qed.

(** ** Inside *)

Definition all_sound (e : expr) : Prop := forall c, part e c -> sound c.

Lemma inside_print : forall e, all_sound e -> forall z, In z (subs (print E e)) -> exists c, part e c /\ here c z.
Proof.
  apply (expr_ind' (fun e => all_sound e -> forall z, In z (subs (print E e)) -> exists c, part e c /\ here c z)).
  intros e H S z J. destruct (print_covered e (S e (part_self e)) z J) as [X|(c & C & X)]; [exists e; split; [constructor|exact X]|].
  rewrite Forall_forall in H. destruct (H c C) with (z := z) as (c' & P & Y); [intros d D; apply S; eapply part_of_child; eauto|exact X|].
  exists c'. split; [eapply part_of_child; eauto|exact Y].
Qed.

Lemma has_sub : forall d z, In z (subs d) -> hasx z -> hasx d.
Proof. intros d z J (t & T & W). exists t. split; [eapply subs_trans; eauto|exact W]. Qed.

Lemma silent_no : forall e, silent e = true -> ~ hasx (print E e).
Proof.
  apply (expr_ind' (fun e => silent e = true -> ~ hasx (print E e))). intros e H S. rewrite Forall_forall in H.
  destruct e; try discriminate S.
  - destruct cs as [|c [|c' cs]]; try discriminate S; [apply has_mute, mute_nil|]. apply (H c); [now left|exact S].
  - apply (H e); [now left|exact S].
Qed.
Lemma in_listing : forall es c, In c es -> hasx (print E c) -> hasx (listing (print E) es).
Proof.
  intros es c C H. apply (has_sub _ (print E c)); [|exact H]. right. apply in_flat_map. exists (print E c). split; [|apply subs_self].
  apply in_flat_map. exists c. split; [exact C|]. destruct (silent c) eqn:S; [destruct (silent_no c S H)|now left].
Qed.
Lemma in_cat : forall l d, In d l -> hasx d -> hasx (Cat l).
Proof. intros l d J H. apply (has_sub _ d); [|exact H]. right. apply in_flat_map. exists d. split; [exact J|apply subs_self]. Qed.
Lemma in_maybe : forall o c, In c (opt_list o) -> In (print E c) (maybe (option_map (print E) o)).
Proof. intros [y|] c J; [|destruct J]. destruct J as [<-|[]]. now left. Qed.
Lemma in_literals : forall es c, In c es -> hasx (print E c) -> hasx (literals (map (print E) es)).
Proof.
  intros [|y es] c J H; [destruct J|]. cbn [map literals]. apply (in_cat _ (print E c)); [|exact H]. destruct J as [<-|J]; [now left|].
  right. apply in_flat_map. exists (print E c). split; [now apply in_map|]. right. now left.
Qed.

Ltac child_cases J :=
  cbn [children] in J; repeat (progress (rewrite ?in_app_iff in J; cbn [In] in J));
  repeat match type of J with
  | _ \/ _ => destruct J as [J|J]
  | _ = _ => subst
  | False => destruct J
  end.
Ltac memb := repeat match goal with H : In ?c (opt_list ?o) |- _ => apply in_maybe in H end;
  repeat (progress (rewrite ?in_app_iff; cbn [In])); tauto.
Ltac reach c H := apply (in_cat _ (print E c)); [memb|exact H].

Lemma has_child : forall e c, In c (children e) -> hasx (print E c) -> hasx (print E e).
Proof.
  intros e c J H.
  assert (SH : forall k d, print E e = Shared k d -> hasx d -> hasx (print E e)) by (intros k d -> D; now apply has_Shared).
  destruct e; child_cases J;
    try (eapply SH; [cbn [print]; reflexivity|]);
    try (reach c H; fail);
    try (eapply in_listing; eassumption);
    try (eapply in_cat; [|eapply in_listing; eassumption]; memb; fail);
    try (destruct (in_parens o); reach c H; fail);
    try exact H.
  - (* list literal *) eapply in_cat; [|eapply in_literals; eassumption]. memb.
  - (* compound *) destruct cs as [|d [|d' cs]]; [destruct J|destruct J as [<-|[]]; exact H|].
    eapply SH; [cbn [print]; reflexivity|]. destruct J as [<-|J]; [reach d H|].
    eapply in_cat; [right; right; left; reflexivity|]. apply (in_cat _ (print E c)); [|exact H].
    apply in_flat_map. exists c. split; [exact J|right; now left].
  - (* function *) eapply in_cat; [|apply has_Shared; eapply in_listing; eassumption]. memb.
  - (* alias *) now apply has_Aliased.
  - (* list operator *) eapply in_cat; [right; left; reflexivity|]. apply has_Shared. reach c H.
  - eapply in_cat; [right; left; reflexivity|]. apply has_Shared. reach c H.
  - (* list comprehension *) destruct def as [d|]; [|destruct J]. destruct J as [<-|[]]. reach d H.
  - (* exists *) eapply in_cat; [right; left; reflexivity|]. apply has_Shared. reach c H.
  - eapply in_cat; [right; left; reflexivity|]. apply has_Shared. reach c H.
  - (* node *) destruct name as [[kn n]|]; (eapply SH; [cbn [print]; reflexivity|]).
    + apply has_Once. reach c H.
    + eapply in_cat; [right; left; reflexivity|]. reach c H.
  - (* details *)
    match goal with |- hasx (match d with LTR => Cat [_; match ?l with [] => _ | _ => _ end; _] | _ => _ end) =>
      assert (P : hasx (match l with [] => Txt "" | _ => Cat [Txt "["; Cat l; Txt "]"] end)) end.
    { match goal with |- hasx (match ?l with [] => _ | _ => _ end) => assert (Q : In (print E c) l) by memb; destruct l as [|y l']; [destruct Q|] end.
      eapply in_cat; [right; left; reflexivity|]. now apply (in_cat _ (print E c)). }
    destruct d; [eapply in_cat; [right; left; reflexivity|exact P]..|exact P].
  - match goal with |- hasx (match d with LTR => Cat [_; match ?l with [] => _ | _ => _ end; _] | _ => _ end) =>
      assert (P : hasx (match l with [] => Txt "" | _ => Cat [Txt "["; Cat l; Txt "]"] end)) end.
    { match goal with |- hasx (match ?l with [] => _ | _ => _ end) => assert (Q : In (print E c) l) by memb; destruct l as [|y l']; [destruct Q|] end.
      eapply in_cat; [right; left; reflexivity|]. now apply (in_cat _ (print E c)). }
    destruct d; [eapply in_cat; [right; left; reflexivity|exact P]..|exact P].
  - (* chain *) apply (in_cat _ (print E c)); [|exact H]. apply in_or_app. left. apply in_flat_map in J. destruct J as (y & Y & J).
    apply in_flat_map. exists y. split; [exact Y|]. destruct J as [<-|[<-|[]]]; cbn; auto.
  - (* case *) apply in_flat_map in J. destruct J as (y & Y & [J|[J|[]]]); subst c.
    + eapply in_cat; [|apply has_Shared; apply (in_cat [Txt " WHEN "; print E (snd (fst y)); Txt " THEN "] (print E (snd (fst y)))); [right; now left|exact H]].
      rewrite !in_app_iff. right. right. left. apply in_flat_map. exists y. split; [exact Y|]. now left.
    + apply (in_cat _ (print E (snd y))); [|exact H]. rewrite !in_app_iff. right. right. left. apply in_flat_map. exists y. split; [exact Y|]. right. now left.
  - destruct default as [[kd d]|]; [|destruct J]. destruct J as [<-|[]]. cbn [fst snd] in *.
    eapply in_cat; [|apply has_Shared; apply (in_cat [Txt " ELSE "; print E d] (print E d)); [right; now left|exact H]].
    rewrite !in_app_iff. right. right. right. left. now left.
Qed.
Lemma has_part : forall e c, part e c -> hasx (print E c) -> hasx (print E e).
Proof. intros e c P. induction P as [e|e c d C P IH]; intros G; [exact G|]. eapply has_child; eauto. Qed.

(** ** Statements *)

Definition hereq (q : query) (d : doc) : Prop :=
  match d with
  | Txt t => mute t
  | Shared k d' => In k (clause_keys q) \/ ~ hasx d'
  | Once _ _ _ | Aliased _ _ _ => False
  | _ => True
  end.
Definition coveredq (q : query) (d : doc) : Prop :=
  forall z, In z (subs d) -> hereq q z \/ (exists c, In c (clause_exprs q) /\ In z (subs (print E c)))
                             \/ (exists c, In c (clauses_of q) /\ In z (subs (print_query E c))).

Lemma covq_txt : forall q t, mute t -> coveredq q (Txt t).
Proof. intros q t M z [<-|[]]. now left. Qed.
Lemma covq_cat : forall q l, Forall (coveredq q) l -> coveredq q (Cat l).
Proof.
  intros q l H z [<-|J]; [left; exact I|]. apply in_flat_map in J. destruct J as (d & D & J). rewrite Forall_forall in H. eapply H; eauto.
Qed.
Lemma covq_expr : forall q c, In c (clause_exprs q) -> coveredq q (print E c).
Proof. intros q c H z J. right. left. eauto. Qed.
Lemma covq_query : forall q c, In c (clauses_of q) -> coveredq q (print_query E c).
Proof. intros q c H z J. right. right. eauto. Qed.
Lemma covq_queries : forall q l, (forall c, In c l -> In c (clauses_of q)) -> Forall (coveredq q) (map (print_query E) l).
Proof. intros q l H. apply Forall_forall. intros d J. apply in_map_iff in J. destruct J as (c & <- & C). apply covq_query. auto. Qed.
Lemma covq_own : forall q k d, In k (clause_keys q) -> coveredq q d -> coveredq q (Shared k d).
Proof. intros q k d H C z [<-|J]; [left; now left|now apply C]. Qed.
Lemma covq_leaf : forall q k t, mute t -> coveredq q (Shared k (Txt t)).
Proof. intros q k t H z [<-|[<-|[]]]; left; [right; now apply has_mute|exact H]. Qed.
Lemma covq_maybe : forall q o, (forall c, In c (opt_list o) -> In c (clause_exprs q)) -> Forall (coveredq q) (maybe (option_map (print E) o)).
Proof. intros q [c|] H; constructor; [|constructor]. apply covq_expr, H. now left. Qed.

Ltac amongq := cbn [clause_exprs clauses_of opt_list]; repeat (progress (rewrite ?in_app_iff; cbn [In])); tauto.
Ltac kidsq := intros ? ?; amongq.
Ltac coverq :=
  match goal with
  | |- Forall _ [] => constructor
  | |- Forall _ (maybe (option_map (print E) _)) => apply covq_maybe; kidsq
  | |- Forall _ (map (print_query E) _) => apply covq_queries; kidsq
  | |- Forall _ (_ ++ _) => apply Forall_app; split
  | |- Forall _ (_ :: _) => constructor
  | |- Forall _ (if ?b then _ else _) => destruct b
  | |- coveredq _ (Txt _) => apply covq_txt
  | |- coveredq _ (Cat _) => apply covq_cat
  | |- coveredq _ (print E _) => apply covq_expr; amongq
  | |- coveredq _ (print_query E _) => apply covq_query; amongq
  | |- coveredq _ (print_body E _ _) => unfold print_body
  | |- coveredq _ (Shared _ (Txt _)) => apply covq_leaf
  | |- coveredq _ (Shared _ _) => apply covq_own; [now left|]
  | |- asks_nothing _ (if ?b then _ else _) => destruct b
  | |- asks_nothing _ _ => first [assumption|fixed]
  end.

Lemma query_covered : forall q, clause_names E q -> coveredq q (print_query E q).
Proof.
  intros q N. destruct q; cbn [print_query]; try (repeat coverq; fail).
  - (* call *) destruct N as [N M]. apply covq_own; [now left|]. repeat coverq.
    intros z [<-|J].
    + left. right. rewrite has_Cat. intros X. apply Exists_exists in X. destruct X as (d & D & X). apply in_app_or in D.
      destruct D as [D|[<-|[]]]; [|exact (has_mute _ N X)]. destruct space as [[ks y]|]; [|destruct D]. destruct D as [<-|[]].
      rewrite has_Shared in X. exact (has_mute _ (M _ _ eq_refl) X).
    + revert z J. change (coveredq (QCall k kn space name args yield where_)
        (Cat (match space with Some (ks, y) => [Shared ks (Txt y)] | None => [] end ++ [Txt name]))).
      repeat coverq. destruct space as [[ks y]|]; repeat coverq. apply (M _ _ eq_refl).
  - (* single *) apply covq_cat. apply Forall_app. split; [apply covq_queries; kidsq|]. destruct ret as [r|]; cbn [maybe option_map]; repeat coverq.
  - (* multi *) apply covq_cat. apply Forall_app. split; [|repeat coverq]. apply Forall_forall. intros d J. apply in_map_iff in J. destruct J as (y & <- & Y).
    assert (C : forall c, In c (snd (fst y) ++ [snd y]) -> In c (clauses_of (QMulti parts q))).
    { intros c C. cbn [clauses_of]. apply in_or_app. left. apply in_flat_map. exists y. auto. }
    apply covq_own; [cbn [clause_keys]; apply in_map_iff; eauto|]. apply covq_cat. apply Forall_app. split.
    + apply covq_queries. intros c J. apply C. apply in_or_app. now left.
    + constructor; [|constructor]. apply covq_query, C. apply in_or_app. right. now left.
  - (* union *) apply covq_own; [now left|]. apply covq_cat. constructor; [apply covq_query; now left|].
    apply Forall_forall. intros d J. apply in_map_iff in J. destruct J as (y & <- & Y).
    apply covq_own; [right; apply in_map_iff; eauto|]. apply covq_cat. constructor; [repeat coverq|]. constructor; [|constructor].
    apply covq_query. right. now apply in_map.
Qed.

Lemma query_clause_ind : forall P : query -> Prop, (forall q, Forall P (clauses_of q) -> P q) -> forall q, P q.
Proof.
  intros P H. apply query_ind'; intros; apply H; cbn [clauses_of]; try (constructor; auto; fail); auto.
  - apply Forall_app. split; [assumption|]. destruct r as [r|]; constructor; auto.
  - apply Forall_app. split; [|auto]. apply Forall_forall. intros c J. apply in_flat_map in J. destruct J as (y & Y & J).
    rewrite Forall_forall in H0. destruct (H0 y Y) as [A B]. apply in_app_or in J. destruct J as [J|[<-|[]]]; [|exact B]. rewrite Forall_forall in A. auto.
  - constructor; [assumption|]. apply Forall_forall. intros c J. apply in_map_iff in J. destruct J as (y & <- & Y). rewrite Forall_forall in H1. now apply H1.
Qed.

Lemma element_clause : forall q c e, In c (clauses_of q) -> element c e -> element q e.
Proof. intros q c e C (c' & d & W & D & P). exists c', d. split; [eapply within_clause; eauto|auto]. Qed.

Lemma inside_query : forall q, (forall e, element q e -> sound e) -> (forall c, within q c -> clause_names E c) ->
  forall z, In z (subs (print_query E q)) -> (exists c, element q c /\ here c z) \/ (exists c, within q c /\ hereq c z).
Proof.
  apply (query_clause_ind (fun q => (forall e, element q e -> sound e) -> (forall c, within q c -> clause_names E c) ->
    forall z, In z (subs (print_query E q)) -> (exists c, element q c /\ here c z) \/ (exists c, within q c /\ hereq c z))).
  intros q H S N z J. destruct (query_covered q (N q (within_self q)) z J) as [X|[(c & C & X)|(c & C & X)]].
  - right. exists q. split; [constructor|exact X].
  - left. destruct (inside_print c) with (z := z) as (c' & P & Y); [intros d D; apply S; exists q, c; split; [constructor|auto]|exact X|].
    exists c'. split; [|exact Y]. exists q, c. split; [constructor|auto].
  - rewrite Forall_forall in H. destruct (H c C) with (z := z) as [(c' & P & Y)|(c' & P & Y)]; auto.
    + intros e W. apply S. eapply element_clause; eauto.
    + intros d W. apply N. eapply within_clause; eauto.
    + left. exists c'. split; [eapply element_clause; eauto|exact Y].
    + right. exists c'. split; [eapply within_clause; eauto|exact Y].
Qed.

Ltac memq := repeat match goal with H : In ?c (opt_list ?o) |- _ => apply in_maybe in H end;
  unfold print_body; repeat (progress (rewrite ?in_app_iff; cbn [In])); tauto.

Lemma has_own_expr : forall q c, In c (clause_exprs q) -> hasx (print E c) -> hasx (print_query E q).
Proof.
  intros q c J H. destruct q; cbn [print_query clause_exprs] in *; try (destruct J; fail); try apply has_Shared;
    cbn [In] in J; repeat (progress (rewrite ?in_app_iff in J; cbn [In] in J));
    repeat match type of J with
    | _ \/ _ => destruct J as [J|J]
    | False => destruct J
    end;
    try (apply (in_cat _ (print E c)); [try subst c; memq|exact H]);
    (eapply in_cat; [right; left; reflexivity|]; unfold print_body; apply (in_cat _ (print E c)); [try subst c; memq|exact H]).
Qed.
Lemma has_own_clause : forall q c, In c (clauses_of q) -> hasx (print_query E c) -> hasx (print_query E q).
Proof.
  intros q c J H. destruct q; cbn [print_query clauses_of] in *; try (destruct J; fail); try apply has_Shared.
  - apply (in_cat _ (print_query E c)); [|exact H]. rewrite !in_app_iff. right. left. now apply in_map.
  - destruct J as [<-|[]]. eapply in_cat; [right; left; reflexivity|exact H].
  - destruct J as [<-|[]]. eapply in_cat; [right; left; reflexivity|exact H].
  - apply (in_cat _ (print_query E c)); [|exact H]. apply in_or_app. apply in_app_or in J. destruct J as [J|J]; [left; now apply in_map|right].
    destruct ret as [r|]; [|destruct J]. destruct J as [<-|[]]. now left.
  - apply in_app_or in J. destruct J as [J|[<-|[]]]; [|apply (in_cat _ (print_query E q)); [|exact H]; apply in_or_app; right; now left].
    apply in_flat_map in J. destruct J as (y & Y & J).
    eapply in_cat; [apply in_or_app; left; apply in_map_iff; exists y; split; [reflexivity|exact Y]|]. apply has_Shared.
    apply (in_cat _ (print_query E c)); [|exact H]. apply in_or_app. apply in_app_or in J. destruct J as [J|[<-|[]]]; [left; now apply in_map|right; now left].
  - destruct J as [<-|J]; [eapply in_cat; [left; reflexivity|exact H]|]. apply in_map_iff in J. destruct J as (y & <- & Y).
    eapply in_cat; [right; apply in_map_iff; exists y; split; [reflexivity|exact Y]|]. apply has_Shared.
    eapply in_cat; [right; left; reflexivity|exact H].
Qed.
Lemma has_element : forall q e, element q e -> hasx (print E e) -> hasx (print_query E q).
Proof.
  intros q e (c & d & W & D & P) H. assert (G : hasx (print_query E c)) by (eapply has_own_expr; [exact D|]; eapply has_part; eauto).
  clear D. induction W as [q|q c c' C W IH]; [exact G|]. eapply has_own_clause; eauto.
Qed.

(** ** Keys *)

Definition given (q : query) (k : key) : Prop := exists kk e a, element q (EAlias kk k e a).
Definition given_x (q : query) (k : key) : Prop := exists kk e a, element q (EAlias kk k e a) /\ hasx (print E e).
Definition node_x (q : query) (k : key) : Prop := exists n ls ps, element q (ENode k (Some n) ls ps) /\ hasx (print E (ENode k (Some n) ls ps)).

Lemma element_part : forall q e c, element q e -> part e c -> element q c.
Proof. intros q e c (d & e0 & W & D & P) Q. exists d, e0. split; [exact W|]. split; [exact D|]. eapply part_trans; eauto. Qed.

Lemma node_has : forall k n ls ps, hasx (print E (ENode k (Some n) ls ps)) <-> exists c, In c (opt_list ps) /\ hasx (print E c).
Proof.
  intros k [kn n] ls ps. split.
  - cbn [print]. rewrite has_Shared, has_Once, has_Cat. intros H. apply Exists_exists in H. destruct H as (d & D & H).
    apply in_app_or in D. destruct D as [[<-|[]]|D].
    + rewrite has_Shared in H. destruct (has_mute _ (resolve_mute n) H).
    + apply in_app_or in D. destruct D as [D|D].
      * apply in_map_iff in D. destruct D as ([kl v] & <- & _). unfold print_label in H. rewrite has_Shared in H. destruct (has_mute _ (label_mute v) H).
      * destruct ps as [c|]; [|destruct D]. destruct D as [<-|[]]. exists c. split; [now left|exact H].
  - intros (c & C & H). apply (has_child _ c); [exact C|exact H].
Qed.

Lemma statement_in_place : forall q, (forall e, element q e -> sound e) -> (forall c, within q c -> clause_names E c) -> told_apart q ->
  all_in_place wanted (given q) (given_x q) (node_x q) (print_query E q).
Proof.
  intros q S N [TN TA] z J. destruct (inside_query q S N z J) as [(c & C & H)|(c & C & H)].
  - destruct z as [t|l|l|k d|k n d|k a d]; try exact I; cbn [here in_place] in *.
    + intros (kk & e & a & A) X. destruct (TA kk k e a A) as (T1 & T2 & T3 & T4). destruct H as [[O P]|[F|D]].
      * exists kk, e, a. split; [exact A|]. apply (has_part e c); [now apply T1|]. rewrite P. now apply has_Shared.
      * destruct (T3 c C F).
      * contradiction.
    + destruct H as (kn & ls & ps & -> & P & Q). assert (D : hasx (print E (ENode k (Some (kn, n)) ls ps)) <-> hasx d).
      { rewrite P. rewrite has_Shared, has_Once. reflexivity. }
      split; [split|].
      * intros X. exists (kn, n), ls, ps. split; [exact C|now apply D].
      * intros (n' & ls' & ps' & C' & X). apply D. rewrite node_has in *. now rewrite (TN _ _ _ _ _ _ _ C C').
      * intros n' d' X. destruct (Q _ X) as (c' & K1 & K2).
        assert (SC : all_sound c'). { intros y Y. apply S. eapply element_part; [exact C|]. eapply part_of_child; eauto. }
        destruct (inside_print c' SC _ K2) as (c2 & P2 & H2). cbn [here] in H2. destruct H2 as (kn' & ls' & ps' & -> & _).
        assert (C2 : element q (ENode k (Some (kn', n')) ls' ps')) by (eapply element_part; [exact C|]; eapply part_of_child; eauto).
        apply (not_own_part (ENode k (Some (kn', n')) ls' ps') c'); [|exact P2]. cbn [children] in *. now rewrite <- (TN _ _ _ _ _ _ _ C C2).
    + destruct H as (kk & e & b & -> & -> & M). split; [exists kk, e, b; exact C|]. split.
      * intros X. exists kk, e, b. auto.
      * intros (kk' & e' & b' & C' & X). destruct (TA kk k e b C) as (_ & T2 & _). now rewrite (T2 _ _ _ C') in X.
  - destruct z as [t|l|l|k d|k n d|k a d]; try exact I; cbn [hereq in_place] in *; try contradiction.
    intros (kk & e & a & A) X. destruct (TA kk k e a A) as (_ & _ & _ & T4). destruct H as [H|H]; [destruct (T4 c C H)|contradiction].
Qed.

Theorem parameter_kept : forall q, (forall e, element q e -> sound e) -> (forall c, within q c -> clause_names E c) -> told_apart q ->
  forall k, element q (EParam k x) -> In ("$" ++ x)%string (fst (pieces (print_query E q) nothing_written)).
Proof.
  intros q S N T k P. destruct (nothing_lost wanted wanted_dec (given q) (given_x q) (node_x q) (print_query E q)) as (t & J & W).
  - now apply statement_in_place.
  - apply (has_element q (EParam k x) P). exists ("$" ++ x)%string. split; [right; now left|reflexivity].
  - now rewrite <- W.
Qed.

Theorem piece_named : forall q, (forall e, element q e -> sound e) -> (forall c, within q c -> clause_names E c) ->
  forall t, In t (fst (pieces (print_query E q) nothing_written)) -> mute t \/ exists k y, element q (EParam k y) /\ t = ("$" ++ y)%string.
Proof.
  intros q S N t J. destruct (nothing_added _ _ J) as [X|[(k & d & X)|[(k & d & X)|X]]].
  - destruct (inside_query q S N _ X) as [(c & C & H)|(c & C & H)]; cbn [here hereq] in H; [|now left].
    destruct H as [H|(k & y & -> & ->)]; [now left|right; eauto].
  - destruct (inside_query q S N _ X) as [(c & C & H)|(c & C & H)]; cbn [here hereq] in H; [|destruct H].
    destruct H as (kn & ls & ps & -> & _). left. exact (proj2 (S _ C)).
  - destruct (inside_query q S N _ X) as [(c & C & H)|(c & C & H)]; cbn [here hereq] in H; [|destruct H].
    destruct H as (kk & c' & b & _ & _ & M). now left.
  - left. cbn [In] in X. destruct X as [<-|[<-|[<-|[<-|[]]]]]; fixed.
Qed.

End Uses.
