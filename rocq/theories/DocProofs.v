(** Visit trees write documents: [pp] against [write]. *)

From Coq Require Import Ascii String List ZArith Bool Lia.
From Verif Require Import GoStr VTree WellKeyed EscapeProofs VTreeProofs VTreeSim SpecDoc.
Import ListNotations.
Open Scope string_scope.

(** ** Unfolding of documents *)

Fixpoint wcat (l : list doc) (m : memory) : string * memory :=
  match l with
  | [] => ("", m)
  | d :: l' => let (x, m1) := write d m in let (y, m2) := wcat l' m1 in (x ++ y, m2)
  end.
Fixpoint wrest (l : list doc) (m : memory) : string * memory :=
  match l with
  | [] => ("", m)
  | d :: l' => let (x, m1) := write d m in let (y, m2) := wrest l' m1 in (", " ++ x ++ y, m2)
  end.
Fixpoint intros_l (l : list doc) (m : memory) : memory :=
  match l with [] => m | d :: l' => intros_l l' (introduce_all d m) end.

Lemma write_Cat : forall l m, write (Cat l) m = wcat l m.
Proof.
  intros l. cbn [write]. induction l as [|d l IH]; intros m; [reflexivity|].
  cbn [wcat]. destruct (write d m) as [x m1]. now rewrite IH.
Qed.
Lemma write_Commas : forall d l m, write (Commas (d :: l)) m =
  let (x, m1) := write d m in let (y, m2) := wrest l m1 in (x ++ y, m2).
Proof.
  intros d l m. cbn [write]. destruct (write d m) as [x m1].
  match goal with |- (let (y, m2) := ?f l m1 in _) = _ => assert (G : forall l m, f l m = wrest l m) end.
  { clear. induction l as [|d l IH]; intros m; [reflexivity|]. cbn [wrest].
    destruct (write d m) as [x m1]. now rewrite IH. }
  now rewrite G.
Qed.
Lemma intro_Cat : forall l m, introduce_all (Cat l) m = intros_l l m.
Proof. induction l as [|d l IH]; intros m; [reflexivity|]. cbn [intros_l]. rewrite <- IH. reflexivity. Qed.
Lemma intro_Commas : forall l m, introduce_all (Commas l) m = intros_l l m.
Proof. induction l as [|d l IH]; intros m; [reflexivity|]. cbn [intros_l]. rewrite <- IH. reflexivity. Qed.

Lemma wcat_app : forall a b m, wcat (a ++ b) m =
  let (x, m1) := wcat a m in let (y, m2) := wcat b m1 in (x ++ y, m2).
Proof.
  induction a as [|d a IH]; intros b m.
  - cbn. destruct (wcat b m). reflexivity.
  - cbn [app wcat]. destruct (write d m) as [x m1]. rewrite IH.
    destruct (wcat a m1) as [y m2]. destruct (wcat b m2) as [z m3]. now rewrite sapp_assoc.
Qed.
Lemma intros_app : forall a b m, intros_l (a ++ b) m = intros_l b (intros_l a m).
Proof. induction a; intros; cbn; auto. Qed.

(** ** Equal documents *)
Definition deq (a b : doc) : Prop :=
  forall m, write a m = write b m /\ introduce_all a m = introduce_all b m.

Lemma deq_refl : forall d, deq d d.
Proof. split; reflexivity. Qed.
Lemma deq_trans : forall a b c, deq a b -> deq b c -> deq a c.
Proof. intros a b c H G m. destruct (H m), (G m). split; congruence. Qed.
Lemma deq_sym : forall a b, deq a b -> deq b a.
Proof. intros a b H m. destruct (H m). split; congruence. Qed.
Lemma deq_shared : forall k a b, deq a b -> deq (Shared k a) (Shared k b).
Proof.
  intros k a b H m. destruct (H m) as [H1 H2]. split; [|exact H2].
  cbn [write]. destruct (alias_of k (introduced m)); [now rewrite H2|exact H1].
Qed.
Lemma deq_once : forall k n a b, deq a b -> deq (Once k n a) (Once k n b).
Proof.
  intros k n a b H m. destruct (H m) as [H1 H2]. split; [|exact H2].
  cbn [write]. destruct (H (mark k m)) as [H3 H4]. rewrite H3, H4. reflexivity.
Qed.
Lemma deq_aliased : forall k n a b, deq a b -> deq (Aliased k n a) (Aliased k n b).
Proof.
  intros k n a b H m. destruct (H m) as [H1 H2]. split; [|cbn; now rewrite H2].
  cbn [write]. now rewrite H1, H2.
Qed.
Lemma deq_cat : forall a b, (forall m, wcat a m = wcat b m) -> (forall m, intros_l a m = intros_l b m) ->
  deq (Cat a) (Cat b).
Proof. intros a b H G m. rewrite !write_Cat, !intro_Cat. auto. Qed.
Lemma deq_cat_cons : forall a b l l', deq a b -> deq (Cat l) (Cat l') -> deq (Cat (a :: l)) (Cat (b :: l')).
Proof.
  intros a b l l' H G m. destruct (H m) as [H1 H2].
  rewrite !write_Cat, !intro_Cat. cbn [wcat intros_l]. rewrite H1, H2. split.
  - destruct (write b m) as [x m1]. destruct (G m1) as [G1 _]. rewrite !write_Cat in G1. now rewrite G1.
  - destruct (G (introduce_all b m)) as [_ G2]. now rewrite !intro_Cat in G2.
Qed.
Lemma deq_nested : forall a b c, deq (Cat (a ++ Cat b :: c)) (Cat (a ++ b ++ c)).
Proof.
  intros a b c. apply deq_cat; intros m.
  - rewrite !wcat_app. destruct (wcat a m) as [x m1]. cbn [wcat]. rewrite write_Cat, wcat_app. reflexivity.
  - rewrite !intros_app. cbn [intros_l]. now rewrite intro_Cat.
Qed.
Lemma deq_empty : forall a c, deq (Cat (a ++ Txt "" :: c)) (Cat (a ++ c)).
Proof.
  intros a c. apply deq_cat; intros m.
  - rewrite !wcat_app. destruct (wcat a m) as [x m1]. cbn [wcat write]. destruct (wcat c m1). reflexivity.
  - rewrite !intros_app. reflexivity.
Qed.
Lemma deq_txts : forall a x y c, deq (Cat (a ++ Txt x :: Txt y :: c)) (Cat (a ++ Txt (x ++ y) :: c)).
Proof.
  intros a x y c. apply deq_cat; intros m.
  - rewrite !wcat_app. destruct (wcat a m) as [z m1]. cbn [wcat write]. destruct (wcat c m1). now rewrite sapp_assoc.
  - rewrite !intros_app. reflexivity.
Qed.
Lemma deq_one : forall a, deq (Cat [a]) a.
Proof.
  intros a m. rewrite write_Cat, intro_Cat. cbn. destruct (write a m). now rewrite sapp_nil_r.
Qed.

(** ** From trees to documents *)

Definition texts (m : list (key * alias)) : list (string * string) := map (fun p => (fst p, al_text (snd p))) m.
Definition mem (s : seen) : memory := Memory (texts (s_al s)) (s_nm s).

Lemma alias_of_texts : forall k m, alias_of k (texts m) = option_map al_text (assoc k m).
Proof.
  intros k m. induction m as [|[k' a] m IH]; [reflexivity|]. cbn. destruct (String.eqb k k'); [reflexivity|exact IH].
Qed.

Lemma no_append_leaks : (forall t, has_append t = false -> leaks t = "")
  /\ (forall l, has_append (B l) = false -> leaks_l l = "").
Proof.
  apply vt_ind'.
  - intros h kids IH H. rewrite leaks_V. apply IH. exact H.
  - intros kids IH H. rewrite leaks_B. apply IH. exact H.
  - intros s H. cbn in *. destruct (String.eqb_spec s ""); [assumption|discriminate].
  - reflexivity.
  - intros t l IHt IHl H. cbn [has_append] in H. apply orb_false_iff in H. destruct H as [H1 H2].
    cbn [leaks_l]. rewrite IHt by assumption. rewrite IHl; [reflexivity|]. exact H2.
Qed.

Lemma quiet_V : forall ds h kids, quiet ds (V h kids) =
  negb (abbreviable ds h && has_append (B kids)) && quiet_l ds kids.
Proof.
  intros. cbn [quiet]. f_equal. induction kids as [|x kids IH]; [reflexivity|]. cbn [quiet_l]. now rewrite IH.
Qed.
Lemma quiet_B : forall ds kids, quiet ds (B kids) = quiet_l ds kids.
Proof. intros. cbn [quiet]. induction kids as [|x kids IH]; [reflexivity|]. cbn [quiet_l]. now rewrite IH. Qed.
Lemma quiet_app : forall ds a b, quiet_l ds (a ++ b) = quiet_l ds a && quiet_l ds b.
Proof. intros ds a b. induction a as [|x a IH]; [reflexivity|]. cbn. rewrite IH. apply andb_assoc. Qed.
Lemma aliases_app : forall a b, aliases_l (a ++ b) = (aliases_l a ++ aliases_l b)%list.
Proof. induction a as [|x a IH]; intros b; [reflexivity|]. cbn. now rewrite IH, app_assoc. Qed.
Lemma pps_app : forall a b sep s, pps (a ++ b) sep s =
  let '(x, sep1, s1) := pps a sep s in let '(y, sep2, s2) := pps b sep1 s1 in (x ++ y, sep2, s2).
Proof.
  induction a as [|t a IH]; intros b sep s.
  - cbn. destruct (pps b sep s) as [[y sep2] s2]. reflexivity.
  - cbn [app pps]. destruct (pp t sep s) as [[x sep1] s1]. rewrite IH.
    destruct (pps a sep1 s1) as [[y sep2] s2]. destruct (pps b sep2 s2) as [[z sep3] s3]. now rewrite sapp_assoc.
Qed.

(** The declarations of a tree are those of its document. *)
Definition same_decl (t : vt) (d : doc) : Prop :=
  forall s, introduce_all d (mem s) = mem (Seen (sets t (s_al s)) (s_nm s)).
Definition same_decls (ts : list vt) (ds : list doc) : Prop :=
  forall s, intros_l ds (mem s) = mem (Seen (sets_l ts (s_al s)) (s_nm s)).

(** A tree that, as an item of a list or alone, writes [d]. *)
Definition item (als : list alias) (t : vt) (d : doc) : Prop :=
  same_decl t d /\
  (quiet (dkeys als) t = true -> incl (aliases t) als -> forall sep s, map_ok als (s_al s) ->
     exists s', pp t sep s = (opt_text sep ++ fst (write d (mem s)), next_sep sep, s')
                /\ mem s' = snd (write d (mem s))).

(** A tree that writes nothing. *)
Definition mute (t : vt) : Prop := aliases t = [] /\ forall sep s, pp t sep s = ("", sep, s).

(** Trees that, one after the other, write [ds]. *)
Definition seq (als : list alias) (ts : list vt) (ds : list doc) : Prop :=
  same_decls ts ds /\
  (quiet_l (dkeys als) ts = true -> incl (aliases_l ts) als -> forall s, map_ok als (s_al s) ->
     exists s', pps ts None s = (fst (wcat ds (mem s)), None, s') /\ mem s' = snd (wcat ds (mem s))).

(** Trees that, as items of a list, write [ds] separated by commas. *)
Definition rest (als : list alias) (ts : list vt) (ds : list doc) : Prop :=
  same_decls ts ds /\
  (quiet_l (dkeys als) ts = true -> incl (aliases_l ts) als -> forall s, map_ok als (s_al s) ->
     exists s', pps ts (Some ", ") s = (fst (wrest ds (mem s)), Some ", ", s') /\ mem s' = snd (wrest ds (mem s))).
Definition commas (als : list alias) (ts : list vt) (ds : list doc) : Prop :=
  same_decls ts ds /\
  (quiet_l (dkeys als) ts = true -> incl (aliases_l ts) als -> forall s, map_ok als (s_al s) ->
     exists sep s', pps ts (Some "") s = (fst (write (Commas ds) (mem s)), sep, s')
                    /\ mem s' = snd (write (Commas ds) (mem s))).

Lemma same_decl_eq : forall t a b, deq a b -> same_decl t a -> same_decl t b.
Proof. intros t a b H G s. destruct (H (mem s)) as [_ H2]. rewrite <- H2. apply G. Qed.
Lemma item_deq : forall als t a b, deq a b -> item als t a -> item als t b.
Proof.
  intros als t a b H [G1 G2]. split; [now apply (same_decl_eq t a)|].
  intros Q I sep s M. destruct (G2 Q I sep s M) as [s' [P1 P2]]. destruct (H (mem s)) as [H1 _].
  exists s'. rewrite <- H1. auto.
Qed.

Lemma mute_decls : (forall t, aliases t = [] -> forall m, sets t m = m)
  /\ (forall l, aliases_l l = [] -> forall m, sets_l l m = m).
Proof.
  apply vt_ind'.
  - intros h kids IH H m. rewrite aliases_V in H. apply app_eq_nil in H. destruct H as [H1 H2].
    rewrite sets_V, IH by assumption. unfold declare, own_alias in *. now destruct (as_alias h).
  - intros kids IH H m. rewrite sets_B. now apply IH.
  - reflexivity.
  - reflexivity.
  - intros t l IHt IHl H m. cbn [aliases_l sets_l] in *. apply app_eq_nil in H. destruct H. rewrite IHt by assumption. auto.
Qed.

Lemma pp_map_ok : forall als t sep s x sep' s', incl (aliases t) als -> map_ok als (s_al s) ->
  pp t sep s = (x, sep', s') -> map_ok als (s_al s').
Proof. intros als t sep s x sep' s' I M E. pose proof (proj1 (pp_ok als) t sep s I M) as P. now rewrite E in P. Qed.

Lemma seq_nil : forall als, seq als [] [].
Proof. intros als. split; [intros [m n]; reflexivity|]. intros _ _ s _. exists s. split; reflexivity. Qed.

Lemma seq_cons : forall als t d ts ds, item als t d -> seq als ts ds -> seq als (t :: ts) (d :: ds).
Proof.
  intros als t d ts ds [D1 H] [D2 G]. split.
  - intros s. cbn [intros_l sets_l]. rewrite D1, D2. reflexivity.
  - intros Q I s M. cbn [quiet_l aliases_l] in *. apply andb_true_iff in Q. destruct Q as [Q1 Q2].
    apply incl_app_inv in I. destruct I as [I1 I2].
    destruct (H Q1 I1 None s M) as [s1 [P1 P2]]. pose proof (pp_map_ok _ _ _ _ _ _ _ I1 M P1) as M1.
    destruct (G Q2 I2 s1 M1) as [s2 [P3 P4]].
    exists s2. cbn [pps wcat]. rewrite P1. cbn [next_sep opt_text append]. rewrite P3, P2 in *.
    destruct (write d (mem s)) as [x m1]. cbn [fst snd] in *. rewrite P4.
    destruct (wcat ds m1) as [y m2]. cbn. split; reflexivity.
Qed.

Lemma seq_txt : forall als x ts ds, seq als ts ds -> seq als (T x :: ts) (Txt x :: ds).
Proof.
  intros als x ts ds [D G]. split.
  - intros s. cbn [intros_l sets_l introduce_all sets]. rewrite D. reflexivity.
  - intros Q I s M. cbn [quiet_l quiet aliases_l aliases app andb] in *. destruct (G Q I s M) as [s' [P1 P2]].
    exists s'. cbn [pps pp wcat write]. rewrite P1, P2. destruct (wcat ds (mem s)). split; reflexivity.
Qed.

Lemma seq_app : forall als a b da db, seq als a da -> seq als b db -> seq als (a ++ b) (da ++ db).
Proof.
  intros als a b da db [D1 H] [D2 G]. split.
  - intros s. rewrite intros_app, D1, D2. cbn. f_equal. f_equal.
    generalize (s_al s). clear. induction a; intros; cbn; auto.
  - intros Q I s M. rewrite quiet_app in Q. rewrite aliases_app in I. apply andb_true_iff in Q.
    destruct Q as [Q1 Q2]. apply incl_app_inv in I. destruct I as [I1 I2].
    destruct (H Q1 I1 s M) as [s1 [P1 P2]].
    assert (M1 : map_ok als (s_al s1)).
    { pose proof (proj2 (pp_ok als) a None s I1 M) as P. now rewrite P1 in P. }
    destruct (G Q2 I2 s1 M1) as [s2 [P3 P4]]. exists s2. rewrite pps_app, wcat_app, P1, P3, P4, P2.
    destruct (wcat da (mem s)) as [x m1]. cbn [fst snd]. destruct (wcat db m1) as [y m2]. split; reflexivity.
Qed.

(** Trees that write nothing may be dropped. *)
Lemma seq_mute : forall als t d ts ds, mute t -> (forall m, write d m = ("", m) /\ introduce_all d m = m) ->
  seq als ts ds -> seq als (t :: ts) (d :: ds).
Proof.
  intros als t d ts ds [A E] W [D G]. split.
  - intros s. cbn [intros_l sets_l]. rewrite (proj1 mute_decls t A). destruct (W (mem s)) as [_ W2]. rewrite W2, D. reflexivity.
  - intros Q I s M. cbn [quiet_l aliases_l] in *. apply andb_true_iff in Q. destruct Q as [Q1 Q2].
    rewrite A in I. destruct (G Q2 I s M) as [s' [P1 P2]]. exists s'. cbn [pps wcat]. rewrite E, P1, P2.
    destruct (W (mem s)) as [W1 _]. rewrite W1. destruct (wcat ds (mem s)). split; reflexivity.
Qed.

Lemma rest_nil : forall als, rest als [] [].
Proof. intros als. split; [intros [m n]; reflexivity|]. intros _ _ s _. exists s. split; reflexivity. Qed.
Lemma rest_cons : forall als t d ts ds, item als t d -> rest als ts ds -> rest als (t :: ts) (d :: ds).
Proof.
  intros als t d ts ds [D1 H] [D2 G]. split.
  - intros s. cbn [intros_l sets_l]. rewrite D1, D2. reflexivity.
  - intros Q I s M. cbn [quiet_l aliases_l] in *. apply andb_true_iff in Q. destruct Q as [Q1 Q2].
    apply incl_app_inv in I. destruct I as [I1 I2].
    destruct (H Q1 I1 (Some ", ") s M) as [s1 [P1 P2]]. pose proof (pp_map_ok _ _ _ _ _ _ _ I1 M P1) as M1.
    destruct (G Q2 I2 s1 M1) as [s2 [P3 P4]].
    exists s2. cbn [pps wrest]. rewrite P1. cbn [next_sep opt_text append]. rewrite P3, P2 in *.
    destruct (write d (mem s)) as [x m1]. cbn [fst snd] in *. rewrite P4.
    destruct (wrest ds m1) as [y m2]. cbn. split; reflexivity.
Qed.
Lemma rest_mute : forall als t ts ds, mute t -> rest als ts ds -> rest als (t :: ts) ds.
Proof.
  intros als t ts ds [A E] [D G]. split.
  - intros s. cbn [sets_l]. rewrite (proj1 mute_decls t A), D. reflexivity.
  - intros Q I s M. cbn [quiet_l aliases_l] in *. apply andb_true_iff in Q. destruct Q as [Q1 Q2].
    rewrite A in I. destruct (G Q2 I s M) as [s' [P1 P2]]. exists s'. cbn [pps]. rewrite E, P1. auto.
Qed.
Lemma commas_nil : forall als, commas als [] [].
Proof. intros als. split; [intros [m n]; reflexivity|]. intros _ _ s _. exists (Some ""), s. split; reflexivity. Qed.
Lemma commas_cons : forall als t d ts ds, item als t d -> rest als ts ds -> commas als (t :: ts) (d :: ds).
Proof.
  intros als t d ts ds [D1 H] [D2 G]. split.
  - intros s. cbn [intros_l sets_l]. rewrite D1, D2. reflexivity.
  - intros Q I s M. cbn [quiet_l aliases_l] in *. apply andb_true_iff in Q. destruct Q as [Q1 Q2].
    apply incl_app_inv in I. destruct I as [I1 I2].
    destruct (H Q1 I1 (Some "") s M) as [s1 [P1 P2]]. pose proof (pp_map_ok _ _ _ _ _ _ _ I1 M P1) as M1.
    destruct (G Q2 I2 s1 M1) as [s2 [P3 P4]].
    exists (Some ", "), s2. rewrite write_Commas. cbn [pps]. rewrite P1. cbn [next_sep opt_text append]. rewrite P3, P2 in *.
    destruct (write d (mem s)) as [x m1]. cbn [fst snd] in *. rewrite P4.
    destruct (wrest ds m1) as [y m2]. cbn. split; reflexivity.
Qed.
Lemma commas_mute : forall als t ts ds, mute t -> commas als ts ds -> commas als (t :: ts) ds.
Proof.
  intros als t ts ds [A E] [D G]. split.
  - intros s. cbn [sets_l]. rewrite (proj1 mute_decls t A), D. reflexivity.
  - intros Q I s M. cbn [quiet_l aliases_l] in *. apply andb_true_iff in Q. destruct Q as [Q1 Q2].
    rewrite A in I. destruct (G Q2 I s M) as [sep [s' [P1 P2]]]. exists sep, s'. cbn [pps]. rewrite E, P1. auto.
Qed.

(** ** Elements *)

Lemma write_Shared : forall k d m, write (Shared k d) m =
  match alias_of k (introduced m) with Some a => (a, introduce_all d m) | None => write d m end.
Proof. reflexivity. Qed.
Lemma intro_wrap : forall b ds a m, introduce_all (Cat (Txt b :: ds ++ [Txt a])) m = intros_l ds m.
Proof. intros. rewrite intro_Cat. cbn [intros_l introduce_all]. now rewrite intros_app. Qed.

Lemma item_el : forall als k b a kids ds, seq als kids ds ->
  item als (V (Head k false (KText b a)) kids) (Shared k (Cat (Txt b :: ds ++ [Txt a]))).
Proof.
  intros als k b a kids ds [D G]. split.
  - intros s. change (introduce_all (Cat (Txt b :: ds ++ [Txt a])) (mem s) =
      mem (Seen (sets (V (Head k false (KText b a)) kids) (s_al s)) (s_nm s))).
    rewrite intro_wrap, D, sets_V. reflexivity.
  - intros Q I sep s M. rewrite quiet_V in Q. apply andb_true_iff in Q. destruct Q as [Q1 Q2].
    rewrite aliases_V in I. cbn [own_alias as_alias h_kind app] in I.
    rewrite pp_V, write_Shared, intro_wrap. unfold pp_el. cbn [h_key h_kind mem introduced]. rewrite alias_of_texts.
    destruct (assoc k (s_al s)) as [al|] eqn:Ea; cbn [option_map].
    + eexists. split; [|cbn [snd]; rewrite D; reflexivity].
      destruct (map_ok_assoc _ _ _ _ M Ea) as [Ed Ia].
      assert (L : leaks_l kids = "").
      { apply (proj2 no_append_leaks). apply negb_true_iff in Q1. apply andb_false_iff in Q1.
        destruct Q1 as [Q1|Q1]; [|assumption]. unfold abbreviable in Q1. apply orb_false_iff in Q1. destruct Q1 as [Q1 _].
        exfalso. apply memk_notIn in Q1. apply Q1. cbn. rewrite <- Ed. unfold dkeys. now apply in_map. }
      rewrite L, sapp_nil_r. reflexivity.
    + destruct (G Q2 I s M) as [s' [P1 P2]]. exists s'. unfold sub_sep. cbn [h_sub]. rewrite P1.
      rewrite write_Cat. cbn [wcat write]. rewrite wcat_app. rewrite P2.
      destruct (wcat ds (mem s)) as [x m1]. cbn. rewrite ?sapp_nil_r. split; reflexivity.
Qed.

Lemma item_sub : forall als k b a kids ds, commas als kids ds ->
  item als (V (Head k true (KText b a)) kids) (Shared k (Cat [Txt b; Commas ds; Txt a])).
Proof.
  intros als k b a kids ds [D G]. split.
  - intros s. change (introduce_all (Commas ds) (mem s) = mem (Seen (sets (V (Head k true (KText b a)) kids) (s_al s)) (s_nm s))).
    rewrite intro_Commas, D, sets_V. reflexivity.
  - intros Q I sep s M. rewrite quiet_V in Q. apply andb_true_iff in Q. destruct Q as [Q1 Q2].
    rewrite aliases_V in I. cbn [own_alias as_alias h_kind app] in I.
    rewrite pp_V. unfold pp_el. cbn [h_key h_kind]. 
    assert (W : write (Shared k (Cat [Txt b; Commas ds; Txt a])) (mem s) =
      match assoc k (s_al s) with
      | Some al => (al_text al, introduce_all (Commas ds) (mem s))
      | None => let (x, m1) := write (Commas ds) (mem s) in (b ++ x ++ a, m1)
      end).
    { change (write (Shared k (Cat [Txt b; Commas ds; Txt a])) (mem s)) with
        (match alias_of k (texts (s_al s)) with
         | Some al => (al, introduce_all (Cat [Txt b; Commas ds; Txt a]) (mem s))
         | None => write (Cat [Txt b; Commas ds; Txt a]) (mem s) end).
      rewrite alias_of_texts. destruct (assoc k (s_al s)); cbn [option_map].
      - rewrite intro_Cat. reflexivity.
      - rewrite write_Cat. unfold wcat. change (write (Txt b) (mem s)) with (b, mem s). cbv beta iota.
        destruct (write (Commas ds) (mem s)) as [x m1]. change (write (Txt a) m1) with (a, m1). cbv beta iota.
        now rewrite sapp_nil_r. }
    rewrite W. destruct (assoc k (s_al s)) as [al|] eqn:Ea.
    + eexists. split; [|cbn [snd]; rewrite intro_Commas; rewrite D; reflexivity].
      destruct (map_ok_assoc _ _ _ _ M Ea) as [Ed Ia].
      assert (L : leaks_l kids = "").
      { apply (proj2 no_append_leaks). apply negb_true_iff in Q1. apply andb_false_iff in Q1.
        destruct Q1 as [Q1|Q1]; [|assumption]. unfold abbreviable in Q1. apply orb_false_iff in Q1. destruct Q1 as [Q1 _].
        exfalso. apply memk_notIn in Q1. apply Q1. cbn. rewrite <- Ed. unfold dkeys. now apply in_map. }
      rewrite L, sapp_nil_r. reflexivity.
    + destruct (G Q2 I s M) as [sep1 [s' [P1 P2]]]. exists s'. unfold sub_sep. cbn [h_sub]. rewrite P1, P2.
      destruct (write (Commas ds) (mem s)) as [x m1]. cbn. split; reflexivity.
Qed.

Lemma no_leak : forall als h kids, negb (abbreviable (dkeys als) h && has_append (B kids)) = true ->
  abbreviable (dkeys als) h = true -> leaks_l kids = "".
Proof.
  intros als h kids Q A. rewrite A in Q. cbn in Q. apply (proj2 no_append_leaks). now apply negb_true_iff.
Qed.

Lemma delegate_abbreviable : forall als h m a, map_ok als m -> assoc (h_key h) m = Some a ->
  abbreviable (dkeys als) h = true.
Proof.
  intros als h m a M Ea. destruct (map_ok_assoc _ _ _ _ M Ea) as [Ed Ia]. unfold abbreviable.
  apply orb_true_iff. left. apply memk_In. rewrite <- Ed. unfold dkeys. now apply in_map.
Qed.

Lemma item_node : forall als k n kids ds, seq als kids ds ->
  item als (V (Head k false (KNode (Some n))) kids) (Shared k (Once k n (Cat ds))).
Proof.
  intros als k n kids ds [D G]. split.
  - intros s. change (introduce_all (Cat ds) (mem s) = mem (Seen (sets (V (Head k false (KNode (Some n))) kids) (s_al s)) (s_nm s))).
    rewrite intro_Cat, D, sets_V. reflexivity.
  - intros Q I sep s M. rewrite quiet_V in Q. apply andb_true_iff in Q. destruct Q as [Q1 Q2].
    rewrite aliases_V in I. cbn [own_alias as_alias h_kind app] in I.
    assert (L : leaks_l kids = "").
    { apply (no_leak als _ kids Q1). unfold abbreviable. cbn. apply orb_true_r. }
    rewrite pp_V. unfold pp_el. cbn [h_key h_kind].
    assert (W : write (Shared k (Once k n (Cat ds))) (mem s) =
      match assoc k (s_al s) with
      | Some al => (al_text al, intros_l ds (mem s))
      | None => if memk k (s_nm s) then ("(" ++ n ++ ")", intros_l ds (mem (Seen (s_al s) (k :: s_nm s))))
                else let (x, m1) := wcat ds (mem (Seen (s_al s) (k :: s_nm s))) in ("(" ++ x ++ ")", m1)
      end).
    { change (write (Shared k (Once k n (Cat ds))) (mem s)) with
        (match alias_of k (texts (s_al s)) with
         | Some al => (al, introduce_all (Cat ds) (mem s))
         | None => if memk k (s_nm s) then ("(" ++ n ++ ")", introduce_all (Cat ds) (mark k (mem s)))
                   else let (x, m1) := write (Cat ds) (mark k (mem s)) in ("(" ++ x ++ ")", m1) end).
      rewrite alias_of_texts, !intro_Cat, write_Cat. destruct (assoc k (s_al s)); reflexivity. }
    rewrite W. destruct (assoc k (s_al s)) as [al|] eqn:Ea.
    + eexists. split; [|cbn [snd]; rewrite D; reflexivity]. rewrite L, sapp_nil_r. reflexivity.
    + destruct (memk k (s_nm s)).
      * eexists. split; [|cbn [snd]; rewrite D; reflexivity]. rewrite L. reflexivity.
      * destruct (G Q2 I (Seen (s_al s) (k :: s_nm s)) M) as [s' [P1 P2]]. exists s'. unfold sub_sep. cbn [h_sub].
        rewrite P1, P2. destruct (wcat ds _) as [x m1]. split; reflexivity.
Qed.

Lemma item_anon : forall als k kids ds, seq als kids ds ->
  item als (V (Head k false (KNode None)) kids) (Shared k (Cat [Txt "("; Cat ds; Txt ")"])).
Proof.
  intros als k kids ds H.
  pose proof (item_el als k "(" ")" kids ds H) as G.
  apply (item_deq als _ (Shared k (Cat (Txt "(" :: ds ++ [Txt ")"])))).
  { apply deq_shared. apply deq_sym. apply (deq_nested [Txt "("] ds [Txt ")"]). }
  exact G.
Qed.

Lemma item_alias : forall als k dk a t d, seq als [t] [d] ->
  item als (V (Head k false (KAlias dk a)) [t]) (Shared k (Aliased dk a d)).
Proof.
  intros als k dk a t d [D G]. split.
  - intros s. change (introduce dk a (introduce_all d (mem s)) = mem (Seen (sets (V (Head k false (KAlias dk a)) [t]) (s_al s)) (s_nm s))).
    rewrite (D s : introduce_all d (mem s) = _). reflexivity.
  - intros Q I sep s M. rewrite quiet_V in Q. apply andb_true_iff in Q. destruct Q as [Q1 Q2].
    rewrite aliases_V in I. apply incl_app_inv in I. destruct I as [I1 I2].
        assert (L : leaks_l [t] = "").
    { apply (no_leak als _ [t] Q1). unfold abbreviable. cbn. apply orb_true_r. }
    rewrite pp_V. unfold pp_el. cbn [h_key h_kind].
    assert (W : write (Shared k (Aliased dk a d)) (mem s) =
      match assoc k (s_al s) with
      | Some al => (al_text al, introduce dk a (introduce_all d (mem s)))
      | None => match assoc dk (s_al s) with
                | Some _ => (a, introduce dk a (introduce_all d (mem s)))
                | None => let (x, m1) := write d (mem s) in (x ++ " AS " ++ a, introduce dk a m1)
                end
      end).
    { cbn [write introduce_all mem introduced]. rewrite !alias_of_texts.
      destruct (assoc k (s_al s)); [reflexivity|]. destruct (assoc dk (s_al s)); reflexivity. }
    rewrite W. destruct (assoc k (s_al s)) as [al|] eqn:Ea.
    + eexists. split; [rewrite L, sapp_nil_r; reflexivity|]. cbn [snd]. rewrite (D s : introduce_all d (mem s) = _). reflexivity.
    + destruct (assoc dk (s_al s)) as [al|] eqn:Ed.
      * eexists. split; [rewrite L, sapp_nil_r; reflexivity|]. cbn [snd]. rewrite (D s : introduce_all d (mem s) = _). reflexivity.
      * destruct (G Q2 I2 s M) as [s1 [P1 P2]]. unfold sub_sep. cbn [h_sub]. rewrite P1. cbn [wcat] in *.
        destruct (write d (mem s)) as [x m1]. cbn [fst snd opt_text append] in *. rewrite sapp_nil_r.
        eexists. split; [reflexivity|]. rewrite <- P2. reflexivity.
Qed.

(** A bare wrapper writes what it wraps. *)
Lemma item_B : forall als t d, item als t d -> item als (B [t]) d.
Proof.
  intros als t d [D G]. split.
  - intros s. rewrite D, sets_B. reflexivity.
  - intros Q I sep s M. rewrite quiet_B in Q. rewrite aliases_B in I. cbn [quiet_l aliases_l] in *.
    rewrite andb_true_r in Q. rewrite app_nil_r in I. destruct (G Q I sep s M) as [s' [P1 P2]].
    exists s'. rewrite pp_B. cbn [pps]. rewrite P1, sapp_nil_r. auto.
Qed.
Lemma mute_B : forall t, mute t -> mute (B [t]).
Proof.
  intros t [A E]. split; [rewrite aliases_B; cbn; now rewrite A|].
  intros sep s. rewrite pp_B. cbn [pps]. rewrite E. reflexivity.
Qed.
