(** Proofs about nodes, relationships and chains. *)

From Coq Require Import Ascii String List ZArith Bool Arith Lia.
From Verif Require Import GoStr Escape VTree Ast GoVal Slices SpecDoc SpecPrint DocProofs RenderProofs BuilderText Patterns SpecPattern.
Import ListNotations.
Open Scope string_scope.
Open Scope list_scope.

(** ** Documents none of whose parts has an alias *)

Definition transparent (d : doc) (m : memory) : Prop :=
  forall k, In k (shared_keys d) -> alias_of k (introduced m) = None /\ ~ In k (aliased_keys d).

Lemma shared_Cat : forall l, shared_keys (Cat l) = flat_map shared_keys l.
Proof. induction l as [|d l IH]; [reflexivity|]. cbn in *. now rewrite IH. Qed.
Lemma shared_Commas : forall l, shared_keys (Commas l) = flat_map shared_keys l.
Proof. induction l as [|d l IH]; [reflexivity|]. cbn in *. now rewrite IH. Qed.

Lemma plain_intro : forall d m, introduce_all (plain d) m = introduce_all d m.
Proof.
  apply (doc_ind' (fun d => forall m, introduce_all (plain d) m = introduce_all d m)
                  (fun l => forall m, intros_l (map plain l) m = intros_l l m)).
  - reflexivity.
  - intros l IH m. cbn [plain]. now rewrite !intro_Cat.
  - intros l IH m. cbn [plain]. now rewrite !intro_Commas.
  - intros k d IH m. apply IH.
  - intros k n d IH m. apply IH.
  - intros k a d IH m. cbn. now rewrite IH.
  - reflexivity.
  - intros d l IHd IHl m. cbn. now rewrite IHd.
Qed.

Lemma plain_write : forall d m, transparent d m -> write d m = write (plain d) m.
Proof.
  apply (doc_ind' (fun d => forall m, transparent d m -> write d m = write (plain d) m)
    (fun l => forall m, (forall k, In k (flat_map shared_keys l) -> alias_of k (introduced m) = None /\ ~ In k (flat_map aliased_keys l)) ->
                        wcat l m = wcat (map plain l) m /\ wrest l m = wrest (map plain l) m
                        /\ write (Commas l) m = write (Commas (map plain l)) m)).
  - reflexivity.
  - intros l IH m T. cbn [plain]. rewrite !write_Cat. apply IH. intros k Hk. destruct (T k) as [A B]; [now rewrite shared_Cat|].
    split; [assumption|]. now rewrite aliased_Cat in B.
  - intros l IH m T. cbn [plain]. assert (T' : forall k, In k (flat_map shared_keys l) -> alias_of k (introduced m) = None /\ ~ In k (flat_map aliased_keys l)).
    { intros k Hk. destruct (T k) as [A B]; [now rewrite shared_Commas|]. split; [assumption|]. now rewrite aliased_Commas in B. }
    now apply IH.
  - intros k d IH m T. rewrite write_Shared. destruct (T k (or_introl eq_refl)) as [-> N]. cbn [plain]. apply IH.
    intros k' Hk'. apply T. now right.
  - intros k n d IH m T. cbn [plain write]. rewrite plain_intro.
    destruct (existsb (String.eqb k) (SpecDoc.written m)); [reflexivity|]. rewrite IH; [reflexivity|exact T].
  - intros k a d IH m T. cbn [plain write]. rewrite plain_intro.
    destruct (alias_of k (introduced m)); [reflexivity|]. rewrite IH; [reflexivity|].
    intros k' Hk'. destruct (T k' Hk') as [A B]. split; [assumption|]. intros X. apply B. now right.
  - repeat split; reflexivity.
  - intros d l IHd IHl m T. cbn [map wcat wrest].
    assert (W : write d m = write (plain d) m).
    { apply IHd. intros k Hk. destruct (T k) as [A B]; [apply in_or_app; now left|]. split; [assumption|]. intros X. apply B. apply in_or_app. now left. }
    rewrite <- W. destruct (write d m) as [x m1] eqn:E1.
    destruct (IHl m1) as (A & B & _).
    { intros k Hk. destruct (T k) as [A B]; [apply in_or_app; now right|]. split.
      - assert (G := free_write k d m). rewrite E1 in G. apply G; [|exact A]. intros X. apply B. apply in_or_app. now left.
      - intros X. apply B. apply in_or_app. now right. }
    rewrite A, B. split; [reflexivity|]. split; [reflexivity|]. rewrite !write_Commas, <- W, E1, B. reflexivity.
Qed.

(** ** Relationships are what the calls say *)

Definition describes (t : details) (a : arrow) : Prop :=
  dt_err t = None /\ dt_dir t = a_dir a
  /\ (match a_name a with Some n => exists k, dt_sym t = Sym k n | None => dt_sym t = NoSym end)
  /\ (match a_types a with [] => dt_types t = None | ts => exists k, dt_types t = Some (k, ts) end)
  /\ (match a_hops a with
      | OneHop => dt_len t = None
      | AnyHops => exists k, dt_len t = Some (k, true, None, None)
      | Between lo hi => (exists k, dt_len t = Some (k, false, lo, hi)) /\ (lo <> None \/ hi <> None)
      end)
  /\ (match a_props a with Some m => exists k, dt_props t = Props k m | None => dt_props t = NoProps end).

Definition made_as (l r : node) (a : arrow) (x : rel) : Prop :=
  r_left x = l /\ r_right x = r /\ r_err x = None /\ describes (r_details x) a.

Lemma describes_sym : forall t a, describes t a -> sym_err (dt_sym t) = None.
Proof. intros t a (_ & _ & H & _). destruct (a_name a); [destruct H as [k ->]|rewrite H]; reflexivity. Qed.
Lemma describes_props : forall t a, describes t a -> props_err (dt_props t) = None.
Proof. intros t a (_ & _ & _ & _ & _ & H). destruct (a_props a); [destruct H as [k ->]|rewrite H]; reflexivity. Qed.

Lemma details_create_ok : forall d s ts len p, sym_err s = None -> props_err p = None ->
  details_create d s ts len p = Details d s ts len p "" None.
Proof. intros. unfold details_create. now rewrite H, H0. Qed.

Lemma rel_create3_ok : forall k l t r, nd_err l = None -> nd_err r = None -> dt_err t = None -> rel_create3 k l t r = Rel l r t k true None.
Proof. intros. unfold rel_create3. now rewrite H, H0, H1. Qed.

Lemma rel_create_made : forall ks l d r ts, nd_err l = None -> nd_err r = None -> made_as l r (new_arrow d ts) (rel_create ks l d r ts).
Proof.
  intros ks l d r ts L R. unfold rel_create. rewrite L, R, rel_create3_ok by (auto; destruct ts; reflexivity).
  split; [reflexivity|]. split; [reflexivity|]. split; [reflexivity|]. unfold describes, new_arrow; cbn.
  repeat split. destruct ts; eauto.
Qed.

Lemma rel_change_made : forall ks c l r a x, good_change c = true -> nd_err l = None -> nd_err r = None -> made_as l r a x ->
  made_as l r (described c a) (rel_change ks c x).
Proof.
  intros ks c l r a x G L R (Hl & Hr & He & D). pose proof (describes_sym _ _ D) as DS. pose proof (describes_props _ _ D) as DP.
  destruct D as (D1 & D2 & D3 & D4 & D5 & D6).
  assert (K : forall t', describes t' (described c a) -> made_as l r (described c a) (rel_create3 (ks 0) (r_left x) t' (r_right x))).
  { intros t' D'. rewrite Hl, Hr, rel_create3_ok by (auto; apply D'). repeat split; apply D'. }
  destruct c as [n| |z|z|lo hi|m]; cbn [rel_change] in *.
  - apply K. cbn in G. unfold details_named. destruct (String.eqb n "") eqn:En; [discriminate|].
    unfold symbolic_name_create. rewrite En. rewrite details_create_ok by auto. repeat split; cbn; eauto.
  - apply K. unfold details_unbounded. rewrite details_create_ok by auto. repeat split; cbn; eauto.
  - apply K. unfold details_min. rewrite details_create_ok by auto. repeat split; cbn; auto.
    + exists (ks 1). destruct (a_hops a); [rewrite D5|destruct D5 as [k ->]|destruct D5 as [[k ->] _]]; reflexivity.
    + left. discriminate.
  - apply K. unfold details_max. rewrite details_create_ok by auto. repeat split; cbn; auto.
    + exists (ks 1). destruct (a_hops a); [rewrite D5|destruct D5 as [k ->]|destruct D5 as [[k ->] _]]; reflexivity.
    + right. discriminate.
  - apply K. unfold details_max, details_min. rewrite (details_create_ok (dt_dir (r_details x))) by auto. cbn. rewrite details_create_ok by auto.
    repeat split; cbn; auto.
    + now exists (ks 1).
    + left. discriminate.
  - destruct m as [k es| |e]; cbn in G; [| |discriminate]; cbn [map_not_nil negb andb].
    + apply K. unfold details_with, properties_create. cbn. rewrite details_create_ok by auto. repeat split; cbn; eauto.
    + destruct (props_not_nil (dt_props (r_details x))) eqn:Ep; cbn [negb].
      * apply K. unfold details_with. rewrite details_create_ok by auto. repeat split; cbn; auto.
      * split; [exact Hl|]. split; [exact Hr|]. split; [exact He|]. repeat split; cbn; auto.
        destruct (a_props a); [destruct D6 as [k D6]; rewrite D6 in Ep; discriminate|exact D6].
Qed.

(** The relationship that a stretch of calls makes. *)
Definition leg_rel (left : node) (l : leg) : rel :=
  fold_left (fun r c => rel_change (fst c) (snd c) r) (l_changes l) (rel_create (l_keys l) left (l_dir l) (l_node l) (l_types l)).

Lemma changes_made : forall cs l r a x, forallb (fun c => good_change (snd c)) cs = true -> nd_err l = None -> nd_err r = None -> made_as l r a x ->
  made_as l r (fold_left (fun a c => described (snd c) a) cs a) (fold_left (fun r (c : (nat -> key) * change) => rel_change (fst c) (snd c) r) cs x).
Proof.
  induction cs as [|[ks c] cs IH]; intros l r a x G L R M; [exact M|]. cbn in G. apply andb_prop in G as [G1 G2]. cbn.
  apply IH; auto. now apply rel_change_made.
Qed.

Lemma good_node_err : forall n, good_node n = true -> nd_err n = None /\ nd_not_nil n = true.
Proof. intros n. unfold good_node. destruct (nd_err n); [discriminate|auto]. Qed.

Lemma leg_made : forall left l, nd_err left = None -> good_leg l = true -> made_as left (l_node l) (leg_arrow l) (leg_rel left l).
Proof.
  intros left l L G. apply andb_prop in G as [G1 G2]. apply good_node_err in G1 as [G1 _].
  apply changes_made; auto. now apply rel_create_made.
Qed.

(** ** Text *)

Lemma plain_opt : forall E (p : option expr), map plain (maybe (option_map (print E) p)) = match p with Some e => [plain (print E e)] | None => [] end.
Proof. now intros E [e|]. Qed.

Lemma wcat_cat : forall a l m, wcat (Cat a :: l) m = wcat (a ++ l) m.
Proof. intros. rewrite wcat_app. cbn [wcat]. rewrite write_Cat. reflexivity. Qed.

Lemma plain_labels : forall ls, map plain (map print_label ls) = map (fun l => Txt (label_text (snd l))) ls.
Proof. induction ls; cbn; congruence. Qed.

Definition leq (a b : list doc) : Prop := (forall m, wcat a m = wcat b m) /\ (forall m, intros_l a m = intros_l b m).

Lemma leq_refl : forall a, leq a a.
Proof. split; reflexivity. Qed.
Lemma leq_app : forall a a' b b', leq a a' -> leq b b' -> leq (a ++ b) (a' ++ b').
Proof.
  intros a a' b b' [A1 A2] [B1 B2]. split; intros m.
  - rewrite !wcat_app, A1. destruct (wcat a' m). now rewrite B1.
  - now rewrite !intros_app, A2, B2.
Qed.
Lemma leq_cons : forall a a' b b', deq a a' -> leq b b' -> leq (a :: b) (a' :: b').
Proof.
  intros a a' b b' A [B1 B2]. destruct (A nothing_written) as [_ _]. split; intros m; destruct (A m) as [A1 A2]; cbn.
  - rewrite A1. destruct (write a' m). now rewrite B1.
  - now rewrite A2, B2.
Qed.
Lemma leq_nest : forall a b, leq (Cat a :: b) (a ++ b).
Proof. intros. split; intros m; [apply wcat_cat|]. now rewrite intros_app. Qed.
Lemma leq_trans : forall a b c, leq a b -> leq b c -> leq a c.
Proof. intros a b c [A1 A2] [B1 B2]. split; intros m; [now rewrite A1|now rewrite A2]. Qed.
Lemma leq_deq : forall a b, leq a b -> deq (Cat a) (Cat b).
Proof. intros a b [A B]. now apply deq_cat. Qed.

Definition props_docs (E : env) (p : props) : list doc :=
  match p with Props _ m => [Txt " "; plain (print E (map_expr m))] | _ => [] end.

Lemma props_leq : forall E p, leq (map plain (maybe (option_map (print E) (props_part p)))) (props_docs E p).
Proof. intros E [k m| |e]; cbn; try apply leq_refl. eapply leq_trans; [apply leq_nest|]. rewrite app_nil_r. apply leq_refl. Qed.

Lemma node_text : forall E n, deq (plain (print E (node_expr n))) (node_doc E n).
Proof.
  intros E n. unfold node_expr, node_doc. fold (props_docs E (nd_props n)).
  destruct (nd_sym n) as [k x| |e]; cbn [sym_part print plain].
  - apply deq_once, leq_deq. rewrite !map_app, plain_labels. cbn [map plain app]. apply leq_cons; [apply deq_refl|].
    apply leq_app; [apply leq_refl|apply props_leq].
  - apply leq_deq. cbn [map plain app]. apply leq_cons; [apply deq_refl|]. eapply leq_trans; [apply leq_nest|].
    rewrite !map_app, plain_labels, <- app_assoc. apply leq_app; [apply leq_refl|]. apply leq_app; [apply props_leq|apply leq_refl].
  - apply leq_deq. cbn [map plain app]. apply leq_cons; [apply deq_refl|]. eapply leq_trans; [apply leq_nest|].
    rewrite !map_app, plain_labels, <- app_assoc. apply leq_app; [apply leq_refl|]. apply leq_app; [apply props_leq|apply leq_refl].
Qed.

Lemma length_hops : forall h k u lo hi, match h with
      | OneHop => False
      | AnyHops => (u, lo, hi) = (true, None, None)
      | Between lo' hi' => (u, lo, hi) = (false, lo', hi') /\ (lo' <> None \/ hi' <> None)
      end -> Txt (rel_length_text u lo hi) = Txt (hops_text h) /\ k = k :> key.
Proof.
  intros [| |lo' hi'] k u lo hi H; [contradiction|inversion H; auto|]. destruct H as [H N]. inversion H; subst.
  split; [|reflexivity]. f_equal. destruct lo', hi'; try reflexivity. destruct N; congruence.
Qed.

Definition details_docs (E : env) (t : details) : list doc :=
  maybe (option_map (print E) (option_map (fun x => ESym (fst x) (snd x)) (sym_part (dt_sym t))))
  ++ match dt_types t with Some (kt, v) => [Shared kt (Txt (rel_types_text v))] | None => [] end
  ++ match dt_len t with Some (kl, u, lo, hi) => [Shared kl (Txt (rel_length_text u lo hi))] | None => [] end
  ++ maybe (option_map (print E) (props_part (dt_props t))).

Lemma details_content : forall E t a, describes t a -> leq (map plain (details_docs E t)) (arrow_content E a)
  /\ (details_docs E t = [] <-> arrow_content E a = []).
Proof.
  intros E t a (D1 & D2 & D3 & D4 & D5 & D6). unfold details_docs, arrow_content. rewrite !map_app.
  assert (P : forall A (l l' l2 l2' : list A), (l = [] <-> l' = []) -> (l2 = [] <-> l2' = []) -> (l ++ l2 = [] <-> l' ++ l2' = [])).
  { intros A l l' l2 l2' H1 H2. split; intros H; apply app_eq_nil in H as [H3 H4]; [rewrite (proj1 H1 H3), (proj1 H2 H4)|rewrite (proj2 H1 H3), (proj2 H2 H4)]; reflexivity. }
  assert (N : forall A (x : A) l, (x :: l = [] <-> x :: l = [])) by tauto.
  split.
  - apply leq_app; [|apply leq_app; [|apply leq_app]].
    + destruct (a_name a); [destruct D3 as [k ->]|rewrite D3]; cbn; apply leq_refl.
    + destruct (a_types a); [rewrite D4|destruct D4 as [k ->]]; cbn; apply leq_refl.
    + destruct (a_hops a) as [| |lo hi]; [rewrite D5; apply leq_refl|destruct D5 as [k ->]; apply leq_refl|].
      destruct D5 as [[k ->] N1]. cbn [map plain]. destruct (length_hops (Between lo hi) k false lo hi (conj eq_refl N1)) as [-> _]. apply leq_refl.
    + eapply leq_trans; [apply props_leq|]. destruct (a_props a); [destruct D6 as [k ->]|rewrite D6]; apply leq_refl.
  - apply P; [|apply P; [|apply P]].
    + destruct (a_name a); [destruct D3 as [k ->]|rewrite D3]; cbn; split; congruence.
    + destruct (a_types a); [rewrite D4|destruct D4 as [k ->]]; cbn; split; congruence.
    + destruct (a_hops a) as [| |lo hi]; [rewrite D5|destruct D5 as [k ->]|destruct D5 as [[k ->] _]]; cbn; split; congruence.
    + destruct (a_props a); [destruct D6 as [k ->]|rewrite D6]; cbn; split; congruence.
Qed.

Lemma arrow_text : forall E t a, describes t a -> deq (plain (print E (details_expr t))) (arrow_doc E a).
Proof.
  intros E t a D. destruct (details_content E t a D) as [L N]. destruct D as (_ & D & _). unfold details_expr, arrow_doc.
  cbn [print plain]. fold (details_docs E t). rewrite <- D.
  assert (I : leq [plain (match details_docs E t with [] => Txt "" | _ => Cat [Txt "["; Cat (details_docs E t); Txt "]"] end)]
                  (match arrow_content E a with [] => [] | c => [Txt "["] ++ c ++ [Txt "]"] end)).
  { destruct (details_docs E t) as [|d l] eqn:Ed.
    - rewrite (proj1 N eq_refl). split; reflexivity.
    - destruct (arrow_content E a) as [|d' l'] eqn:Ea; [assert (X := proj2 N eq_refl); discriminate|].
      cbn [plain map]. eapply leq_trans; [apply leq_nest|]. rewrite app_nil_r. apply leq_cons; [apply deq_refl|].
      eapply leq_trans; [apply leq_nest|]. apply leq_app; [exact L|apply leq_refl]. }
  destruct (dt_dir t); cbn [plain map]; try (apply leq_deq; apply leq_cons; [apply deq_refl|]; exact (leq_app _ _ [_] [_] I (leq_refl _))).
  eapply deq_trans; [apply deq_sym, deq_one|]. now apply leq_deq.
Qed.

(** The relationships of a chain form a path. *)
Fixpoint chained (first : node) (steps : list (arrow * node)) (rs : list rel) : Prop :=
  match steps, rs with
  | [], [] => True
  | (a, n) :: steps', r :: rs' => made_as first n a r /\ chained n steps' rs'
  | _, _ => False
  end.

Lemma last_any : forall A l (x d d' : A), last (x :: l) d = last (x :: l) d'.
Proof. induction l as [|y l IH]; intros; [reflexivity|]. exact (IH y d d'). Qed.

Lemma chained_last : forall steps first rs, chained first steps rs -> steps <> [] ->
  exists r rs', rev rs = r :: rs' /\ r_right r = snd (last steps (new_arrow LTR [], first)).
Proof.
  induction steps as [|[a n] steps IH]; intros first rs C H; [congruence|]. destruct rs as [|r rs]; [destruct C|]. destruct C as [M C].
  destruct steps as [|s steps].
  - destruct rs; [|destruct C]. exists r, []. split; [reflexivity|]. apply M.
  - destruct (IH n rs C ltac:(discriminate)) as (r' & rs' & E & R). exists r', (rs' ++ [r]). cbn [rev]. rewrite E. split; [reflexivity|].
    rewrite R. f_equal. apply (last_any _ steps s).
Qed.

Lemma chain_text : forall E steps first rs, chained first steps rs -> steps <> [] ->
  nd_not_nil (snd (last steps (new_arrow LTR [], first))) = true ->
  deq (plain (print E (chain_expr rs))) (path_doc E first steps).
Proof.
  intros E steps first rs C H N. destruct (chained_last _ _ _ C H) as (r & rs' & Er & Rr).
  unfold chain_expr. rewrite Er, Rr, N. cbn [print plain option_map maybe]. unfold path_doc. apply leq_deq.
  rewrite map_app. cbn [map].
  clear Er Rr rs' r N. revert first rs C H. induction steps as [|[a n] steps IH]; intros first rs C H; [congruence|].
  destruct rs as [|r rs]; [destruct C|]. destruct C as [(Ml & Mr & Me & D) C]. cbn [map flat_map fst snd app].
  rewrite Ml. apply leq_cons; [apply node_text|]. apply leq_cons; [now apply arrow_text|].
  destruct steps as [|s steps].
  - destruct rs; [|destruct C]. cbn. apply leq_cons; [apply node_text|apply leq_refl].
  - replace (last ((a, n) :: s :: steps) (new_arrow LTR [], first)) with (last (s :: steps) (new_arrow LTR [], n)).
    + apply IH; [exact C|discriminate].
    + apply (last_any _ steps s).
Qed.

Lemma rel_text : forall E l r a x, made_as l r a x -> deq (plain (print E (rel_expr x))) (path_doc E l [(a, r)]).
Proof.
  intros E l r a x (Ml & Mr & Me & D). unfold rel_expr, path_doc. cbn [print plain map flat_map app fst snd]. rewrite Ml, Mr. apply leq_deq.
  apply leq_cons; [apply node_text|]. apply leq_cons; [now apply arrow_text|]. apply leq_cons; [apply node_text|apply leq_refl].
Qed.
