(** The tokens documents can be written with, whatever has been written before. *)

From Coq Require Import Ascii String List ZArith Bool Lia.
From Verif Require Import GoStr Escape Num VTree SpecLex SpecNum SpecSpace SpecTokens EscapeProofs GoStrProofs TokenProofs TokenTexts
  Ast SpecDoc SpecPrint SpecShape PrintProofs TokenDocs SpecOutline SpecGrammar SpecReading.
Import ListNotations.
Open Scope string_scope.
Open Scope list_scope.

Section Docs.
Context (E : env) (NS : no_space_in_names E) (A : register).

(** The name an element is written by if it has an alias. *)
Definition by_alias (k : key) (ts : list token) : Prop := exists a, (A k a /\ again A k) /\ tokens E (escape_if_necessary E a) = Some ts.

Fixpoint writes (d : doc) (ts : list token) {struct d} : Prop :=
  match d with
  | Txt s => tokens E s = Some ts
  | Cat l =>
      (fix go l ts {struct l} : Prop := match l with
                      | [] => ts = []
                      | d :: l' => exists x y, ts = x ++ y /\ writes d x /\ go l' y
                      end) l ts
  | Commas l =>
      match l with
      | [] => ts = []
      | d :: l' =>
          exists x y, ts = x ++ y /\ writes d x
            /\ (fix go l ts {struct l} : Prop := match l with
                              | [] => ts = []
                              | d :: l' => exists x y, ts = Mark "," :: x ++ y /\ writes d x /\ go l' y
                              end) l' y
      end
  | Shared k d => by_alias k ts \/ writes d ts
  | Once k n d => (again A k /\ exists x, tokens E n = Some x /\ ts = Mark "(" :: x ++ [Mark ")"])
                  \/ exists x, writes d x /\ ts = Mark "(" :: x ++ [Mark ")"]
  | Aliased k a d => (exists x y, tokens E a = Some y /\ writes d x /\ ts = x ++ Word "AS" :: y)
                     \/ (tokens E a = Some ts /\ by_alias k ts)
  end.

Fixpoint commas_after (l : list doc) (ts : list token) : Prop :=
  match l with
  | [] => ts = []
  | d :: l' => exists x y, ts = Mark "," :: x ++ y /\ writes d x /\ commas_after l' y
  end.
Lemma writes_cat : forall d l ts, writes (Cat (d :: l)) ts <-> exists x y, ts = x ++ y /\ writes d x /\ writes (Cat l) y.
Proof. reflexivity. Qed.
Lemma writes_cat_nil : forall ts, writes (Cat []) ts <-> ts = [].
Proof. reflexivity. Qed.
Lemma writes_commas : forall d l ts, writes (Commas (d :: l)) ts <-> exists x y, ts = x ++ y /\ writes d x /\ commas_after l y.
Proof.
  intros d l ts. cbn [writes].
  assert (X : forall l ts, (fix go l ts {struct l} : Prop := match l with
                              | [] => ts = []
                              | d :: l' => exists x y, ts = Mark "," :: x ++ y /\ writes d x /\ go l' y
                              end) l ts <-> commas_after l ts).
  { clear. induction l as [|d l IH]; intros ts; [reflexivity|]. cbn [commas_after]. split; intros (x & y & e & H & G); exists x, y; split; auto; split; auto; now apply IH. }
  split; intros (x & y & e & H & G); exists x, y; split; auto; split; auto; now apply X.
Qed.
Lemma writes_app : forall a b ts, writes (Cat (a ++ b)) ts <-> exists x y, ts = x ++ y /\ writes (Cat a) x /\ writes (Cat b) y.
Proof.
  induction a as [|d a IH]; intros b ts; cbn [app].
  - split; [intros H; exists [], ts; repeat split; auto|]. intros (x & y & -> & -> & H). exact H.
  - rewrite writes_cat. split.
    + intros (x & y & -> & H & G). apply IH in G. destruct G as (u & v & -> & U & V). exists (x ++ u), v. rewrite app_assoc.
      split; [reflexivity|]. split; [|exact V]. rewrite writes_cat. eauto.
    + intros (x & y & -> & H & G). rewrite writes_cat in H. destruct H as (u & v & -> & U & V). exists u, (v ++ y). rewrite app_assoc.
      split; [reflexivity|]. split; [exact U|]. apply IH. eauto.
Qed.

(** ** Every text of a document is one of these *)

Fixpoint introduces (d : doc) : Prop :=
  match d with
  | Txt _ => True
  | Cat l | Commas l => (fix go l : Prop := match l with [] => True | d :: l' => introduces d /\ go l' end) l
  | Shared _ d | Once _ _ d => introduces d
  | Aliased k a d => introduces d /\ exists x, A k x /\ a = escape_if_necessary E x
  end.
Lemma introduces_all : forall l, introduces (Cat l) <-> Forall introduces l.
Proof.
  induction l as [|d l IH]; [split; constructor|]. cbn [introduces] in *. rewrite IH. split; [intros [? ?]; now constructor|]. inversion 1; auto.
Qed.
Lemma introduces_commas : forall l, introduces (Commas l) <-> Forall introduces l.
Proof. intros l. rewrite <- introduces_all. reflexivity. Qed.

(** The aliases of the memory are among [pa], its nodes among [pn]. *)
Definition safe (pa pn : list key) (m : memory) : Prop :=
  Forall (fun p => (exists a, A (fst p) a /\ snd p = escape_if_necessary E a) /\ In (fst p) pa) (introduced m) /\ Forall (fun k => In k pn) (written m).
(** What occurs twice is written again. *)
Definition counted (pa pn : list key) : Prop := (forall k, twice k pa -> again A k) /\ (forall k, twice k pn -> again A k).

Lemma twice_more : forall k a b c, twice k (a ++ c) -> twice k (a ++ b ++ c).
Proof. unfold twice. intros k a b c. rewrite !count_occ_app. intros T. unfold key in *. lia. Qed.
Lemma twice_less : forall k a b, twice k a -> twice k (a ++ b).
Proof. unfold twice. intros k a b. rewrite !count_occ_app. intros T. unfold key in *. lia. Qed.
Lemma twice_in : forall k a b, In k a -> twice k (a ++ k :: b).
Proof.
  unfold twice. intros k a b I. rewrite count_occ_app. rewrite (count_occ_In string_dec) in I. cbn [count_occ]. destruct (string_dec k k); [unfold key in *; lia|contradiction].
Qed.
Lemma safe_more : forall pa pn a b m, safe pa pn m -> safe (pa ++ a) (pn ++ b) m.
Proof.
  intros pa pn a b m [H1 H2]. split; [revert H1|revert H2]; apply Forall_impl; [intros x [X I]; split; [exact X|]|intros x I]; apply in_or_app; now left.
Qed.
Lemma counted_less : forall pa pn a b, counted (pa ++ a) (pn ++ b) -> counted pa pn.
Proof. intros pa pn a b [H1 H2]. split; intros k T; [apply H1|apply H2]; now apply twice_less. Qed.

Lemma doc_ind' : forall P : doc -> Prop,
  (forall s, P (Txt s)) -> (forall l, Forall P l -> P (Cat l)) -> (forall l, Forall P l -> P (Commas l)) ->
  (forall k d, P d -> P (Shared k d)) -> (forall k n d, P d -> P (Once k n d)) -> (forall k a d, P d -> P (Aliased k a d)) ->
  forall d, P d.
Proof.
  intros P H1 H2 H3 H4 H5 H6. fix IH 1. intros [s|l|l|k d|k n d|k a d].
  - apply H1.
  - apply H2. induction l; constructor; [apply IH|assumption].
  - apply H3. induction l; constructor; [apply IH|assumption].
  - apply H4, IH.
  - apply H5, IH.
  - apply H6, IH.
Qed.

Lemma safe_alias : forall pa pn m k t, safe pa pn m -> alias_of k (introduced m) = Some t ->
  (exists a, A k a /\ t = escape_if_necessary E a) /\ In k pa.
Proof. intros pa pn m k t [S _] H. apply alias_in in H. rewrite Forall_forall in S. exact (S _ H). Qed.

Lemma introduce_safe : forall d m pa pn, introduces d -> safe pa pn m -> safe (pa ++ mentions d) pn (introduce_all d m).
Proof.
  induction d using doc_ind'; intros m pa pn I S; cbn [introduce_all introduces mentions] in *; rewrite ?app_nil_r; auto.
  - revert m pa I S. induction H as [|d l Hd Hl IH]; intros m pa I S; cbn [flat_map]; [now rewrite app_nil_r|]. destruct I as [Id Il]. rewrite app_assoc. apply IH; auto.
  - revert m pa I S. induction H as [|d l Hd Hl IH]; intros m pa I S; cbn [flat_map]; [now rewrite app_nil_r|]. destruct I as [Id Il]. rewrite app_assoc. apply IH; auto.
  - pose proof (IHd m pa pn I S) as [H1 H2]. split; [|exact H2]. revert H1. apply Forall_impl. intros x [X J]. split; [exact X|]. apply in_app_or in J. apply in_or_app. destruct J; [now left|right; now right].
  - destruct I as [I X]. pose proof (IHd m pa pn I S) as [H1 H2]. split; [|exact H2]. cbn [introduce introduced].
    assert (J : In k (mentions (Aliased k a d)) /\ incl (mentions d) (mentions (Aliased k a d))).
    { cbn [mentions]. destruct d; try (split; [now left|intros x J; now right]). destruct (String.eqb_spec k k0) as [->|_]; [split; [now left|apply incl_refl]|split; [now left|intros x J; now right]]. }
    change (Forall (fun p => (exists a, A (fst p) a /\ snd p = escape_if_necessary E a) /\ In (fst p) (pa ++ mentions (Aliased k a d))) ((k, a) :: introduced (introduce_all d m))).
    constructor; [split; [exact X|apply in_or_app; right; exact (proj1 J)]|]. revert H1. apply Forall_impl. intros x [Y Q]. split; [exact Y|]. apply in_app_or in Q. apply in_or_app. destruct Q; [now left|right; now apply J].
Qed.

Lemma tokens_each_split : forall a b ts, tokens_each E (a ++ b) = Some ts ->
  exists ta tb, tokens_each E a = Some ta /\ tokens_each E b = Some tb /\ ts = ta ++ tb.
Proof.
  induction a as [|s a IH]; intros b ts H; cbn [app tokens_each] in *; [exists [], ts; auto|].
  destruct (tokens E s) as [u|]; [|discriminate]. destruct (tokens_each E (a ++ b)) as [v|] eqn:V; [|discriminate].
  destruct (IH b v V) as (ta & tb & X & B & ->). inversion H; subst. rewrite X. exists (u ++ ta), tb. now rewrite app_assoc.
Qed.
Lemma tokens_each_one : forall s ts, tokens_each E [s] = Some ts -> tokens E s = Some ts.
Proof. intros s ts H. cbn [tokens_each] in H. destruct (tokens E s); [|discriminate]. now rewrite app_nil_r in H. Qed.

Lemma pieces_writes_from : forall d m pa pn ts, introduces d -> safe pa pn m -> counted (pa ++ mentions d) (pn ++ node_mentions d) ->
  tokens_each E (fst (pieces d m)) = Some ts ->
  writes d ts /\ safe (pa ++ mentions d) (pn ++ node_mentions d) (snd (pieces d m)).
Proof.
  induction d using doc_ind'; intros m pa pn ts I S C T.
  - cbn [pieces fst snd mentions node_mentions] in *. rewrite !app_nil_r. split; [now apply tokens_each_one|exact S].
  - revert m pa pn ts I S C T. induction H as [|d l Hd Hl IH]; intros m pa pn ts I S C T.
    + cbn in T. inversion T. cbn [mentions node_mentions flat_map]. rewrite !app_nil_r. split; [reflexivity|exact S].
    + destruct I as [Id Il].
      change (pieces (Cat (d :: l)) m) with (let (x, m1) := pieces d m in let (y, m2) := pieces (Cat l) m1 in (x ++ y, m2)) in *.
      change (mentions (Cat (d :: l))) with (mentions d ++ mentions (Cat l)) in *. change (node_mentions (Cat (d :: l))) with (node_mentions d ++ node_mentions (Cat l)) in *.
      rewrite !app_assoc in *.
      specialize (Hd m pa pn). destruct (pieces d m) as [x m1]. specialize (IH m1 (pa ++ mentions d) (pn ++ node_mentions d)). destruct (pieces (Cat l) m1) as [y m2]. cbn [fst snd] in *.
      apply tokens_each_split in T. destruct T as (ta & tb & Ta & Tb & ->). destruct (Hd ta Id S (counted_less _ _ _ _ C) Ta) as [W1 S1].
      destruct (IH tb Il S1 C Tb) as [W2 S2]. split; [|exact S2]. apply writes_cat. eauto.
  - destruct H as [|d l Hd Hl].
    + cbn in T. inversion T. cbn [mentions node_mentions flat_map]. rewrite !app_nil_r. split; [reflexivity|exact S].
    + destruct I as [Id Il].
      assert (G : forall m pa pn ts, safe pa pn m -> counted (pa ++ flat_map mentions l) (pn ++ flat_map node_mentions l) ->
        let p := (fix go (l : list doc) (m : memory) {struct l} := match l with [] => ([], m) | d :: l' => let (x, m1) := pieces d m in let (y, m2) := go l' m1 in (", " :: x ++ y, m2)%list end) l m in
        tokens_each E (fst p) = Some ts -> commas_after l ts /\ safe (pa ++ flat_map mentions l) (pn ++ flat_map node_mentions l) (snd p)).
      { clear Hd Id T S C m ts pa pn d. induction Hl as [|d l Hd Hl IH]; intros m pa pn ts S C p T.
        - cbn in T. inversion T. cbn [flat_map]. rewrite !app_nil_r. split; [reflexivity|exact S].
        - destruct Il as [Id Il]. cbn [flat_map] in *. rewrite !app_assoc in *. subst p. cbv zeta in IH. specialize (Hd m pa pn). destruct (pieces d m) as [x m1]. cbn [fst snd] in Hd.
          specialize (fun pa pn ts => IH Il m1 pa pn ts).
          destruct ((fix go (l : list doc) (m : memory) {struct l} := match l with [] => ([], m) | d :: l' => let (x, m1) := pieces d m in let (y, m2) := go l' m1 in (", " :: x ++ y, m2)%list end) l m1) as [y m2].
          cbn [fst snd] in *. change (", " :: x ++ y) with ([", "] ++ (x ++ y)) in T. apply tokens_each_split in T. destruct T as (tc & tb & Tc & Tb & ->).
          cbn [tokens_each] in Tc. assert (Cm : tokens E ", " = Some [Mark ","]) by (vm_compute; reflexivity). rewrite Cm in Tc. inversion Tc; subst.
          apply tokens_each_split in Tb. destruct Tb as (t1 & t2 & T1 & T2 & ->). destruct (Hd t1 Id S (counted_less _ _ _ _ C) T1) as [W1 S1]. destruct (IH _ _ t2 S1 C T2) as [W2 S2].
          split; [|exact S2]. cbn [commas_after]. exists t1, t2. auto. }
      cbn [pieces mentions node_mentions flat_map] in *. rewrite !app_assoc in *. specialize (Hd m pa pn). destruct (pieces d m) as [x m1]. specialize (G m1). cbv zeta in G.
      destruct ((fix go (l : list doc) (m : memory) {struct l} := match l with [] => ([], m) | d :: l' => let (x, m1) := pieces d m in let (y, m2) := go l' m1 in (", " :: x ++ y, m2)%list end) l m1) as [y m2].
      cbn [fst snd] in *. apply tokens_each_split in T. destruct T as (t1 & t2 & T1 & T2 & ->).
      destruct (Hd t1 Id S (counted_less _ _ _ _ C) T1) as [W1 S1]. destruct (G _ _ t2 S1 C T2) as [W2 S2]. split; [|exact S2]. apply writes_commas. eauto.
  - cbn [introduces] in I. cbn [pieces writes mentions node_mentions] in *.
    assert (Sk : forall m', safe (pa ++ mentions d) (pn ++ node_mentions d) m' -> safe (pa ++ k :: mentions d) (pn ++ node_mentions d) m').
    { intros m' [H1 H2]. split; [|exact H2]. revert H1. apply Forall_impl. intros x [X J]. split; [exact X|]. apply in_app_or in J. apply in_or_app. destruct J; [now left|right; now right]. }
    assert (Cd : counted (pa ++ mentions d) (pn ++ node_mentions d)).
    { destruct C as [C1 C2]. split; [|exact C2]. intros x X. apply C1. now apply (twice_more x pa [k]). }
    destruct (alias_of k (introduced m)) as [a|] eqn:AL.
    + cbn [fst snd] in *. destruct (safe_alias pa pn m k a S AL) as ((x & Ax & ->) & J). split.
      * left. exists x. split; [|now apply tokens_each_one]. split; [exact Ax|]. apply (proj1 C). now apply twice_in.
      * apply Sk. pose proof (introduce_safe d m pa pn I S) as X. apply (safe_more _ _ [] (node_mentions d)) in X. now rewrite app_nil_r in X.
    + destruct (IHd m pa pn ts I S Cd T) as [W S']. auto.
  - cbn [introduces] in I. cbn [pieces writes mentions node_mentions] in *.
    assert (Sm : safe pa (pn ++ [k]) (mark k m)).
    { destruct S as [S1 S2]. split; [exact S1|]. cbn [mark written]. constructor; [apply in_or_app; right; now left|]. revert S2. apply Forall_impl. intros x J. apply in_or_app. now left. }
    assert (To : tokens E "(" = Some [Mark "("]) by reflexivity. assert (Tc : tokens E ")" = Some [Mark ")"]) by reflexivity.
    assert (Q : pn ++ k :: node_mentions d = (pn ++ [k]) ++ node_mentions d) by now rewrite <- app_assoc.
    destruct (existsb (String.eqb k) (written m)) eqn:Ex.
    + cbn [fst snd tokens_each] in *. rewrite To, Tc in T. destruct (tokens E n) as [x|] eqn:Tn; [|discriminate]. inversion T; subst.
      apply existsb_exists in Ex. destruct Ex as (k' & J & Ek). apply String.eqb_eq in Ek. subst k'. destruct S as [S1 S2]. rewrite Forall_forall in S2.
      split; [left; split; [apply (proj2 C); apply twice_in; auto|eauto]|].
      pose proof (introduce_safe d _ _ _ I Sm) as X. apply (safe_more _ _ [] (node_mentions d)) in X. rewrite app_nil_r in X. now rewrite Q.
    + rewrite Q in *. specialize (IHd (mark k m) pa (pn ++ [k])). destruct (pieces d (mark k m)) as [x m1]. cbn [fst snd] in *.
      change ("(" :: x ++ [")"]) with (["("] ++ (x ++ [")"])) in T. apply tokens_each_split in T. destruct T as (t1 & t2 & T1 & T2 & ->).
      cbn [tokens_each] in T1. rewrite To in T1. inversion T1; subst. apply tokens_each_split in T2. destruct T2 as (t3 & t4 & T3 & T4 & ->).
      cbn [tokens_each] in T4. rewrite Tc in T4. inversion T4; subst. destruct (IHd t3 I Sm C T3) as [W S']. split; [right; eauto|exact S'].
  - cbn [introduces] in I. destruct I as [I (xa & Ax & ->)]. cbn [pieces writes node_mentions] in *.
    assert (J : (In k (mentions (Aliased k (escape_if_necessary E xa) d)) /\ incl (mentions d) (mentions (Aliased k (escape_if_necessary E xa) d)))
                /\ forall x l, twice x (l ++ mentions d) -> twice x (l ++ mentions (Aliased k (escape_if_necessary E xa) d))).
    { cbn [mentions]. destruct d as [s0|l0|l0|k0 d0|k0 n0 d0|k0 a0 d0]; try (split; [split; [now left|intros x J; now right]|intros x l; apply (twice_more x l [k])]).
      destruct (String.eqb_spec k k0) as [->|_]; [split; [split; [now left|apply incl_refl]|auto]|split; [split; [now left|intros x J; now right]|intros x l; apply (twice_more x l [k])]]. }
    assert (IS : forall m, safe (pa ++ mentions d) (pn ++ node_mentions d) m ->
                 safe (pa ++ mentions (Aliased k (escape_if_necessary E xa) d)) (pn ++ node_mentions d) (introduce k (escape_if_necessary E xa) m)).
    { intros m' [S1 S2]. split; [|exact S2]. constructor; [split; [exists xa; auto|apply in_or_app; right; exact (proj1 (proj1 J))]|]. revert S1. apply Forall_impl. intros x [Y Q]. split; [exact Y|]. apply in_app_or in Q. apply in_or_app. destruct Q; [now left|right; now apply J]. }
    destruct (alias_of k (introduced m)) as [b|] eqn:AL.
    + cbn [fst snd] in *. apply tokens_each_one in T. destruct (safe_alias pa pn m k b S AL) as (_ & Jk). split.
      * right; split; [exact T|exists xa; split; [split; [exact Ax|]|exact T]]. apply (proj1 C). destruct J as ((J & _) & _). apply in_split in J. destruct J as (u & v & Q). rewrite Q. rewrite app_assoc. apply twice_in. apply in_or_app. now left.
      * apply IS. pose proof (introduce_safe d m pa pn I S) as X. apply (safe_more _ _ [] (node_mentions d)) in X. now rewrite app_nil_r in X.
    + specialize (IHd m pa pn). destruct (pieces d m) as [x m1]. cbn [fst snd] in *. apply tokens_each_split in T. destruct T as (t1 & t2 & T1 & T2 & ->).
      assert (Cd : counted (pa ++ mentions d) (pn ++ node_mentions d)).
      { destruct C as [C1 C2]. split; [|exact C2]. intros y Y. apply C1. now apply (proj2 J). }
      destruct (IHd t1 I S Cd T1) as [W S1]. split; [|now apply IS]. left. cbn [tokens_each] in T2.
      assert (Ta : tokens E " AS " = Some [Word "AS"]) by (vm_compute; reflexivity). rewrite Ta in T2.
      destruct (tokens E (escape_if_necessary E xa)) as [y|]; [|discriminate]. inversion T2; subst. rewrite app_nil_r. exists t1, y. auto.
Qed.
Lemma pieces_writes : forall d ts, introduces d -> (forall k, written_again d k -> again A k) -> tokens_each E (fst (pieces d nothing_written)) = Some ts -> writes d ts.
Proof.
  intros d ts I R T. apply (pieces_writes_from d nothing_written [] [] ts); auto.
  - split; constructor.
  - split; intros k X; apply R; [now left|now right].
Qed.

(** ** The texts of names and labels *)

Lemma name_written : forall x ts, tokens E (escape_if_necessary E x) = Some ts -> blank x = false -> ts = [Word x] \/ ts = [Name x].
Proof.
  intros x ts T B. rewrite (soft_tokens E _ _ (name_soft E NS x)) in T. inversion T; subst. unfold name_tokens. rewrite B.
  destruct (is_identifier E x); auto.
Qed.
Lemma blank_empty : forall x, blank x = false -> x <> "".
Proof. intros x B ->. discriminate B. Qed.
Lemma resolved : forall x ts, tokens E (resolve E x) = Some ts -> blank x = false -> ts = [Word x] \/ ts = [Name x].
Proof.
  intros x ts T B. unfold resolve in T. destruct (String.eqb_spec x "") as [->|N]; [discriminate|]. now apply name_written.
Qed.
Lemma identifier_not_blank : forall x, is_identifier E x = true -> blank x = false.
Proof.
  intros x H. destruct (blank x) eqn:B; [|reflexivity]. exfalso.
  pose proof (soft_tokens E _ _ (name_soft E NS x)) as T. unfold name_tokens, escape_if_necessary in T. rewrite B in T. cbn [orb] in T.
  rewrite (soft_tokens E _ _ (word_soft E NS x H)) in T. discriminate.
Qed.
Lemma identifier_written : forall x ts, tokens E x = Some ts -> is_identifier E x = true -> ts = [Word x].
Proof. intros x ts T H. rewrite (soft_tokens E _ _ (word_soft E NS x H)) in T. congruence. Qed.
Lemma label_written : forall v ts, tokens E (label_text v) = Some ts -> v <> "" -> ts = [Mark ":"; Name v].
Proof. intros v ts T H. rewrite (soft_tokens E _ _ (label_soft E v H)) in T. congruence. Qed.
Lemma lookup_written : forall x ts, tokens E (lookup_text E x) = Some ts -> blank x = false ->
  (x <> "*" /\ (ts = [Mark "."; Word x] \/ ts = [Mark "."; Name x])) \/ (x = "*" /\ ts = [Mark "."; Mark "*"]).
Proof.
  intros x ts T B. unfold lookup_text in T. destruct (String.eqb_spec x "*") as [->|N].
  - right. split; [reflexivity|]. vm_compute in T. congruence.
  - left. split; [exact N|].
    rewrite (soft_tokens E _ _ (dot_hard E _ _ (name_soft E NS x) (name_first E x (blank_empty x B)))) in T. inversion T; subst.
    unfold name_tokens. rewrite B. destruct (is_identifier E x); auto.
Qed.
Lemma number_written : forall x ts, tokens E (number_text x) = Some ts -> (0 <= n_mant x)%Z ->
  ts = (if n_neg x then [Mark "-"] else []) ++ [Number (text_g10 (n_mant x) (n_exp x))].
Proof. intros x ts T H. rewrite (soft_tokens E _ _ (number_soft E x H)) in T. now inversion T. Qed.
Lemma literal_written : forall s ts, tokens E (string_literal s) = Some ts -> ts = [Literal s].
Proof. intros s ts T. rewrite (soft_tokens E _ _ (hard_soft E _ _ (literal_hard E s))) in T. now inversion T. Qed.
Lemma param_written : forall x ts, tokens E ("$" ++ x)%string = Some ts -> is_identifier E x = true -> ts = [Mark "$"; Word x].
Proof.
  intros x ts T H. assert (D : hard E "$" [Mark "$"]) by (apply one_hard; reflexivity).
  rewrite (soft_tokens E _ _ (hard_soft_app E _ _ _ _ D (word_soft E NS x H))) in T. now inversion T.
Qed.
Fixpoint bars (l : list string) : list token := match l with [] => [] | v :: l => Mark "|" :: Name v :: bars l end.
Lemma types_written : forall vs ts, tokens E (rel_types_text vs) = Some ts -> Forall (fun v => v <> "") vs ->
  ts = match vs with [] => [] | v :: vs => Mark ":" :: Name v :: bars vs end.
Proof.
  intros vs ts T H. unfold rel_types_text in T. destruct vs as [|v vs]; [now inversion T|].
  assert (F : filter (fun x => negb (String.eqb x "")) (v :: vs) = v :: vs).
  { clear T. induction H as [|x l N H IH]; [reflexivity|]. cbn [filter]. destruct (String.eqb_spec x ""); [contradiction|]. cbn [negb]. now rewrite IH. }
  rewrite F in T. assert (J : forall l x, soft E (join "|" (map escape_name (x :: l))) (Name x :: bars l)).
  { clear. induction l as [|y l IH]; intros x; [apply (quoted_soft E x)|].
    change (join "|" (map escape_name (x :: y :: l))) with (escape_name x ++ "|" ++ join "|" (map escape_name (y :: l)))%string.
    change (Name x :: bars (y :: l)) with ([Name x] ++ [Mark "|"] ++ (Name y :: bars l)).
    apply soft_led_soft; [apply quoted_soft|right; apply strong_app; apply bar_strong|].
    apply hard_soft_app; [apply mark_bar|apply IH]. }
  rewrite (soft_tokens E _ _ (hard_soft_app E _ _ _ _ (mark_colon E) (J vs v))) in T. now inversion T.
Qed.
Definition itoa_tokens (n : Z) : list token := if (n <? 0)%Z then [Mark "-"; Number (digits (- n))] else [Number (digits n)].
Lemma itoa_soft : forall n, soft E (itoa n) (itoa_tokens n).
Proof.
  intros n. unfold itoa, itoa_tokens. destruct (Z.ltb_spec n 0).
  - apply (hard_soft_app E "-" [Mark "-"] _ [Number (digits (- n))]); [apply mark_minus|apply digits_soft; lia].
  - now apply digits_soft.
Qed.
Definition bound_tokens (o : option Z) : list token := match o with Some n => itoa_tokens n | None => [] end.
Lemma length_written : forall u lo hi ts, tokens E (rel_length_text u lo hi) = Some ts ->
  ts = if u then [Mark "*"]
       else match lo, hi with None, None => [] | _, _ => Mark "*" :: bound_tokens lo ++ Mark ".." :: bound_tokens hi end.
Proof.
  intros u lo hi ts T. unfold rel_length_text in T. destruct u; [now inversion T|].
  assert (O : forall o : option Z, soft E (match o with Some m => itoa m | None => "" end) (bound_tokens o)).
  { intros [m|]; [apply itoa_soft|apply hard_soft, hard_nil]. }
  assert (G : soft E ("*" ++ (match lo with Some m => itoa m | None => "" end) ++ ".." ++ (match hi with Some m => itoa m | None => "" end))%string
                (Mark "*" :: bound_tokens lo ++ Mark ".." :: bound_tokens hi)).
  { apply (hard_soft_app E "*" [Mark "*"]); [apply mark_star|]. apply soft_led_soft; [apply O|right; apply strong_app, dots_strong|].
    apply (hard_soft_app E ".." [Mark ".."]); [apply dots_hard|apply O]. }
  pose proof (soft_tokens E _ _ G) as T'. destruct lo, hi; try (rewrite T' in T; now inversion T). now inversion T.
Qed.

End Docs.
