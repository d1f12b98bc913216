(** Proofs for C72. *)

From Coq Require Import Ascii String List ZArith Bool Lia.
From Verif Require Import PropertiesRender GoStr Escape Num VTree WellKeyed SpecLex SpecNum SpecSpace SpecTokens EscapeProofs GoStrProofs Ast SpecDoc
  SpecPrint SpecShape SpecOutline SpecGrammar SpecReading GoVal Maps Slices Patterns SpecPattern PatternProofs ChainProofs Cond Queries Builder BuilderText SpecBuilder BuilderProofs SpecPhrases BuilderOutline SpecCalled PhrasePlaces CalledProofs
  PropertiesText PropertiesTokens TokenTexts SpecCond PropertiesExpr PropertiesBuilder PropertiesGrammar PropertiesCalled Exprs Functions SpecCalls FunctionProofs
  SpecAsked AskedProofs PropertiesAsked SpecDrawn DrawnProofs DrawnClauses PropertiesDrawn SpecUnited UnitedProofs SpecNested.
Import ListNotations.
Open Scope string_scope.
Open Scope nat_scope.
Open Scope list_scope.

Scheme nested_mut := Induction for nested Sort Prop
  with nested_all_mut := Induction for nested_all Sort Prop
  with nested_chains_mut := Induction for nested_chains Sort Prop.
Combined Scheme nested_ind' from nested_mut, nested_all_mut, nested_chains_mut.

(** ** A statement and its clauses *)

Definition is_union (q : query) : Prop := match q with QUnion _ _ _ => True | _ => False end.

Lemma returning_clauses : forall q, returns_elements q = true -> SpecBuilder.clauses q <> [].
Proof.
  fix IH 1. intros [ | | | | | | | | | | | | |cs r|ps r|] R; try discriminate R; cbn [SpecBuilder.clauses]; try (intros X; discriminate X).
  - destruct r; [|discriminate R]. now destruct cs.
  - intros X. apply app_eq_nil in X as [_ X]. revert X. now apply IH.
Qed.

Section Whole.
Context (E : env) (A : register).
Notation K := (fun k => exists a, aliases A k a).

Lemma whole_shaped : forall q, returns_elements q = true -> Forall (fun c => ~ is_union c) (SpecBuilder.clauses q) ->
  Forall (shaped_q E K) (SpecBuilder.clauses q) -> Forall (SpecShape.clause K) (removelast (SpecBuilder.clauses q)) ->
  (forall k, List.In k (part_keys q) -> unaliased A k) -> shaped_q E K q.
Proof.
  fix IH 1. intros q R. destruct q as [ | | | | | | | | | | | | |cs r|ps r|]; try discriminate R; intros N S C P.
  - inversion S; subst. assumption.
  - destruct r as [r|]; [|discriminate R]. cbn [SpecBuilder.clauses opt_list] in *. apply Forall_app in S as [S1 S2]. rewrite removelast_last in C. now constructor.
  - cbn [SpecBuilder.clauses part_keys] in *. assert (Rr : returns_elements r = true) by exact R. rewrite removelast_app in C by now apply returning_clauses.
    apply Forall_app in S as [S1 S2]. apply Forall_app in C as [C1 C2]. apply Forall_app in N as [N1 N2]. constructor.
    + intros k cs w J. assert (Sub : forall c, List.In c (cs ++ [w]) -> List.In c (flat_map clauses_of_part ps)) by (intros c Jc; apply in_flat_map; exists (k, cs, w); auto).
      rewrite Forall_forall in S1, C1. split; [|split; [|split; [|split]]].
      * intros [a Ha]. apply (P k) with a; [|exact Ha]. apply in_or_app. left. apply in_map_iff. exists (k, cs, w). auto.
      * apply Forall_forall. intros c Jc. apply C1, Sub, in_or_app. now left.
      * apply Forall_forall. intros c Jc. apply S1, Sub, in_or_app. now left.
      * apply C1, Sub, in_or_app. right. now left.
      * apply S1, Sub, in_or_app. right. now left.
    + apply (IH r Rr N2 S2 C2). intros k J. apply P. apply in_or_app. now right.
  - inversion N as [|? ? X]; subst. destruct X. exact Logic.I.
Qed.

Lemma whole_readable : forall q, returns_elements q = true -> Forall (fun c => ~ is_union c) (SpecBuilder.clauses q) ->
  Forall (readable_c E A) (SpecBuilder.clauses q) -> (forall k, List.In k (part_keys q) -> unaliased A k) -> readable_cs E A q.
Proof.
  fix IH 1. intros q R. destruct q as [ | | | | | | | | | | | | |cs r|ps r|]; try discriminate R; intros N S P.
  - inversion S; subst. now constructor.
  - constructor. destruct r; exact S.
  - cbn [SpecBuilder.clauses part_keys] in *. assert (Rr : returns_elements r = true) by exact R. apply Forall_app in S as [S1 S2]. apply Forall_app in N as [N1 N2]. constructor.
    + apply Forall_forall. intros [[k cs] w] J. split; [apply P; apply in_or_app; left; apply in_map_iff; exists (k, cs, w); auto|].
      rewrite Forall_forall in S1. apply Forall_forall. intros c Jc. apply S1. apply in_flat_map. exists (k, cs, w). auto.
    + apply (IH r Rr N2 S2). intros k J. apply P. apply in_or_app. now right.
  - inversion N as [|? ? X]; subst. destruct X. exact Logic.I.
Qed.

Lemma whole_agrees : forall l q, agrees_cs E A l q -> Forall2 (agrees_c E A) l (SpecBuilder.clauses q).
Proof.
  intros l q. revert l. revert q. fix IH 1. intros q l M. destruct q as [ | | | | | | | | | | | | |cs r|ps r|]; inversion M; subst.
  - constructor; [assumption|constructor].
  - destruct r; assumption.
  - cbn [SpecBuilder.clauses]. apply Forall2_app; [assumption|]. now apply IH.
Qed.

(** The nodes of the clauses are nodes of the statement. *)
Lemma clause_mentions : forall q c k, List.In c (SpecBuilder.clauses q) -> List.In k (node_mentions (print_query E c)) -> List.In k (node_mentions (print_query E q)).
Proof.
  fix IH 1. intros q c k J I. destruct q as [ | | | | | | | | | | | | |cs r|ps r|]; try (destruct J as [<-|[]]; exact I).
  - cbn [SpecBuilder.clauses print_query node_mentions] in *. apply in_flat_map. exists (print_query E c). split; [|exact I]. apply in_or_app.
    apply in_app_or in J as [J|J]; [left; now apply in_map|right]. destruct r as [r|]; [|destruct J]. destruct J as [->|[]]. now left.
  - cbn [SpecBuilder.clauses print_query node_mentions] in *. rewrite flat_map_app. apply in_or_app. apply in_app_or in J as [J|J].
    + left. apply in_flat_map in J as (p & Jp & Jc). apply in_flat_map. eexists. split; [apply in_map_iff; exists p; split; [reflexivity|exact Jp]|].
      cbn [node_mentions]. apply in_flat_map. exists (print_query E c). split; [|exact I]. unfold clauses_of_part in Jc. apply in_app_or in Jc as [Jc|[<-|[]]]; apply in_or_app; [left; now apply in_map|right; now left].
    + right. cbn [flat_map]. rewrite app_nil_r. now apply (IH r c k).
Qed.
Lemma once_clauses : forall q, nodes_once E A [q] -> nodes_once E A (SpecBuilder.clauses q).
Proof.
  intros q H k J. apply H. cbn [map node_mentions flat_map] in *. rewrite app_nil_r. apply in_flat_map in J as (d & Jd & Jk). apply in_map_iff in Jd as (c & <- & Jc). now apply (clause_mentions q c).
Qed.

Lemma silent_nodes : forall e, silent e = true -> node_mentions (print E e) = [].
Proof.
  fix IH 1. intros e S. destruct e; try discriminate S; cbn [silent] in S.
  - destruct cs as [|c [|c2 cs]]; try discriminate S; [reflexivity|]. cbn. now apply IH.
  - cbn [print]. now apply IH.
Qed.

(** The nodes of the patterns of a phrase are nodes of the clause. *)
Lemma pattern_mentions : forall ph q, SpecBuilder.says ph q -> nodes_once E A [q] -> ~ phrase_again E A ph.
Proof.
  intros ph q S H X. apply Exists_exists in X as (e & Je & k & Jk & Ag). apply (H k); [|exact Ag]. cbn [map node_mentions flat_map]. rewrite app_nil_r.
  assert (P : forall kp ps, List.In e ps -> List.In k (node_mentions (print E (EPattern kp ps)))).
  { intros kp ps J. cbn [print node_mentions listing]. apply in_flat_map. exists (print E e). split; [|exact Jk]. apply in_flat_map. exists e. split; [exact J|].
    destruct (silent e) eqn:Si; [|now left]. rewrite (silent_nodes e Si) in Jk. destruct Jk. }
  destruct ph; cbn [phrase_patterns] in Je; try (now destruct Je); destruct q; cbn [SpecBuilder.says] in S; try (now destruct S).
  - destruct S as (_ & (kp & ->) & _). cbn [print_query node_mentions flat_map app]. apply in_or_app. left. now apply P.
  - destruct S as (kp & ->). cbn [print_query node_mentions flat_map app]. apply in_or_app. left. now apply P.
  - destruct S as ((kp & ->) & _). cbn [print_query node_mentions flat_map app]. apply in_or_app. left. now apply P.
Qed.

Lemma no_unions : forall ph qs, Forall2 SpecBuilder.says ph qs -> Forall (fun c => ~ is_union c) qs.
Proof.
  intros ph qs S. induction S as [|p q ph qs H _ IH]; constructor; [|exact IH]. intros X. destruct q; try destruct X. destruct p; cbn [SpecBuilder.says] in H; exact H.
Qed.
Lemma not_last : forall ph qs, only_last ph -> Forall2 SpecBuilder.says ph qs -> exists l, Forall2 SpecBuilder.says l (removelast qs) /\ incl l ph /\ Forall (fun p => is_return p = false) l.
Proof.
  intros ph qs (l & o & -> & R) S. destruct o as [p|]; cbn [opt_list] in S.
  - apply Forall2_app_inv_l in S as (a & b & Sa & Sb & ->). inversion Sb as [|? q ? ? Sq Sn]; subst. inversion Sn; subst. rewrite removelast_last. exists l. split; [exact Sa|]. split; [|exact R]. intros x J. apply in_or_app. now left.
  - rewrite app_nil_r in *. exists (removelast l). assert (X : forall (l : list phrase) qs, Forall2 SpecBuilder.says l qs -> Forall2 SpecBuilder.says (removelast l) (removelast qs)).
    { clear. intros l qs H. induction H as [|x y l m H F IH]; [constructor|]. destruct F as [|x2 y2 l m H2 F]; [constructor|]. change (Forall2 SpecBuilder.says (x :: removelast (x2 :: l)) (y :: removelast (y2 :: m))). now constructor. }
    split; [now apply X|]. assert (Y : incl (removelast l) l).
    { clear. induction l as [|x l IH]; [intros z J; exact J|]. destruct l as [|y l]; [intros z []|]. change (removelast (x :: y :: l)) with (x :: removelast (y :: l)). intros z [->|J]; [now left|right; now apply IH]. }
    split; [exact Y|]. apply Forall_forall. intros x J. rewrite Forall_forall in R. apply R, Y, J.
Qed.
End Whole.

Section Asked.
Context (E : env) (A : register) (NS : no_space_in_names E) (NK : unaliased A "").
Notation K := (fun k => exists a, aliases A k a).

(** What is asked for can be read and nothing else can. *)
Definition told (ph : phrase) (c : cclause) : Prop :=
  readable_phrase E A ph /\ in_place_phrase E A ph
  /\ (~ renamed A -> forall q, SpecBuilder.says ph q -> nodes_once E A [q] -> forall t, asks E A ph t -> t = c).

Lemma once_cons : forall q qs, nodes_once E A (q :: qs) -> nodes_once E A [q] /\ nodes_once E A qs.
Proof. intros q qs H. split; intros k J; apply H; cbn [map node_mentions flat_map] in *; apply in_or_app; [left; now rewrite app_nil_r in J|now right]. Qed.

Lemma told_all : forall phs cs, Forall2 told phs cs ->
  Forall (readable_phrase E A) phs /\ Forall (in_place_phrase E A) phs
  /\ (~ renamed A -> forall qs, Forall2 SpecBuilder.says phs qs -> nodes_once E A qs -> forall ts, Forall2 (asks E A) phs ts -> ts = cs).
Proof.
  intros phs cs F. induction F as [|ph c phs cs (R & P & O) F (Rs & Ps & Os)].
  - repeat split; [constructor|constructor|]. intros _ qs _ _ ts H. now inversion H.
  - repeat split; [now constructor|now constructor|]. intros N qs S On ts H. inversion S; subst. inversion H; subst. apply once_cons in On as [O1 O2]. f_equal; [eapply O; eassumption|eapply Os; eassumption].
Qed.

(** The statement a chain builds. *)
Lemma told_statement : forall x q cs, proper x -> builds x q -> returns_elements q = true -> inside_apart A q -> Forall2 told (written (program x)) cs ->
  shaped_q E K q /\ readable_cs E A q /\ (~ renamed A -> nodes_once E A [q] -> forall l, agrees_cs E A l q -> l = cs).
Proof.
  intros [Kp ks p] q cs ((i & C & B) & O) H RE AP T. unfold builds in H. cbn [making closing program] in *.
  destruct (C26_clauses_in_call_order_partial Kp ks p i C B O) as (q' & Q & S). rewrite Q in H. injection H as ->. destruct (told_all _ _ T) as (Rs & Ps & Os).
  assert (FC : free_of A (flat_map clause_keys (SpecBuilder.clauses q))) by (intros k J a X; apply (AP k) with a; [apply in_or_app; now left|exact X]).
  assert (FI : free_of A (flat_map inner_clause_keys (SpecBuilder.clauses q))) by (intros k J a X; apply (AP k) with a; [apply in_or_app; right; apply in_or_app; now left|exact X]).
  assert (FP : forall k, List.In k (part_keys q) -> unaliased A k) by (intros k J; apply AP; apply in_or_app; right; apply in_or_app; now right).
  assert (N : forall k, List.In k (flat_map clause_keys (SpecBuilder.clauses q)) -> ~ K k) by (intros k J [a X]; exact (FC k J a X)).
  pose proof (no_unions _ _ S) as NU. split; [|split].
  - destruct (all_placed E A _ _ S Ps N) as (Sh & _). apply whole_shaped; auto. destruct (not_last _ _ (written_last p i C) S) as (l & Sl & Il & Rl).
    refine (proj2 (all_placed E A l (removelast (SpecBuilder.clauses q)) Sl _ _) Rl).
    + apply Forall_forall. intros y J. rewrite Forall_forall in Ps. now apply Ps, Il.
    + intros k J. apply N. apply in_flat_map in J as (c & Jc & Jk). apply in_flat_map. exists c. split; [|exact Jk]. clear - Jc. revert Jc. generalize (SpecBuilder.clauses q) as l. intros l.
      induction l as [|y l IH]; [intros []|]. destruct l as [|z l]; [intros []|]. change (removelast (y :: z :: l)) with (y :: removelast (z :: l)). intros [->|J]; [now left|right; now apply IH].
  - apply whole_readable; auto. now apply (clauses_readable E A (written p)).
  - intros NR On l M. apply (Os NR (SpecBuilder.clauses q)); [exact S|now apply once_clauses|]. apply (clauses_ask E A (written p) (SpecBuilder.clauses q)); auto. now apply whole_agrees.
Qed.

Lemma once_union : forall k q qs, nodes_once E A [QUnion k q qs] -> nodes_once E A [q] /\ Forall (fun p => nodes_once E A [snd p]) qs.
Proof.
  intros k q qs H. split; [|apply Forall_forall; intros p Jp]; intros j J; apply H; cbn [map print_query node_mentions flat_map] in *; rewrite app_nil_r in *; apply in_or_app; [now left|right].
  apply in_flat_map. eexists. split; [apply in_map_iff; exists p; split; [reflexivity|exact Jp]|]. cbn [node_mentions flat_map app]. now rewrite app_nil_r.
Qed.

Lemma nested_told : (forall ph c, nested E A ph c -> told ph c) /\ (forall phs cs, nested_all E A phs cs -> Forall2 told phs cs)
  /\ (forall xs css, nested_chains E A xs css -> Forall2 (fun x cs => Forall2 told (written (program x)) cs) xs css).
Proof.
  apply (nested_ind' E A (fun ph c _ => told ph c) (fun phs cs _ => Forall2 told phs cs) (fun xs css _ => Forall2 (fun x cs => Forall2 told (written (program x)) cs) xs css)).
  - intros ph c H D. destruct (clause_back E A NS NK ph c H D) as [R P]. split; [exact R|]. split; [exact P|]. intros NR q S On t Ht.
    apply (near_clause_same (phrase_again E A ph) (renamed A)); [now apply (pattern_mentions E A ph q)|exact NR|]. now apply (clause_only E A NS NK).
  - intros x q cs P B R AP _ T. destruct (told_statement x q cs P B R AP T) as (Sh & Rd & U). split; [now constructor|]. split; [exact Sh|].
    intros NR c S On t Ht. destruct c; cbn [SpecBuilder.says] in S; try now destruct S. subst. destruct t; cbn [asks] in Ht; try now destruct Ht.
    assert (On' : nodes_once E A [q]). { intros j J. apply On. cbn [map print_query node_mentions flat_map] in *. rewrite !app_nil_r in *. exact J. }
    inversion Ht as [? ? M|]; subst; [f_equal; now apply U|]. exfalso. apply (not_union x) in B; [exact B|exact P].
  - intros ku all xs qs u cs css L PR BU RE AP KU UN _ T.
    destruct BU as [|x q xs qs B1 BU]; [cbn in L; lia|]. destruct BU as [|x2 q2 xs qs B2 BU]; [cbn in L; lia|].
    assert (N : match q with QUnion _ _ _ => False | _ => True end) by (inversion PR; subst; now apply (not_union x)).
    rewrite (united ku all q q2 qs N) in UN. injection UN as <-. inversion T as [|? ? ? ? T1 T2]; subst. inversion PR as [|? ? P1 PR']; subst. inversion RE as [|? ? R1 RE']; subst. inversion AP as [|? ? A1 AP']; subst.
    destruct (told_statement x q cs P1 B1 R1 A1 T1) as (Sh & Rd & U).
    assert (BU' : Forall2 builds (x2 :: xs) (q2 :: qs)) by now constructor. clear B2 BU N L PR RE AP T T1 P1 B1 R1 A1.
    set (qs' := q2 :: qs) in *. clearbody qs'. set (xs' := x2 :: xs) in *. clearbody xs'. clear q2 qs x2 xs.
    assert (W : Forall (fun q => shaped_q E K q /\ readable_cs E A q) qs' /\ (~ renamed A -> Forall (fun q => nodes_once E A [q]) qs' -> forall ls, Forall2 (agrees_cs E A) ls qs' -> ls = css)).
    { revert css T2 PR' RE' AP'. clear - BU' NS NK. induction BU' as [|x q xs qs B F IH]; intros css T PR RE AP; inversion T; subst.
      - split; [constructor|]. intros _ _ ls H. now inversion H.
      - inversion PR; subst. inversion RE; subst. inversion AP; subst. destruct (told_statement x q y) as (Sh & Rd & U); try assumption. edestruct IH as (W1 & W2); [eassumption|assumption|assumption|assumption|].
        split; [now constructor|]. intros NR On ls H. inversion On; subst. inversion H; subst. f_equal; [now apply U|now apply W2]. }
    destruct W as [W1 W2]. apply Forall_and_inv in W1 as [Sq Rq].
    assert (PK : forall p, List.In p (part_list ku all qs') -> unaliased A (fst (fst p)) /\ List.In (snd p) qs').
    { intros [[k b] y] J. split; [|exact (in_combine_r _ _ _ _ J)]. apply in_combine_l in J. apply in_map_iff in J as (n & Q & _). injection Q as <- _. cbn. apply KU. }
    split; [|split].
    + apply rq_union; [apply KU|exact Rd|]. apply Forall_forall. intros p J. destruct (PK p J) as [X Y]. split; [exact X|]. rewrite Forall_forall in Rq. now apply Rq.
    + apply sq_union; [exact Sh|]. intros k b y J. destruct (PK _ J) as [X Y]. split; [intros [a Ha]; exact (X a Ha)|]. rewrite Forall_forall in Sq. now apply Sq.
    + intros NR c S On t Ht. destruct c; cbn [SpecBuilder.says] in S; try now destruct S. subst. destruct t; cbn [asks] in Ht; try now destruct Ht.
      assert (On' : nodes_once E A [QUnion (ku 0) q (part_list ku all qs')]). { intros j J. apply On. cbn [map node_mentions flat_map] in *. cbn [print_query]. cbn [node_mentions flat_map]. rewrite !app_nil_r in *. exact J. }
      apply once_union in On' as [O1 O2]. inversion Ht as [? ? M|? ? ? ? ? M Ms]; subst; [inversion M|]. f_equal; [now apply U|].
      assert (Q : map snd others = css).
      { apply W2; [exact NR| |].
        - rewrite <- (part_list_snd ku all qs'). apply Forall_forall. intros y J. apply in_map_iff in J as (p & <- & J). rewrite Forall_forall in O2. now apply O2.
        - rewrite <- (part_list_snd ku all qs'). clear - Ms. induction Ms as [|y p ys ps [_ H] _ IH]; constructor; assumption. }
      rewrite <- Q. assert (Al : Forall (fun b => b = all) (map fst others)).
      { assert (X : map fst others = map (fun p => snd (fst p)) (part_list ku all qs')). { clear - Ms. induction Ms as [|y p ys ps [H _] _ IH]; [reflexivity|]. cbn. now rewrite H, IH. }
        rewrite X. apply Forall_forall. intros b J. apply in_map_iff in J as (p & <- & J). now apply (part_list_all ku all qs'). }
      clear - Al. induction others as [|[b u] us IH]; [reflexivity|]. cbn in *. inversion Al; subst. now rewrite <- IH.
  - constructor.
  - intros. now constructor.
  - constructor.
  - intros. now constructor.
Qed.
End Asked.
