(** Proofs for C76: documents that do not share elements are written as on
    their own; white space at the ends of joined texts. *)

From Coq Require Import Ascii String List ZArith Bool Lia.
From Verif Require Import SpecCond GoStr Escape Num VTree SpecSpace EscapeProofs GoStrProofs Ast SpecDoc SpecPrint RenderProofs DocProofs
  BuilderText SpecPattern PatternProofs Cond GoVal Queries Builder SpecBuilder SpecExtend ExtendProofs PropertiesExtend SpecJoined.
Import ListNotations.
Open Scope string_scope.
Open Scope list_scope.

Lemma once_Cat : forall l, once_keys (Cat l) = flat_map once_keys l.
Proof. induction l as [|d l IH]; [reflexivity|]. cbn in *. now rewrite IH. Qed.
Lemma once_Commas : forall l, once_keys (Commas l) = flat_map once_keys l.
Proof. induction l as [|d l IH]; [reflexivity|]. cbn in *. now rewrite IH. Qed.

(** ** Memories that agree on some keys *)
Section Agree.
Context (K O : string -> Prop).

Definition alike (m m' : memory) : Prop :=
  (forall k, K k -> alias_of k (introduced m) = alias_of k (introduced m'))
  /\ (forall k, O k -> existsb (String.eqb k) (SpecDoc.written m) = existsb (String.eqb k) (SpecDoc.written m')).

Lemma alike_introduce : forall k a m m', alike m m' -> alike (introduce k a m) (introduce k a m').
Proof. intros k a m m' (A & B). split; [|exact B]. intros k' J. cbn. destruct (String.eqb k' k); [reflexivity|now apply A]. Qed.
Lemma alike_mark : forall k m m', alike m m' -> alike (mark k m) (mark k m').
Proof. intros k m m' (A & B). split; [exact A|]. intros k' J. cbn. now rewrite (B k' J). Qed.
Lemma alike_intro : forall d m m', alike m m' -> alike (introduce_all d m) (introduce_all d m').
Proof.
  apply (doc_ind' (fun d => forall m m', alike m m' -> alike (introduce_all d m) (introduce_all d m'))
                  (fun l => forall m m', alike m m' -> alike (intros_l l m) (intros_l l m'))).
  - auto.
  - intros l IH m m' A. rewrite !intro_Cat. now apply IH.
  - intros l IH m m' A. rewrite !intro_Commas. now apply IH.
  - intros k d IH m m' A. now apply IH.
  - intros k n d IH m m' A. now apply IH.
  - intros k a d IH m m' A. cbn [introduce_all]. now apply alike_introduce, IH.
  - auto.
  - intros d l IHd IHl m m' A. cbn [intros_l]. now apply IHl, IHd.
Qed.

Definition looks (d : doc) : Prop :=
  (forall k, In k (shared_keys d ++ aliased_keys d) -> K k) /\ (forall k, In k (once_keys d) -> O k).
Definition looks_l (l : list doc) : Prop :=
  (forall k, In k (flat_map shared_keys l ++ flat_map aliased_keys l) -> K k) /\ (forall k, In k (flat_map once_keys l) -> O k).
Definition same_way (x y : string * memory) : Prop := fst x = fst y /\ alike (snd x) (snd y).

Lemma alike_write : forall d, looks d -> forall m m', alike m m' -> same_way (write d m) (write d m').
Proof.
  apply (doc_ind' (fun d => looks d -> forall m m', alike m m' -> same_way (write d m) (write d m'))
                  (fun l => looks_l l -> forall m m', alike m m' -> same_way (wcat l m) (wcat l m') /\ same_way (wrest l m) (wrest l m'))).
  - intros s _ m m' A. now split.
  - intros l IH (L1 & L2) m m' A. rewrite !write_Cat. apply IH; [|exact A]. rewrite shared_Cat, aliased_Cat in L1. rewrite once_Cat in L2. now split.
  - intros l IH (L1 & L2) m m' A. destruct l as [|d l]; [now split|]. rewrite !write_Commas.
    rewrite shared_Commas, aliased_Commas in L1. rewrite once_Commas in L2. destruct (IH (conj L1 L2) m m' A) as ((X & Y) & (Z & W)). cbn [wcat wrest] in *.
    destruct (write d m) as [x m1], (write d m') as [x' m1']. destruct (wrest l m1) as [y m2], (wrest l m1') as [y' m2']. cbn [fst snd] in *.
    split; [|exact W]. cbn [fst]. cbn [append] in Z. now injection Z.
  - intros k d IH (L1 & L2) m m' A. rewrite !write_Shared. rewrite <- (proj1 A k) by (apply L1; now left).
    destruct (alias_of k (introduced m)); [split; [reflexivity|now apply alike_intro]|]. apply IH; [|exact A]. split; [|exact L2]. intros j J. apply L1. now right.
  - intros k n d IH (L1 & L2) m m' A. cbn [write]. rewrite <- (proj2 A k) by (apply L2; now left).
    destruct (existsb (String.eqb k) (SpecDoc.written m)); [split; [reflexivity|now apply alike_intro, alike_mark]|].
    assert (L : looks d) by (split; [exact L1|intros j J; apply L2; now right]). destruct (IH L _ _ (alike_mark k _ _ A)) as (X & Y).
    destruct (write d (mark k m)) as [x m1], (write d (mark k m')) as [x' m1']. cbn [fst snd] in *. subst x'. now split.
  - intros k a d IH (L1 & L2) m m' A. cbn [write]. rewrite <- (proj1 A k) by (apply L1; apply in_or_app; right; now left).
    destruct (alias_of k (introduced m)); [split; [reflexivity|now apply alike_introduce, alike_intro]|].
    assert (L : looks d). { split; [|exact L2]. intros j J. apply L1. apply in_app_or in J as [J|J]; apply in_or_app; [now left|right; now right]. }
    destruct (IH L _ _ A) as (X & Y). destruct (write d m) as [x m1], (write d m') as [x' m1']. cbn [fst snd] in *. subst x'. split; [reflexivity|]. now apply alike_introduce.
  - intros _ m m' A. split; (split; [reflexivity|exact A]).
  - intros d l IHd IHl (L1 & L2) m m' A. cbn [flat_map] in *.
    assert (Ld : looks d). { split; intros j J; [apply L1|apply L2; apply in_or_app; now left]. apply in_app_or in J as [J|J]; apply in_or_app; [left|right]; apply in_or_app; now left. }
    assert (Ll : looks_l l). { split; intros j J; [apply L1|apply L2; apply in_or_app; now right]. apply in_app_or in J as [J|J]; apply in_or_app; [left|right]; apply in_or_app; now right. }
    destruct (IHd Ld _ _ A) as (X & Y). cbn [wcat wrest]. destruct (write d m) as [x m1], (write d m') as [x' m1']. cbn [fst snd] in *. subst x'.
    destruct (IHl Ll _ _ Y) as ((X1 & Y1) & (X2 & Y2)). destruct (wcat l m1), (wcat l m1'), (wrest l m1), (wrest l m1'). cbn [fst snd] in *. subst. split; (split; [reflexivity|assumption]).
Qed.
End Agree.

(** What has not been written. *)
Definition unwritten (k : string) (m : memory) : Prop := existsb (String.eqb k) (SpecDoc.written m) = false.
Lemma unwritten_write : forall k d m, ~ In k (once_keys d) -> unwritten k m -> unwritten k (snd (write d m)).
Proof.
  intros k. assert (I : forall d m, unwritten k m -> unwritten k (introduce_all d m)) by (intros d m F; unfold unwritten; now rewrite introduce_all_written).
  apply (doc_ind' (fun d => forall m, ~ In k (once_keys d) -> unwritten k m -> unwritten k (snd (write d m)))
                  (fun l => forall m, ~ In k (flat_map once_keys l) -> unwritten k m -> unwritten k (snd (wcat l m)) /\ unwritten k (snd (wrest l m)))).
  - auto.
  - intros l IH m H F. rewrite write_Cat. rewrite once_Cat in H. now apply IH.
  - intros l IH m H F. destruct l as [|d l]; [exact F|]. rewrite write_Commas. rewrite once_Commas in H.
    destruct (IH m H F) as [_ J]. cbn [wrest] in J. destruct (write d m) as [x m1]. destruct (wrest l m1) as [y m2]. exact J.
  - intros k0 d IH m H F. rewrite write_Shared. destruct (alias_of k0 (introduced m)); [now apply I|now apply IH].
  - intros k0 n d IH m H F. cbn in H. assert (M : unwritten k (mark k0 m)).
    { unfold unwritten. cbn. destruct (String.eqb_spec k k0); [subst; exfalso; auto|exact F]. }
    cbn [write]. destruct (existsb (String.eqb k0) (SpecDoc.written m)); [now apply I|].
    specialize (IH (mark k0 m) ltac:(intros X; apply H; now right) M). destruct (write d (mark k0 m)). exact IH.
  - intros k0 a d IH m H F. cbn [write]. destruct (alias_of k0 (introduced m)); [exact (I d m F)|]. specialize (IH m H F). destruct (write d m). exact IH.
  - auto.
  - intros d l IHd IHl m H F. cbn in H. cbn [wcat wrest]. specialize (IHd m ltac:(intros X; apply H; apply in_or_app; now left) F). destruct (write d m) as [x m1].
    destruct (IHl m1 ltac:(intros X; apply H; apply in_or_app; now right) IHd). destruct (wcat l m1), (wrest l m1). now split.
Qed.

(** ** The documents of a union *)

Definition blank_for (m : memory) (d : doc) : Prop :=
  (forall k, In k (shared_keys d ++ aliased_keys d) -> free k m) /\ (forall k, In k (once_keys d) -> unwritten k m).

Lemma write_blank : forall d m, blank_for m d -> fst (write d m) = text d.
Proof.
  intros d m (A & B). apply (alike_write (fun k => In k (shared_keys d ++ aliased_keys d)) (fun k => In k (once_keys d))); [split; auto|].
  split; [intros k J; now apply A|intros k J; now apply B].
Qed.

Fixpoint raw_join (w : string) (ts : list string) : string :=
  match ts with [] => "" | t :: ts' => (w ++ t ++ raw_join w ts')%string end.

Lemma write_parts : forall E all (ps : list (key * bool * query)) m,
  Forall (fun p => snd (fst p) = all) ps ->
  (forall k, In k (map (fun p => fst (fst p)) ps) -> free k m /\ ~ In k (flat_map aliased_keys (map (print_query E) (map snd ps)))) ->
  Forall (blank_for m) (map (print_query E) (map snd ps)) -> separate E (map snd ps) ->
  fst (wcat (map (fun p : key * bool * query => Shared (fst (fst p)) (Cat [Txt (if snd (fst p) then " UNION ALL " else " UNION "); print_query E (snd p)])) ps) m)
  = raw_join (union_word all) (map (fun q => text (print_query E q)) (map snd ps)).
Proof.
  intros E all. induction ps as [|[[k b] q] ps IH]; intros m A F B S; [reflexivity|]. cbn [map fst snd flat_map raw_join] in *.
  inversion A as [|? ? A1 A2]; subst. inversion B as [|? ? B1 B2]; subst. inversion S as [|? ? S1 S2]; subst. cbn [fst snd] in *.
  cbn [wcat]. rewrite write_Shared. destruct (F k (or_introl eq_refl)) as (F1 & _). unfold free in F1. rewrite F1, write_Cat. cbn [wcat].
  change (write (Txt (if b then " UNION ALL " else " UNION ")) m) with (if b then " UNION ALL " else " UNION ", m). cbv beta iota.
  rewrite <- (write_blank _ _ B1). pose proof (free_write) as FW. 
  assert (N : forall j, free j m -> ~ In j (aliased_keys (print_query E q)) -> free j (snd (write (print_query E q) m))) by (intros j J X; now apply free_write).
  assert (U : forall j, unwritten j m -> ~ In j (once_keys (print_query E q)) -> unwritten j (snd (write (print_query E q) m))) by (intros j J X; now apply unwritten_write).
  destruct (write (print_query E q) m) as [x m1]. cbn [fst snd] in *.
  assert (R : fst (wcat (map (fun p : key * bool * query => Shared (fst (fst p)) (Cat [Txt (if snd (fst p) then " UNION ALL " else " UNION "); print_query E (snd p)])) ps) m1)
    = raw_join (union_word b) (map (fun q => text (print_query E q)) (map snd ps))).
  { apply IH; [exact A2| | |exact S2].
    - intros j J. destruct (F j (or_intror J)) as (Fj & Xj). split; [apply N; [exact Fj|]|]; intros X; apply Xj; apply in_or_app; auto.
    - clear - B2 S1 N U. rewrite Forall_forall in *. intros d J. specialize (B2 d J). apply in_map_iff in J as (q' & <- & J). destruct (S1 q' J) as (P & Q), B2 as (G & H).
      split; intros k Hk; [apply N; [now apply G|]|apply U; [now apply H|]]; intros X; [now apply (P k X)|now apply (Q k X)]. }
  rewrite <- R. destruct (wcat _ m1) as [y m2]. cbn [fst]. unfold union_word. now rewrite !sapp_nil_r, sapp_assoc.
Qed.

(** ** White space *)

Lemma drop_plain : forall b, plain_byte b -> forall n l r, length l <= n -> drop_spaces_rev (l ++ b :: r) = drop_spaces_rev (l ++ [b]) ++ r.
Proof.
  intros b P.
  assert (NI : forall e, In e space_encodings -> ~ In b (list_ascii_of_string e)).
  { intros e J X. apply (plain_not_space b P e); [|exact X]. rewrite <- (sapp_nil_r e). constructor; [exact J|constructor]. }
  assert (P1 : sp1 b = false) by (destruct (sp1 b) eqn:X; [|reflexivity]; apply sp1_in in X; destruct (NI _ X); now left).
  assert (P2 : forall a c, sp2 a c = true -> a <> b /\ c <> b) by (intros a c X; apply sp2_in in X; split; intros ->; apply (NI _ X); cbn; auto).
  assert (P3 : forall a c d, sp3 a c d = true -> a <> b /\ c <> b /\ d <> b) by (intros a c d X; apply sp3_in in X; repeat split; intros ->; apply (NI _ X); cbn; auto).
  assert (F2 : forall a c, a = b \/ c = b -> sp2 a c = false) by (intros a c X; destruct (sp2 a c) eqn:Y; [|reflexivity]; destruct (P2 _ _ Y), X; congruence).
  assert (F3 : forall a c d, a = b \/ c = b \/ d = b -> sp3 a c d = false) by (intros a c d X; destruct (sp3 a c d) eqn:Y; [|reflexivity]; destruct (P3 _ _ _ Y) as (? & ? & ?), X as [?|[?|?]]; congruence).
  induction n as [|n IH]; intros l r L.
  - destruct l; [|cbn in L; lia]. cbn [app drop_spaces_rev]. rewrite P1. destruct r as [|c r]; [reflexivity|]. rewrite F2 by auto. destruct r as [|d r]; [reflexivity|]. now rewrite F3 by auto.
  - destruct l as [|a l]; [apply (IH [] r); cbn; lia|]. cbn [app length] in *. cbn [drop_spaces_rev]. destruct (sp1 a); [apply IH; lia|].
    destruct l as [|c l]; cbn [app length] in *.
    + rewrite !F2 by auto. destruct r as [|d r]; [reflexivity|]. now rewrite F3 by auto.
    + destruct (sp2 c a); [apply IH; lia|]. destruct l as [|d l]; cbn [app length] in *; [now rewrite !F3 by auto|]. destruct (sp3 d c a); [apply IH; lia|cbn [app]; now rewrite <- app_assoc].
Qed.
Lemma trim_right_plain : forall b x y, plain_byte b -> trim_right (x ++ String b y) = (x ++ trim_right (String b y))%string.
Proof.
  intros b x y P. unfold trim_right. rewrite los_app, rev_app_distr. cbn [list_ascii_of_string rev]. rewrite <- app_assoc. cbn [app].
  rewrite (drop_plain b P _ _ (rev (list_ascii_of_string x)) (le_n _)), rev_app_distr, rev_involutive.
  set (z := rev (drop_spaces_rev _)). clearbody z. induction x as [|a x IH]; [reflexivity|]. cbn. now rewrite IH.
Qed.

Lemma joined_trim : forall all t ts, Forall keyword (t :: ts) ->
  joined all (map trim_space (t :: ts)) (trim_space (t ++ raw_join (union_word all) ts)).
Proof.
  intros all t ts. revert t. induction ts as [|u ts IH]; intros t H.
  - cbn [raw_join map]. rewrite sapp_nil_r. constructor.
  - inversion H as [|? ? (a & s & -> & PA) H2]; subst. specialize (IH u H2). inversion H2 as [|? ? (b & v & -> & PB) _]; subst. cbn [raw_join map] in *.
    assert (TL : forall c z, plain_byte c -> trim_space (String c z) = trim_right (String c z)) by (intros c z PC; unfold trim_space; now rewrite trim_left_plain).
    change (String b v ++ raw_join (union_word all) ts)%string with (String b (v ++ raw_join (union_word all) ts)) in *. rewrite (TL b (v ++ raw_join (union_word all) ts)%string PB) in IH.
    change (String a s ++ union_word all ++ String b (v ++ raw_join (union_word all) ts))%string with (String a (s ++ union_word all ++ String b (v ++ raw_join (union_word all) ts))).
    rewrite (TL a (s ++ union_word all ++ String b (v ++ raw_join (union_word all) ts))%string PA). change (String a (s ++ union_word all ++ String b (v ++ raw_join (union_word all) ts)))%string with (String a s ++ union_word all ++ String b (v ++ raw_join (union_word all) ts))%string.
    rewrite <- sapp_assoc, (trim_right_plain b _ _ PB), sapp_assoc, (TL a s PA). destruct (trim_right_split (String a s)) as (q & Q & H1).
    set (r := trim_right (String a s)) in *. clearbody r. rewrite H1, sapp_assoc. constructor; [exact Q|exact IH].
Qed.
