(** Expressions built by calls are read as what the calls ask for. *)

From Coq Require Import Ascii String List ZArith Bool Lia.
From Verif Require Import GoStr Escape EscapeProofs Num NumProofs VTree Ast GoVal Maps Patterns Exprs Functions SpecCalls SpecDoc SpecPrint SpecTokens TokenTexts SpecLeaves
  SpecShape SpecOutline SpecGrammar SpecReading ExprProofs FunctionProofs SpecAsked.
Import ListNotations.
Open Scope string_scope.
Open Scope nat_scope.
Open Scope list_scope.

(** The names of the functions that calls use. *)
Definition function_names : list string :=
  ["count"; "toLower"; "size"; "exists"; "avg"; "collect"; "max"; "min"; "stDev"; "stDevP"; "sum"; "head"; "last"; "coalesce"; "distance"; "range"; "id";
   "labels"; "type"; "properties"; "nodes"; "relationships"; "startNode"; "endNode"; "date"; "datetime"; "localdatetime"; "localtime"; "time"; "duration"; "point"; "percentileDisc";
   "percentileCont"].
Definition filter_names : list string := ["all"; "any"; "none"; "single"].

Section Denotes.
Context (A : register).
Notation unaliased := (unaliased A).

Definition labels_free (lk : list (key * string)) : Prop := Forall (fun l => unaliased (fst l)) lk.

(** The elements that the calls make for an expression. *)
Inductive denotes : cx -> expr -> Prop :=
| d_var : forall k x, unaliased k -> denotes (XVar x) (ESym k x)
| d_param : forall k x, unaliased k -> denotes (XParam x) (EParam k x)
| d_null : forall k, unaliased k -> denotes XNull (ENull k)
| d_bool : forall k b, unaliased k -> denotes (XBool b) (EBool k b)
| d_str : forall k s, unaliased k -> denotes (XStr s) (EStr k s)
| d_int : forall k z, unaliased k -> short z -> denotes (integer z) (ENum k (num_of_Z z))
| d_float : forall k x, unaliased k -> n_neg x = false -> (0 <= n_mant x)%Z -> denotes (XNum (number_text x)) (ENum k x)
| d_list : forall k ke cs es, unaliased k -> unaliased ke -> denotes_all cs es -> denotes (XList cs) (EListExpr k (EExprs ke es))
| d_map : forall k fs es, unaliased k -> denotes_fields fs es -> denotes (XMap fs) (EMap k es)
| d_prop : forall k kl c e x, unaliased k -> unaliased kl -> denotes c e -> x <> "" -> denotes (XProp c x) (EProp k e (ELookup kl x))
| d_compute : forall k o c d e f, unaliased k -> denotes c e -> denotes d f -> denotes (XBin (computed o) c d) (EOperation k e (computing_op o) f)
| d_compare : forall k k1 k2 o c d e f, unaliased k -> unaliased k1 -> unaliased k2 -> denotes c e -> denotes d f ->
    denotes (XBin (compared o) c d) (EComparison k (Some (nst k1 e)) (comparing_op o) (Some (nst k2 f)))
| d_is_null : forall (b : bool) k k1 c e, unaliased k -> unaliased k1 -> denotes c e ->
    denotes (XIsNull b c) (EComparison k (Some (nst k1 e)) (if b then IsNull else IsNotNull) None)
| d_index : forall k kd c d e f, unaliased k -> unaliased kd -> denotes c e -> denotes d f -> denotes (XIndex c d) (EListOp k e kd (Some f) false None)
| d_slice : forall k kd c u v e lo hi, unaliased k -> unaliased kd -> denotes c e -> denotes_if u lo -> denotes_if v hi ->
    denotes (XSlice c u v) (EListOp k e kd lo true hi)
| d_call : forall k ka n cs es, unaliased k -> unaliased ka -> List.In n function_names -> denotes_all cs es -> denotes (XCall [n] false cs) (EFun k n ka es)
| d_call_distinct : forall k ka n c e, unaliased k -> unaliased ka -> List.In n function_names -> denotes c e -> denotes (XCall [n] true [c]) (EFun k n ka [EDistinct "" e])
| d_bool_call : forall k ka n cs es, unaliased k -> unaliased ka -> List.In n function_names -> denotes_all cs es -> denotes (XCall [n] false cs) (EBoolFun (EFun k n ka es))
| d_labels : forall k ks x ls, unaliased k -> unaliased ks -> ls <> [] -> labels_free ls -> denotes (XLabels (XVar x) (map snd ls)) (EHasLabel k (ESym ks x) ls)
| d_filter : forall k ka kp kv kw n x c d e f, unaliased k -> unaliased ka -> unaliased kp -> unaliased kv -> unaliased kw -> List.In n filter_names ->
    denotes c e -> denotes d f -> denotes (XFilter n x c (Some d)) (EBoolFun (EFun k n ka [EListPred kp (ESym kv x) e (EWhere kw f)]))
| d_list_comp : forall k kv x c u v e w d, unaliased k -> unaliased kv -> denotes c e -> denotes_where u w -> denotes_if v d ->
    denotes (XListComp x c u v) (EListComp k (ESym kv x) e w d)
with denotes_all : list cx -> list expr -> Prop :=
| d_nil : denotes_all [] []
| d_cons : forall c cs e es, denotes c e -> denotes_all cs es -> denotes_all (c :: cs) (e :: es)
with denotes_fields : list (string * cx) -> list expr -> Prop :=
| d_no_field : denotes_fields [] []
| d_field : forall x c fs k e es, unaliased k -> denotes c e -> denotes_fields fs es -> denotes_fields ((x, c) :: fs) (EEntry k x e :: es)
with denotes_if : option cx -> option expr -> Prop :=
| d_none : denotes_if None None
| d_some : forall c e, denotes c e -> denotes_if (Some c) (Some e)
with denotes_where : option cx -> option expr -> Prop :=
| d_no_where : denotes_where None None
| d_where : forall c k e, unaliased k -> denotes c e -> denotes_where (Some c) (Some (EWhere k e)).

Scheme denotes_mind := Minimality for denotes Sort Prop
  with denotes_all_mind := Minimality for denotes_all Sort Prop
  with denotes_fields_mind := Minimality for denotes_fields Sort Prop
  with denotes_if_mind := Minimality for denotes_if Sort Prop
  with denotes_where_mind := Minimality for denotes_where Sort Prop.
Combined Scheme denotes_ind' from denotes_mind, denotes_all_mind, denotes_fields_mind, denotes_if_mind, denotes_where_mind.

(** ** What the calls make *)

Scheme asked_mind := Minimality for asked Sort Prop
  with asked_all_mind := Minimality for asked_all Sort Prop
  with asked_fields_mind := Minimality for asked_fields Sort Prop.
Combined Scheme asked_ind' from asked_mind, asked_all_mind, asked_fields_mind.

Context (NK : unaliased "").

Definition makes (c : cx) (v : value) : Prop := exists e i, v = Elem (Good e) i /\ denotes c e.

Lemma makes_made : forall c e, denotes c e -> makes c (Exprs.made (Good e)).
Proof. intros c e D. exists e. eexists. split; [reflexivity|exact D]. Qed.

Lemma bare_dollars : forall x, bare x = true -> drop_dollars x = x /\ x <> "".
Proof.
  intros [|a x] H; [discriminate|]. split; [|discriminate]. unfold bare in H. cbn [prefix] in H.
  destruct (ascii_dec "$" a) as [<-|N]; [destruct x; discriminate|]. cbn [drop_dollars].
  destruct a as [[] [] [] [] [] [] [] []]; try reflexivity. now destruct N.
Qed.

Lemma param_made : forall k n x, unaliased k -> bare x = true -> makes (XParam x) (parameter_value k (with_dollars n x)).
Proof.
  intros k n x U B. destruct (bare_dollars x B) as [D N]. unfold parameter_value. replace (drop_dollars (with_dollars n x)) with x.
  - destruct (String.eqb_spec x "") as [->|_]; [now destruct N|]. apply makes_made. now constructor.
  - induction n as [|n IH]; [exact (eq_sym D)|exact IH].
Qed.

Lemma literal_made : forall kn k c v, unaliased kn -> unaliased k -> literally c v ->
  exists e, literal_of kn k v = Returns (GOk e) /\ denotes c e /\ match v with AExpr _ => False | _ => True end.
Proof. intros kn k c v Un U L. destruct L; eexists; (split; [reflexivity|]; split; [|exact Logic.I]); now constructor. Qed.

Lemma known_false : forall x seen, known x seen = false <-> ~ List.In x seen.
Proof.
  intros x seen. unfold known. split.
  - intros H I. assert (T : existsb (String.eqb x) seen = true) by (apply existsb_exists; exists x; split; [exact I|apply String.eqb_refl]). congruence.
  - intros N. destruct (existsb (String.eqb x) seen) eqn:T; [|reflexivity]. apply existsb_exists in T as (y & I & Q). apply String.eqb_eq in Q. subst y. now destruct N.
Qed.

Definition loops (fs : list (string * cx)) (l : list any) : Prop :=
  Nat.odd (length l) = false /\
  forall K i seen, fresh_keys A K -> NoDup (map fst fs) -> (forall x, List.In x (map fst fs) -> ~ List.In x seen) ->
  exists es, map_loop K i seen l = Returns (inr (map GOk es)) /\ denotes_fields fs es.

Lemma oks_error : forall es, first_error (map GOk es) = None.
Proof. induction es; [reflexivity|exact IHes]. Qed.
Lemma oks_exprs : forall es, sound_exprs (map GOk es) = es.
Proof. induction es as [|e es IH]; [reflexivity|]. unfold sound_exprs in *. cbn. now rewrite IH. Qed.

Lemma map_made : forall K fs l, fresh_keys A K -> NoDup (map fst fs) -> loops fs l ->
  exists es, new_map K l = Returns (GOk (EMap (k_self K) es)) /\ denotes (XMap fs) (EMap (k_self K) es).
Proof.
  intros K fs l F N [O L]. destruct (L K 0 [] F N) as (es & H & D); [intros x _ []|]. exists es. unfold new_map, map_create. rewrite O, H, oks_error, oks_exprs.
  split; [reflexivity|]. constructor; [apply F|exact D].
Qed.

Lemma field_made : forall x c v e fs l, denotes c e ->
  (forall K i, fresh_keys A K -> match v with AExpr g => Returns g | _ => literal_of (k_null K) (k_lit K i) v end = Returns (GOk e) \/
     exists e', match v with AExpr g => Returns g | _ => literal_of (k_null K) (k_lit K i) v end = Returns (GOk e') /\ denotes c e') ->
  loops fs l -> loops ((x, c) :: fs) (AString x :: v :: l).
Proof.
  intros x c v e fs l D V [O L]. split; [exact O|]. intros K i seen F N S. cbn [map fst] in N, S. inversion N as [|? ? N1 N2]; subst.
  destruct (L K (Datatypes.S i) (x :: seen) F N2) as (es & H & Ds).
  { intros y Y [<-|G]; [now destruct N1|]. apply (S y); [now right|exact G]. }
  assert (W : exists e', match v with AExpr g => Returns g | _ => literal_of (k_null K) (k_lit K i) v end = Returns (GOk e') /\ denotes c e').
  { destruct (V K i F) as [Q|Q]; [now exists e|exact Q]. }
  destruct W as (e' & Q & D'). exists (EEntry (k_entry K i) x e' :: es). cbn [map_loop]. cbv zeta. rewrite Q.
  assert (Kn : known x seen = false) by (apply known_false; apply S; now left). rewrite Kn, H. split; [reflexivity|].
  constructor; [apply F|exact D'|exact Ds].
Qed.

Lemma raw_made : forall K cs l, fresh_keys A K -> Forall2 literally cs l -> forall i, exists vs es, raw_literals K i l = Returns (inr vs) /\ goods vs es /\ denotes_all cs es.
Proof.
  intros K cs l F H. induction H as [|c v cs l L H IH]; intros i; [exists [], []; repeat constructor|].
  destruct F as (F1 & F2 & F3 & F4). destruct (literal_made (k_null K) (k_lit K i) c v F4 (F2 i) L) as (e & Q & D & _).
  destruct (IH (Datatypes.S i)) as (vs & es & R & G & Ds). exists (Exprs.made (Good e) :: vs), (e :: es). cbn [raw_literals]. rewrite Q, R.
  split; [reflexivity|]. split; constructor; auto. eexists. reflexivity.
Qed.

Lemma list_made : forall ks cs vs es, fresh A ks -> goods vs es -> denotes_all cs es -> exists v, list_of ks vs = Returns v /\ makes (XList cs) v.
Proof.
  intros ks cs vs es F G D. unfold list_of. rewrite (goods_err vs es G), (goods_parts _ vs es G). eexists. split; [reflexivity|].
  apply makes_made. constructor; auto.
Qed.

Lemma call_made : forall ks n cs vs es, fresh A ks -> List.In n function_names -> goods vs es -> es <> [] -> denotes_all cs es ->
  exists v, named_function_create ks n vs = Returns v /\ makes (XCall [n] false cs) v.
Proof. intros ks n cs vs es F I G N D. rewrite (function_ok ks n vs es G N). eexists. split; [reflexivity|]. apply makes_made. constructor; auto. Qed.
Lemma distinct_made : forall ks f c e i, fresh A ks -> List.In (impl_name f) function_names -> is_aggregate f = true -> denotes c e ->
  exists v, create_distinct ks f [Elem (Good e) i] = Returns v /\ makes (XCall [impl_name f] true [c]) v.
Proof. intros ks f c e i F I G D. rewrite (distinct_ok ks f _ [] e [] (good_one e i) G). eexists. split; [reflexivity|]. apply makes_made. constructor; auto. Qed.

Lemma all_one : forall c e, denotes c e -> denotes_all [c] [e].
Proof. intros. repeat constructor; assumption. Qed.
Lemma all_two : forall c e d f, denotes c e -> denotes d f -> denotes_all [c; d] [e; f].
Proof. intros. repeat constructor; assumption. Qed.
Lemma all_three : forall c e d f b g, denotes c e -> denotes d f -> denotes b g -> denotes_all [c; d; b] [e; f; g].
Proof. intros. repeat constructor; assumption. Qed.
Lemma good_two : forall e i f j, goods [Elem (Good e) i; Elem (Good f) j] [e; f].
Proof. intros. repeat constructor; eexists; reflexivity. Qed.
Lemma good_three : forall e i f j g k, goods [Elem (Good e) i; Elem (Good f) j; Elem (Good g) k] [e; f; g].
Proof. intros. repeat constructor; eexists; reflexivity. Qed.

Lemma called_name : forall n x, is_called A n x -> exists k, sym_value (n_sym n) = Elem (Good (ESym k x)) (Elem (Good (ESym k x)) NilValue)
  /\ sym_value (required_name n) = Elem (Good (ESym k x)) (Elem (Good (ESym k x)) NilValue)
  /\ required_name n = Sym k x /\ denotes (XVar x) (ESym k x).
Proof. intros n x ((k & Q & U) & _). exists k. unfold required_name. rewrite Q. repeat split; try reflexivity. now constructor. Qed.

Lemma compare_made : forall ks o c e i d f j, fresh A ks -> denotes c e -> denotes d f ->
  makes (XBin (compared o) c d) (compare ks o (Elem (Good e) i) (Elem (Good f) j)).
Proof.
  intros ks o c e i d f j F De Df. unfold compare, comparison_create. cbn [value_err value_ok negb is_nil orb]. rewrite !operand_nested.
  apply makes_made. constructor; auto.
Qed.

Lemma size_made : forall ks c e i, fresh A ks -> denotes c e -> exists s, fn1_call ks Size (Elem (Good e) i) = Returns s /\ makes (XCall ["size"] false [c]) s.
Proof. intros ks c e i F D. apply (call_made ks "size" [c] _ [e]); auto; [cbn; tauto|apply good_one|discriminate|now apply all_one]. Qed.

Lemma of_map_made : forall ks K f fields fs, fresh A ks -> fresh_keys A K -> List.In (impl_name f) function_names -> NoDup (map fst fs) ->
  Forall2 (fun f c => exists e, denotes (snd c) e /\ f = (fst c, e)) fields fs ->
  exists w, function_of_map ks K f fields = Returns w /\ makes (XCall [impl_name f] false [XMap fs]) w.
Proof.
  intros ks K f fields fs F FK I N H. unfold function_of_map, literal_map.
  assert (L : loops fs (flat_map (fun f : string * expr => [AString (fst f); AExpr (GOk (snd f))]) fields)).
  { clear N. induction H as [|g [x c] fields fs (e & D & Qf) H IH]; [split; [reflexivity|]; intros; exists []; repeat constructor|].
    cbn [fst snd] in *. subst g. cbn [flat_map fst snd app]. eapply field_made; [exact D| |exact IH]. intros. left. reflexivity. }
  destruct (map_made K fs _ FK N L) as (es & Q & D). rewrite Q. cbn [gmap_of].
  apply (call_made ks (impl_name f) [XMap fs] _ [EMap (k_self K) es]); auto; [constructor; [eexists; reflexivity|constructor]|discriminate|now apply all_one].
Qed.

Lemma second_of : forall X Y (a : list X) (b : list Y), length a = length b -> map snd (combine a b) = b.
Proof. intros X Y a. induction a as [|x a IH]; intros [|y b] H; try discriminate; [reflexivity|]. cbn. f_equal. apply IH. now injection H. Qed.

Ltac same_result :=
  match goal with
  | H : ?a = Returns ?w, G : exists v, ?a = Returns v /\ _ |- _ => let r := fresh "r" in destruct G as (r & ? & ?); replace w with r by congruence; assumption
  end.
Ltac open_made :=
  repeat match goal with
  | H : makes _ _ |- _ => destruct H as (? & ? & -> & ?)
  | H : exists e i, _ /\ denotes _ e |- _ => destruct H as (? & ? & -> & ?)
  end.

Theorem asked_made :
  (forall c v, asked A c v -> makes c v)
  /\ (forall cs vs, asked_all A cs vs -> exists es, goods vs es /\ denotes_all cs es)
  /\ (forall fs l, asked_fields A fs l -> loops fs l).
Proof.
  apply (asked_ind' A makes (fun cs vs => exists es, goods vs es /\ denotes_all cs es) loops).
  - (* name *) intros k x U N. unfold symbolic_name_create. destruct (String.eqb_spec x "") as [->|_]; [now destruct N|]. apply makes_made. now constructor.
  - intros k n x U B. now apply param_made.
  - intros k b U. apply makes_made. now constructor.
  - intros k s U. apply makes_made. now constructor.
  - intros k z U S. apply makes_made. now constructor.
  - intros k x U N P. apply makes_made. now constructor.
  - (* literal *) intros kn k c v e i Un U L Q. destruct (literal_made kn k c v Un U L) as (e' & Q' & D & _). exists e, i. split; [reflexivity|]. congruence.
  - (* list *) intros ks cs vs v F _ (es & G & D) Q. pose proof (list_made ks cs vs es F G D). same_result.
  - intros ks K cs l v F FK L Q. destruct (raw_made K cs l FK L 0) as (vs & es & R & G & D). unfold list_of_raw in Q. rewrite R in Q.
    pose proof (list_made ks cs vs es F G D). same_result.
  - (* map *) intros K fs l g FK N _ L Q. destruct (map_made K fs l FK N L) as (es & Q' & D). replace g with (GOk (EMap (k_self K) es)) by congruence. now apply makes_made.
  - (* properties *) intros ks c v x F _ M N. open_made. unfold property_by_expression. cbn [value_err is_nil]. destruct (String.eqb_spec x "") as [->|_]; [now destruct N|].
    apply makes_made. constructor; auto.
  - intros ks n y x F C N. destruct (called_name n y C) as (k & _ & Q & R & D). unfold property_of. destruct C as (_ & _ & ->). rewrite R.
    destruct (String.eqb_spec x "") as [->|_]; [now destruct N|]. unfold property_by_expression. cbn [sym_value value_err is_nil Exprs.made].
    destruct (String.eqb_spec x "") as [->|_]; [now destruct N|]. apply makes_made. constructor; auto.
  - (* operators *) intros ks o c d v w F _ M1 _ M2. open_made. apply makes_made. constructor; auto.
  - intros ks o c d v w F _ M1 _ M2. open_made. now apply compare_made.
  - intros ks c v F _ M. open_made. unfold is_null, postfix_create. cbn [value_err value_ok negb]. rewrite operand_nested. apply makes_made. now apply (d_is_null true); auto.
  - intros ks c v F _ M. open_made. unfold is_not_null, postfix_create. cbn [value_err value_ok negb]. rewrite operand_nested. apply makes_made. now apply (d_is_null false); auto.
  - intros ks b c v F _ M. open_made. apply (compare_made ks IsEqualTo); auto. now constructor.
  - intros ks s c v F _ M. open_made. apply (compare_made ks MatchesWith); auto. now constructor.
  - intros ks c v w F _ M Q. open_made. unfold is_empty in Q.
    match type of Q with context [fn1_call _ Size (Elem (Good ?e) ?i)] => destruct (size_made (fun n => ks (4 + n)) c e i (fun n => F (4 + n)) ltac:(assumption)) as (s & Qs & Ms) end.
    rewrite Qs in Q. injection Q as <-. open_made. change (XNum "0") with (integer 0). apply (compare_made ks IsEqualTo); auto. constructor; [apply F|]. unfold short. cbn. lia.
  - (* slices *) intros ks c a b v va vb F _ M1 _ M2 _ M3. open_made. apply makes_made. repeat (constructor; auto).
  - intros ks c a v va F _ M1 _ M2. open_made. apply makes_made. repeat (constructor; auto).
  - intros ks c a v va F _ M1 _ M2. open_made. apply makes_made. repeat (constructor; auto).
  - intros ks c a v va F _ M1 _ M2. open_made. apply makes_made. repeat (constructor; auto).
  - (* functions *) intros ks f c v w F _ M ND Q. open_made.
    destruct f; try (now destruct ND); cbn [fn1_name fst snd] in *; unfold fn1_call in Q; cbn [fn1_distinct fn1_builtin] in Q;
      first [match type of Q with function_create _ ?b [Elem (Good ?e) ?i] = _ =>
               assert (X : exists v, function_create ks b [Elem (Good e) i] = Returns v /\ makes (XCall [impl_name b] false [c]) v)
                 by (apply (call_made ks (impl_name b) [c] _ [e]); auto; [cbn; tauto|apply good_one|discriminate|now apply all_one]) end; same_result
            |match type of Q with create_distinct _ ?b [Elem (Good ?e) ?i] = _ =>
               assert (X : exists v, create_distinct ks b [Elem (Good e) i] = Returns v /\ makes (XCall [impl_name b] true [c]) v)
                 by (apply distinct_made; auto; cbn; tauto) end; same_result].
  - intros ks cs vs w F _ (es & G & D) N Q.
    assert (X : exists v, coalesce ks vs = Returns v /\ makes (XCall ["coalesce"] false cs) v).
    { apply (call_made ks "coalesce" cs vs es); auto; [cbn; tauto|]. intros ->. inversion D. subst. now destruct N. }
    same_result.
  - intros ks c d v w z F _ M1 _ M2 Q. open_made. unfold distance in Q. cbn [value_err value_ok andb] in Q.
    match type of Q with function_create _ _ [Elem (Good ?e) ?i; Elem (Good ?f) ?j] = _ =>
      assert (X : exists v, function_create ks FDistance [Elem (Good e) i; Elem (Good f) j] = Returns v /\ makes (XCall ["distance"] false [c; d]) v)
        by (apply (call_made ks "distance" [c; d] _ [e; f]); auto; [cbn; tauto|apply good_two|discriminate|now apply all_two]) end. same_result.
  - intros ks c d v w z F _ M1 _ M2 Q. open_made. unfold range, range_with_step in Q. cbn [value_err value_ok negb] in Q.
    match type of Q with function_create _ _ [Elem (Good ?e) ?i; Elem (Good ?f) ?j] = _ =>
      assert (X : exists v, function_create ks FRange [Elem (Good e) i; Elem (Good f) j] = Returns v /\ makes (XCall ["range"] false [c; d]) v)
        by (apply (call_made ks "range" [c; d] _ [e; f]); auto; [cbn; tauto|apply good_two|discriminate|now apply all_two]) end. same_result.
  - intros ks c d s v w u z F _ M1 _ M2 _ M3 Q. open_made. unfold range_with_step in Q. cbn [value_err value_ok negb] in Q.
    match type of Q with function_create _ _ [Elem (Good ?e) ?i; Elem (Good ?f) ?j; Elem (Good ?g) ?k] = _ =>
      assert (X : exists v, function_create ks FRange [Elem (Good e) i; Elem (Good f) j; Elem (Good g) k] = Returns v /\ makes (XCall ["range"] false [c; d; s]) v)
        by (apply (call_made ks "range" [c; d; s] _ [e; f; g]); auto; [cbn; tauto|apply good_three|discriminate|now apply all_three]) end. same_result.
  - intros ks what f n x w F C Q. destruct (called_name n x C) as (k & S1 & S2 & R & D). destruct C as (_ & Ok & Er).
    assert (X1 : forall b, List.In (impl_name b) function_names -> exists v, function_create ks b [Elem (Good (ESym k x)) (Elem (Good (ESym k x)) NilValue)] = Returns v
                   /\ makes (XCall [impl_name b] false [XVar x]) v).
    { intros b I. apply (call_made ks (impl_name b) [XVar x] _ [ESym k x]); auto; [apply good_one|discriminate|now apply all_one]. }
    assert (X2 : forall b, List.In (impl_name b) function_names -> is_aggregate b = true ->
                   exists v, create_distinct ks b [Elem (Good (ESym k x)) (Elem (Good (ESym k x)) NilValue)] = Returns v /\ makes (XCall [impl_name b] true [XVar x]) v).
    { intros b I G. now apply distinct_made. }
    unfold named_call, with_required in Q. rewrite Ok, Er, S1, S2, R in Q. cbn [negb] in Q. change (sym_value (Sym k x)) with (Elem (Good (ESym k x)) (Elem (Good (ESym k x)) NilValue)) in Q.
    destruct f; cbn [named_fn_name fst snd];
      first [match type of Q with function_create _ ?b _ = _ => pose proof (X1 b ltac:(cbn; tauto)) end; same_result
            |match type of Q with create_distinct _ ?b _ = _ => pose proof (X2 b ltac:(cbn; tauto) eq_refl) end; same_result].
  - intros ks t s w F N Q. unfold temporal_text in Q. destruct (String.eqb_spec s "") as [->|_]; [now destruct N|].
    assert (X : exists v, function_create ks (temporal_builtin t) [string_value (ks 2) s] = Returns v /\ makes (XCall [impl_name (temporal_builtin t)] false [XStr s]) v).
    { apply (call_made ks _ [XStr s] _ [EStr (ks 2) s]); auto; [destruct t; cbn; tauto|constructor; [eexists; reflexivity|constructor]|discriminate|].
      apply all_one. now constructor. }
    replace (temporal_name t) with (impl_name (temporal_builtin t)) by now destruct t. same_result.
  - intros ks t c v w F _ M Q. open_made. unfold temporal_expression in Q. cbn [value_err value_ok] in Q.
    match type of Q with function_create _ _ [Elem (Good ?e) ?i] = _ =>
      assert (X : exists v, function_create ks (temporal_builtin t) [Elem (Good e) i] = Returns v /\ makes (XCall [impl_name (temporal_builtin t)] false [c]) v)
        by (apply (call_made ks _ [c] _ [e]); auto; [destruct t; cbn; tauto|apply good_one|discriminate|now apply all_one]) end.
    replace (temporal_name t) with (impl_name (temporal_builtin t)) by now destruct t. same_result.
  - intros ks t m c w F _ M Q. destruct M as (e & i & E0 & D). unfold temporal_components in Q. destruct m as [k es| |mm]; try discriminate E0.
    rewrite E0 in Q.
    assert (X : exists v, function_create ks (temporal_builtin t) [Elem (Good e) i] = Returns v /\ makes (XCall [impl_name (temporal_builtin t)] false [c]) v)
      by (apply (call_made ks _ [c] _ [e]); auto; [destruct t; cbn; tauto|apply good_one|discriminate|now apply all_one]).
    replace (temporal_name t) with (impl_name (temporal_builtin t)) by now destruct t. same_result.
  - intros ks m c w F _ M Q. destruct M as (e & i & E0 & D). unfold point in Q. rewrite E0 in Q.
    assert (X : exists v, function_create ks FPoint [Elem (Good e) i] = Returns v /\ makes (XCall ["point"] false [c]) v)
      by (apply (call_made ks "point" [c] _ [e]); auto; [cbn; tauto|apply good_one|discriminate|now apply all_one]). same_result.
  - intros ks c v w F _ M Q. open_made. unfold point_by_param in Q.
    match type of Q with function_create _ _ [Elem (Good ?e) ?i] = _ =>
      assert (X : exists v, function_create ks FPoint [Elem (Good e) i] = Returns v /\ makes (XCall ["point"] false [c]) v)
        by (apply (call_made ks "point" [c] _ [e]); auto; [cbn; tauto|apply good_one|discriminate|now apply all_one]) end. same_result.
  - intros ks K t z w F FK Q.
    assert (X : exists v, function_of_map ks K (temporal_builtin t) [("timezone", EStr (ks 2) z)] = Returns v /\ makes (XCall [impl_name (temporal_builtin t)] false [XMap [("timezone", XStr z)]]) v).
    { apply of_map_made; auto; [destruct t; cbn; tauto|repeat constructor; cbn; tauto|]. repeat constructor. eexists. split; [|reflexivity]. now constructor. }
    replace (temporal_name t) with (impl_name (temporal_builtin t)) by now destruct t. unfold temporal_timezone in Q. same_result.
  - intros ks disc c v p w F _ M B N Q. open_made. unfold percentile in Q. cbn [value_err value_ok negb] in Q. rewrite (percentile_range p B) in Q.
    match type of Q with function_create _ _ [Elem (Good ?e) ?i; float_value ?k p] = _ =>
      assert (X : exists v, function_create ks (if disc then FPercentileDisc else FPercentileCont) [Elem (Good e) i; float_value k p] = Returns v
                  /\ makes (XCall [impl_name (if disc then FPercentileDisc else FPercentileCont)] false [c; XNum (number_text p)]) v)
        by (apply (call_made ks _ [c; XNum (number_text p)] _ [e; ENum k p]); auto;
              [destruct disc; cbn; tauto|repeat constructor; eexists; reflexivity|discriminate|apply all_two; auto; constructor; auto; apply B]) end.
    replace (if disc then "percentileDisc" else "percentileCont") with (impl_name (if disc then FPercentileDisc else FPercentileCont)) by now destruct disc. same_result.
  - intros ks m c w F _ M Q. destruct M as (e & i & E0 & D). unfold properties_of_map in Q. rewrite E0 in Q.
    assert (X : exists v, function_create ks FProperties [Elem (Good e) i] = Returns v /\ makes (XCall ["properties"] false [c]) v)
      by (apply (call_made ks "properties" [c] _ [e]); auto; [cbn; tauto|apply good_one|discriminate|now apply all_one]). same_result.
  - intros ks K y m d w F FK S1 S2 S3 Q.
    pose proof (of_map_made ks K FDate [("year", int_literal (ks 2) y); ("month", int_literal (ks 3) m); ("day", int_literal (ks 4) d)]
                  [("year", integer y); ("month", integer m); ("day", integer d)] F FK ltac:(cbn; tauto)) as X.
    unfold calendar_date in Q. lapply X; [clear X; intros X|repeat constructor; cbn; intuition discriminate].
    lapply X; [clear X; intros X; same_result|]. repeat constructor; eexists; (split; [|reflexivity]); now constructor.
  - intros ks K y m d w F FK S1 S2 S3 Q.
    pose proof (of_map_made ks K FDate [("year", int_literal (ks 2) y); ("week", int_literal (ks 3) m); ("dayOfWeek", int_literal (ks 4) d)]
                  [("year", integer y); ("week", integer m); ("dayOfWeek", integer d)] F FK ltac:(cbn; tauto)) as X.
    unfold week_date in Q. lapply X; [clear X; intros X|repeat constructor; cbn; intuition discriminate].
    lapply X; [clear X; intros X; same_result|]. repeat constructor; eexists; (split; [|reflexivity]); now constructor.
  - intros ks K y m d w F FK S1 S2 S3 Q.
    pose proof (of_map_made ks K FDate [("year", int_literal (ks 2) y); ("quarter", int_literal (ks 3) m); ("dayOfQuarter", int_literal (ks 4) d)]
                  [("year", integer y); ("quarter", integer m); ("dayOfQuarter", integer d)] F FK ltac:(cbn; tauto)) as X.
    unfold quarter_date in Q. lapply X; [clear X; intros X|repeat constructor; cbn; intuition discriminate].
    lapply X; [clear X; intros X; same_result|]. repeat constructor; eexists; (split; [|reflexivity]); now constructor.
  - intros ks K y d w F FK S1 S3 Q.
    pose proof (of_map_made ks K FDate [("year", int_literal (ks 2) y); ("ordinalDay", int_literal (ks 3) d)]
                  [("year", integer y); ("ordinalDay", integer d)] F FK ltac:(cbn; tauto)) as X.
    unfold ordinal_date in Q. lapply X; [clear X; intros X|repeat constructor; cbn; intuition discriminate].
    lapply X; [clear X; intros X; same_result|]. repeat constructor; eexists; (split; [|reflexivity]); now constructor.
  - (* labels *) intros ks n x ls F C N. destruct (called_name _ x C) as (k & _ & _ & R & D). unfold has_labels. rewrite R.
    destruct ls as [|l ls]; [now destruct N|]. set (lk := combine _ _).
    assert (Q : map snd lk = l :: ls) by (unfold lk; apply second_of; now rewrite map_length, seq_length).
    rewrite <- Q. apply makes_made. constructor; [apply F|now inversion D| |].
    + intros Z0. rewrite Z0 in Q. discriminate.
    + apply Forall_forall. intros [kk ll] I. apply in_combine_l in I. apply in_map_iff in I as (j & <- & _). apply F.
  - (* exists *) intros ks c v w F _ M Q. open_made. unfold predicate_exists, function_create in Q.
    match type of Q with context [named_function_create ks ?n [Elem (Good ?e) ?i]] => rewrite (function_ok ks n _ _ (good_one e i)) in Q by discriminate end.
    injection Q as <-. apply makes_made. apply d_bool_call; auto; [cbn; tauto|now apply all_one].
  - intros ks k f name x l c vl vc w F U Qf N _ M1 _ M2 Q. open_made. unfold symbolic_name_create in Q. destruct (String.eqb_spec x "") as [->|_]; [now destruct N|].
    unfold predicate_where, predicate_create, predicate_in in Q. cbn [sym_not_nil value_ok pb_predicate pb_name pb_list negb shown sym_value where_create value_err where_shown] in Q. unfold Exprs.made in Q. cbn [shown where_shown] in Q.
    match type of Q with context [named_function_create ks ?n [Elem (Good ?e) ?i]] => rewrite (function_ok ks n _ _ (good_one e i)) in Q by discriminate end.
    injection Q as <-. replace (impl_name f) with name by (destruct f; cbn in Qf |- *; congruence).
    apply makes_made. apply d_filter; auto. destruct f; cbn in Qf; try discriminate; injection Qf as <-; cbn; tauto.
  - (* comprehensions *) intros ks k x l vl F U N _ M. open_made. unfold symbolic_name_create. destruct (String.eqb_spec x "") as [->|_]; [now destruct N|].
    apply makes_made. repeat (constructor; auto).
  - intros ks k kw x l c vl vc F U Uw N _ M1 _ M2. open_made. unfold symbolic_name_create. destruct (String.eqb_spec x "") as [->|_]; [now destruct N|].
    apply makes_made. repeat (constructor; auto).
  - intros ks k x l d vl vd w F U N _ M1 _ M2 Q. open_made. unfold symbolic_name_create in Q. destruct (String.eqb_spec x "") as [->|_]; [now destruct N|].
    injection Q as <-. apply makes_made. repeat (constructor; auto).
  - intros ks k kw x l c d vl vc vd w F U Uw N _ M1 _ M2 _ M3 Q. open_made. unfold symbolic_name_create in Q. destruct (String.eqb_spec x "") as [->|_]; [now destruct N|].
    injection Q as <-. apply makes_made. repeat (constructor; auto).
  - intros c s i j _ (e & i' & Q & D). injection Q as -> ->. exists e, j. auto.
  - exists []. repeat constructor.
  - intros c cs v vs _ M _ (es & G & D). open_made. eexists (_ :: es). split; constructor; eauto.
  - split; [reflexivity|]. intros. exists []. repeat constructor.
  - intros x c e i fs l _ (e' & i' & Q & D) _ L. injection Q as -> ->. eapply field_made; [exact D| |exact L]. intros. left. reflexivity.
  - intros x c v fs l H _ L. destruct (literal_made "" "" c v NK NK H) as (e & _ & D & Nx). eapply field_made; [exact D| |exact L].
    intros K i (_ & F2 & _ & F4). right. destruct (literal_made (k_null K) (k_lit K i) c v F4 (F2 i) H) as (e' & Q & D' & _). exists e'.
    destruct v; auto; destruct Nx.
Qed.

(** ** What agrees with it *)

Context (E : env) (NS : no_space_in_names E).
Notation agrees := (SpecReading.agrees E A).
Notation readable := (SpecReading.readable E A).

Lemma spelled : forall n l, is_identifier E n = true -> tokens E n = Some (spelling l) -> l = [n].
Proof.
  intros n l I T. assert (W : tokens E n = Some [Word n]).
  { exact (soft_tokens E _ _ (word_soft E NS n I)). }
  rewrite W in T. injection T as T. destruct l as [|w l]; [discriminate|]. cbn [spelling] in T. injection T as <- T. now destruct l.
Qed.

Lemma name_identifier : forall n, List.In n function_names \/ List.In n filter_names -> is_identifier E n = true.
Proof. intros n [H|H]; repeat (destruct H as [<-|H]; [reflexivity|]); destruct H. Qed.
Lemma name_tokens : forall n, List.In n function_names \/ List.In n filter_names -> tokens E n = Some (spelling [n]).
Proof.
  intros n H. apply name_identifier in H. exact (soft_tokens E _ _ (word_soft E NS n H)).
Qed.

Lemma integer_number : forall z, short z ->
  (if (z <? 0)%Z then XNeg (XNum (text_g10 (n_mant (num_of_Z z)) (n_exp (num_of_Z z)))) else XNum (number_text (num_of_Z z))) = integer z.
Proof.
  intros z S. unfold short, integer in *. destruct (Z.ltb_spec z 0) as [N|P].
  - do 2 f_equal. rewrite <- (number_text_small (- z)) by (rewrite Z.abs_opp; exact S). unfold number_text, num_of_Z. cbn [n_neg n_mant n_exp].
    replace (- z <? 0)%Z with false by (symmetry; apply Z.ltb_ge; lia). now rewrite Z.abs_opp.
  - f_equal. now apply number_text_small.
Qed.

Ltac no_alias :=
  match goal with
  | Q : SpecReading.key_of ?e = Some ?k, G : aliases A ?k ?a |- _ => exfalso; cbn in Q; first [discriminate Q | injection Q as <-; match goal with U : SpecReading.unaliased (aliases A) _ |- _ => destruct (U _ G) end]
  end.
Ltac no_pattern :=
  match goal with
  | G : agrees_chain _ _ _ _ ?e |- _ => exfalso; inversion G; subst; match goal with G : agrees_node _ _ _ _ |- _ => inversion G end
  end.

Lemma nst_agrees : forall k e t, unaliased k -> (agrees t (nst k e) <-> agrees t e).
Proof.
  intros k e t U. unfold nst. destruct (is_condition e); [|reflexivity]. split.
  - intros H. inversion H; subst; [no_alias|assumption|no_pattern].
  - apply ag_nested.
Qed.

Definition only (c : cx) (e : expr) : Prop := forall t, agrees t e <-> t = c.

Lemma computed_op : forall o, binop_of (computing_op o) = Some (computed o).
Proof. now intros []. Qed.
Lemma compared_op : forall o, binop_of (comparing_op o) = Some (compared o).
Proof. now intros []. Qed.

Ltac alone := let H := fresh in intros H; inversion H; subst; try no_alias; try no_pattern.
Ltac use_only :=
  repeat match goal with
  | O : forall t, agrees t (nst ?k ?e) <-> _, H : agrees _ (nst ?k ?e) |- _ => apply O in H
  | O : only _ ?e, H : agrees _ ?e |- _ => apply O in H
  end; subst.

Lemma only_nst : forall k c e, unaliased k -> only c e -> only c (nst k e).
Proof. intros k c e U O t. rewrite nst_agrees by exact U. apply O. Qed.

Lemma only_sym : forall k x, unaliased k -> only (XVar x) (ESym k x).
Proof. intros k x U t. split; [alone; reflexivity|intros ->; constructor]. Qed.

Lemma no_distinct : forall k e t, ~ agrees t (EDistinct k e).
Proof. intros k e t. alone. Qed.
Lemma no_list_pred : forall k x e w t, ~ agrees t (EListPred k x e w).
Proof. intros k x e w t. alone. Qed.

Theorem denotes_only :
  (forall c e, denotes c e -> only c e)
  /\ (forall cs es, denotes_all cs es -> forall ts, Forall2 agrees ts es <-> ts = cs)
  /\ (forall fs es, denotes_fields fs es -> forall l, Forall2 (fun x e => exists ke v, e = EEntry ke (fst x) v /\ agrees (snd x) v) l es <-> l = fs)
  /\ (forall u o, denotes_if u o -> forall t, agrees_if E A t o <-> t = u)
  /\ (forall u o, denotes_where u o -> forall t, agrees_where E A t o <-> t = u).
Proof.
  apply denotes_ind'.
  - intros k x U. now apply only_sym.
  - intros k x U t. split; [alone; reflexivity|intros ->; constructor].
  - intros k U t. split; [alone; reflexivity|intros ->; constructor].
  - intros k b U t. split; [alone; reflexivity|intros ->; constructor].
  - intros k s U t. split; [alone; reflexivity|intros ->; constructor].
  - intros k z U S. rewrite <- (integer_number z S). change (z <? 0)%Z with (n_neg (num_of_Z z)). intros t. split.
    + alone; match goal with N : n_neg _ = _ |- _ => rewrite N end; reflexivity.
    + intros ->. destruct (n_neg (num_of_Z z)) eqn:N; now constructor.
  - intros k x U N P t. split; [alone; [reflexivity|congruence]|intros ->; now constructor].
  - intros k ke cs es U Ue _ O t. split; [alone; f_equal; now apply O|intros ->; constructor; now apply O].
  - intros k fs es U _ O t. split.
    + alone. match goal with G : agrees_map _ _ _ _ |- _ => inversion G; subst end. f_equal. now apply O.
    + intros ->. constructor. constructor. now apply O.
  - intros k kl c e x U Ul _ O N t. split; [alone; use_only; reflexivity|intros ->; constructor; now apply O].
  - intros k o c d e f U _ O1 _ O2 t. split.
    + alone. use_only. match goal with Q : binop_of _ = Some _ |- _ => rewrite computed_op in Q; injection Q as <- end. reflexivity.
    + intros ->. eapply ag_operation; [apply computed_op|now apply O1|now apply O2].
  - intros k k1 k2 o c d e f U U1 U2 _ O1 _ O2 t. pose proof (only_nst k1 c e U1 O1) as P1. pose proof (only_nst k2 d f U2 O2) as P2. split.
    + alone. use_only. match goal with Q : binop_of _ = Some _ |- _ => rewrite compared_op in Q; injection Q as <- end. reflexivity.
    + intros ->. eapply ag_comparison; [apply compared_op|now apply P1|now apply P2].
  - intros b k k1 c e U U1 _ O t. pose proof (only_nst k1 c e U1 O) as P. split.
    + intros H. destruct b; inversion H; subst; try no_alias; try no_pattern; use_only; reflexivity.
    + intros ->. destruct b; constructor; now apply P.
  - intros k kd c d e f U Ud _ O1 _ O2 t. split; [alone; use_only; reflexivity|intros ->; constructor; [now apply O1|now apply O2]].
  - intros k kd c u v e lo hi U Ud _ O1 _ O2 _ O3 t. split.
    + alone. use_only. repeat match goal with H : agrees_if _ _ _ _ |- _ => first [apply O2 in H|apply O3 in H] end. subst. reflexivity.
    + intros ->. constructor; [now apply O1|now apply O2|now apply O3].
  - intros k ka n cs es U Ua I D O t. split.
    + alone.
      * match goal with T : tokens E n = Some _ |- _ => apply spelled in T; [subst|apply name_identifier; now left] end. f_equal. now apply O.
      * inversion D as [|? ? ? ? De]. subst. inversion De.
      * inversion D as [|? ? ? ? De]. subst. inversion De.
    + intros ->. eapply ag_fun; [now apply O|apply name_tokens; now left].
  - intros k ka n c e U Ua I _ O t. split.
    + alone.
      * match goal with F : Forall2 _ _ [_] |- _ => inversion F; subst end. match goal with H : agrees _ (EDistinct _ _) |- _ => now apply no_distinct in H end.
      * match goal with T : tokens E n = Some _ |- _ => apply spelled in T; [subst|apply name_identifier; now left] end. use_only. reflexivity.
    + intros ->. eapply ag_fun_distinct; [now apply O|apply name_tokens; now left].
  - intros k ka n cs es U Ua I D O t. split.
    + intros B. inversion B; subst; try no_pattern; [cbn in *; discriminate|]. revert dependent t. intros t _ B.
      inversion B; subst; try no_alias; try no_pattern.
      * match goal with T : tokens E n = Some _ |- _ => apply spelled in T; [subst|apply name_identifier; now left] end. f_equal. now apply O.
      * inversion D as [|? ? ? ? De]. subst. inversion De.
      * inversion D as [|? ? ? ? De]. subst. inversion De.
    + intros ->. constructor. eapply ag_fun; [now apply O|apply name_tokens; now left].
  - intros k ks x ls U Us N L t. split.
    + alone. match goal with H : agrees _ (ESym _ _) |- _ => apply (only_sym ks x Us) in H; subst end. reflexivity.
    + intros ->. constructor. constructor.
  - intros k ka kp kv kw n x c d e f U Ua Up Uv Uw I _ O1 _ O2 t. split.
    + intros B. inversion B; subst; try no_pattern; [cbn in *; discriminate|]. revert dependent t. intros t _ B.
      inversion B; subst; try no_alias; try no_pattern.
      * match goal with F : Forall2 _ _ [_] |- _ => inversion F; subst end. match goal with H : agrees _ (EListPred _ _ _ _) |- _ => now apply no_list_pred in H end.
      * use_only. match goal with H : agrees _ (ESym _ _) |- _ => apply (only_sym kv x Uv) in H; injection H as -> end. reflexivity.
    + intros ->. constructor. constructor; [constructor|now apply O1|now apply O2].
  - intros k kv x c u v e w d U Uv _ O1 _ O2 _ O3 t. split.
    + alone. use_only. match goal with H : agrees _ (ESym _ _) |- _ => apply (only_sym kv x Uv) in H; injection H as -> end.
      repeat match goal with H : agrees_if _ _ _ _ |- _ => apply O3 in H | H : agrees_where _ _ _ _ |- _ => apply O2 in H end. subst. reflexivity.
    + intros ->. constructor; [constructor|now apply O1|now apply O2|now apply O3].
  - intros ts. split; [intros H; now inversion H|intros ->; constructor].
  - intros c cs e es _ O1 _ O2 ts. split.
    + intros H. inversion H; subst. f_equal; [now apply O1|now apply O2].
    + intros ->. constructor; [now apply O1|now apply O2].
  - intros ts. split; [intros H; now inversion H|intros ->; constructor].
  - intros x c fs k e es U _ O1 _ O2 l. split.
    + intros H. inversion H as [|[y t] ? ? ? (ke & v & Q & G) F]; subst. injection Q as -> -> ->. cbn [fst snd] in *. f_equal; [f_equal; now apply O1|now apply O2].
    + intros ->. constructor; [|now apply O2]. exists k, e. cbn [fst snd]. split; [reflexivity|now apply O1].
  - intros t. split; [intros H; now inversion H|intros ->; constructor].
  - intros c e _ O t. split; [intros H; inversion H; subst; f_equal; now apply O|intros ->; constructor; now apply O].
  - intros t. split; [intros H; now inversion H|intros ->; constructor].
  - intros c k e U _ O t. split; [intros H; inversion H; subst; f_equal; now apply O|intros ->; constructor; now apply O].
Qed.

(** ** What is read back *)

Notation K := (fun k => exists a, A k a).
Notation writable := (writable E).

Lemma free_key : forall k, unaliased k -> ~ K k.
Proof. intros k U [a H]. exact (U a H). Qed.

Lemma all_writable : forall ds, (fix all l := match l with [] => True | x :: l => writable 0 x /\ all l end) ds -> Forall (writable 0) ds.
Proof. induction ds as [|d ds IH]; intros H; constructor; [apply H|apply IH, H]. Qed.

Lemma call_readable : forall m n k f ka es, readable (At m) (EFun k f ka es) -> readable (At n) (EFun k f ka es).
Proof.
  intros m n k f ka es R. inversion R; subst; [now apply rd_fun|now apply rd_fun_distinct|now apply rd_fun_filter|discriminate].
Qed.

(** An operand of a comparison. *)
Lemma nested_readable : forall c e m k, denotes c e -> unaliased k -> label_test c = false ->
  readable (At (if comparison c then 0 else m)) e -> readable (At m) (nst k e).
Proof.
  intros c e m k D U L R. unfold nst. destruct D; cbn [is_condition comparison negb label_test] in *; try exact R; try discriminate L; try (unfold integer in R; destruct (z <? 0)%Z; exact R); try (destruct o; exact R).
  - (* comparisons *)
    replace (arithmetic (compared o)) with false in R by now destruct o. cbn [negb] in R.
    inversion R; subst; [|discriminate]. eapply rd_nested_comparison; eassumption.
  - inversion R; subst.
    + apply rd_nested_null; assumption.
    + discriminate.
  - inversion R; subst; [|discriminate]. apply rd_nested_call; [apply name_identifier; now left|assumption|]. now apply (call_readable m).
  - inversion R; subst; [|discriminate]. apply rd_nested_call; [apply name_identifier; now right|assumption|]. now apply (call_readable m).
Qed.

Definition back (c : cx) (e : expr) : Prop := forall n, writable n c -> readable (At n) e.
Definition operand_back (c : cx) (e : expr) : Prop := forall k m, unaliased k -> label_test c = false ->
  writable (if comparison c then 0 else m) c -> readable (At m) (nst k e).

Lemma back_operand : forall c e, denotes c e -> back c e -> operand_back c e.
Proof. intros c e D B k m U L W. apply (nested_readable c e m k D U L). now apply B. Qed.

Lemma plain_name : forall n, List.In n function_names -> function_name E n.
Proof.
  intros n I. exists n, []. split; [apply name_tokens; now left|]. repeat (destruct I as [<-|I]; [reflexivity|]). destruct I.
Qed.

Theorem denotes_back :
  (forall c e, denotes c e -> back c e)
  /\ (forall cs es, denotes_all cs es -> Forall2 back cs es)
  /\ (forall fs es, denotes_fields fs es -> Forall (fun f => blank (fst f) = false /\ writable 0 (snd f)) fs -> Forall (readable EntryP) es)
  /\ (forall u o, denotes_if u o -> match u with Some c => writable 0 c | None => True end -> Forall (readable (At 0)) (opt_list o))
  /\ (forall u o, denotes_where u o -> match u with Some c => writable 0 c | None => True end -> Forall (readable WhereP) (opt_list o)).
Proof.
  apply denotes_ind'.
  - intros k x U n W. now apply rd_sym.
  - intros k x U n W. now apply rd_param.
  - intros k U n W. apply rd_null.
  - intros k b U n W. apply rd_bool.
  - intros k s U n W. apply rd_str.
  - intros k z U S n W. apply rd_num; [cbn; lia|]. change (n_neg (num_of_Z z)) with (z <? 0)%Z. intros N. unfold integer in W. rewrite N in W. exact W.
  - intros k x U N P n W. apply rd_num; [exact P|congruence].
  - intros k ke cs es U Ue D B n W. apply rd_list_expr; [exact Ue|]. inversion B as [|c e cs' es' B1 B2]; subst; [constructor|].
    cbn in W. destruct W as [W1 W2]. apply all_writable in W2. constructor.
    + unfold first_place. assert (R : readable (At (first_level c)) e) by now apply B1.
      inversion D as [|? ? ? ? De _]; subst. destruct De; cbn [first_level] in R; try exact R.
      * unfold integer in R. match type of R with context [(?z <? 0)%Z] => destruct (z <? 0)%Z eqn:N end; [exact R|].
        apply rd_num; [cbn; lia|]. change (n_neg (num_of_Z z)) with (z <? 0)%Z. congruence.
      * apply rd_num; [assumption|congruence].
    + clear - B2 W2. induction B2; [constructor|]. inversion W2; subst. constructor; auto.
  - intros k fs es U _ B n W. apply rd_map. apply B. clear B. cbn in W. induction fs as [|[x c] fs IH]; constructor; [apply W|apply IH, W].
  - intros k kl c e x U Ul _ B N n (W1 & W2 & W3). apply rd_prop; auto.
  - intros k o c d e f U _ B1 _ B2 n W. cbn in W. replace (arithmetic (computed o)) with true in W by now destruct o. destruct W as (W0 & W1 & W2).
    eapply rd_operation; [apply computed_op|destruct o; try discriminate; intros _; now apply W0|now apply B1|now apply B2].
  - intros k k1 k2 o c d e f U U1 U2 D1 B1 D2 B2 n W. cbn in W. replace (arithmetic (compared o)) with false in W by now destruct o.
    destruct W as (W0 & (L1 & W1) & (L2 & W2)). pose proof (back_operand c e D1 B1) as O1. pose proof (back_operand d f D2 B2) as O2.
    eapply rd_comparison; [apply compared_op|exact W0|now apply O1|now apply O2].
  - intros b k k1 c e U U1 D B n (W0 & L & W). apply rd_is_null; [exact W0|destruct b; auto|]. now apply (back_operand c e D B).
  - intros k kd c d e f U Ud _ B1 _ B2 n (W1 & W2). apply rd_index; auto.
  - intros k kd c u v e lo hi U Ud _ B1 _ B2 _ B3 n (W1 & W2 & W3). apply rd_slice; auto.
  - intros k ka m cs es U Ua I D B n W. cbn in W. apply all_writable in W. apply rd_fun; [now apply plain_name|exact Ua|].
    clear - B W. induction B; [constructor|]. inversion W; subst. constructor; auto.
  - intros k ka m c e U Ua I _ B n [W _]. apply rd_fun_distinct; [now apply plain_name|exact Ua|exact NK|now apply B].
  - intros k ka m cs es U Ua I D B n W. cbn in W. apply all_writable in W. apply rd_bool_fun. apply rd_fun; [now apply plain_name|exact Ua|].
    clear - B W. induction B; [constructor|]. inversion W; subst. constructor; auto.
  - intros k ks x ls U Us N L n (W0 & W1 & W2). apply rd_has_label; [exact W0|now apply rd_sym|exact N|].
    unfold labels_ok, labels_free in *. rewrite Forall_map in W2. rewrite Forall_forall in *. intros l I. split; [now apply L|now apply W2].
  - intros k ka kp kv kw m x c d e f U Ua Up Uv Uw I _ B1 _ B2 n (W1 & W2 & W3). apply rd_bool_fun. apply rd_fun_filter; auto.
    + apply name_identifier. now right.
    + repeat (destruct I as [<-|I]; [reflexivity|]). destruct I.
    + constructor; auto.
  - intros k kv x c u v e w d U Uv _ B1 _ B2 _ B3 n (W1 & W2 & W3 & W4). apply rd_list_comp; auto.
  - constructor.
  - intros c cs e es _ B1 _ B2. now constructor.
  - constructor.
  - intros x c fs k e es U _ B1 _ B2 W. inversion W as [|? ? [W1 W2] W3]; subst. constructor; [|auto]. apply rd_entry; auto.
  - constructor.
  - intros c e _ B W. constructor; [now apply B|constructor].
  - constructor.
  - intros c k e U _ B W. constructor; [|constructor]. apply rd_where; auto.
Qed.

(** ** Where the elements stand, and that they give no aliases *)

Definition in_shape (c : cx) (e : expr) : Prop := forall n, writable n c -> shaped E K e.
Lemma shaped_leaf : forall e, own_shape E K e -> children e = [] -> shaped E K e.
Proof. intros e O C. constructor; [exact O|]. rewrite C. constructor. Qed.
Lemma nst_shaped : forall k e, shaped E K e -> shaped E K (nst k e).
Proof. intros k e S. unfold nst. destruct (is_condition e); [|exact S]. constructor; [exact Logic.I|]. constructor; [exact S|constructor]. Qed.

Lemma some_level : forall c m d, writable (if comparison d then 0 else m) d /\ in_shape d c -> shaped E K c.
Proof. intros c m d [W S]. exact (S _ W). Qed.

Theorem denotes_shaped :
  (forall c e, denotes c e -> in_shape c e)
  /\ (forall cs es, denotes_all cs es -> Forall2 in_shape cs es)
  /\ (forall fs es, denotes_fields fs es -> Forall (fun f => blank (fst f) = false /\ writable 0 (snd f)) fs -> Forall (shaped E K) es)
  /\ (forall u o, denotes_if u o -> match u with Some c => writable 0 c | None => True end -> Forall (shaped E K) (opt_list o))
  /\ (forall u o, denotes_where u o -> match u with Some c => writable 0 c | None => True end -> Forall (fun e => attached K e /\ shaped E K e) (opt_list o)).
Proof.
  assert (WC : forall n, is_identifier E n = true -> self_contained E n) by (intros n H; apply contained_soft; eexists; now apply (word_soft E NS)).
  apply denotes_ind'.
  - intros k x U n W. now apply shaped_leaf.
  - intros k x U n W. apply shaped_leaf; [now apply WC|reflexivity].
  - intros k U n W. now apply shaped_leaf.
  - intros k b U n W. now apply shaped_leaf.
  - intros k s U n W. now apply shaped_leaf.
  - intros k z U S n W. apply shaped_leaf; [cbn; lia|reflexivity].
  - intros k x U N P n W. now apply shaped_leaf.
  - intros k ke cs es U Ue D B n W. constructor; [exact Logic.I|]. constructor; [|constructor]. constructor; [exact Logic.I|].
    change (children (EExprs ke es)) with es. inversion B as [|c e cs' es' B1 B2]; subst; [constructor|].
    cbn in W. destruct W as [W1 W2]. apply all_writable in W2. constructor; [exact (B1 _ W1)|].
    clear - B2 W2. induction B2; [constructor|]. inversion W2; subst. constructor; [now apply (H 0)|auto].
  - intros k fs es U _ B n W. constructor; [exact Logic.I|]. apply B. clear B. cbn in W. induction fs as [|[x c] fs IH]; constructor; [apply W|apply IH, W].
  - intros k kl c e x U Ul _ B N n (W1 & W2 & W3). constructor; [now apply free_key|]. constructor; [exact (B _ W1)|]. constructor; [|constructor].
    apply shaped_leaf; [exact N|reflexivity].
  - intros k o c d e f U _ B1 _ B2 n W. cbn in W. replace (arithmetic (computed o)) with true in W by now destruct o. destruct W as (W0 & W1 & W2).
    constructor; [left; now destruct o|]. constructor; [exact (B1 _ W1)|]. constructor; [exact (B2 _ W2)|constructor].
  - intros k k1 k2 o c d e f U U1 U2 D1 B1 D2 B2 n W. cbn in W. replace (arithmetic (compared o)) with false in W by now destruct o.
    destruct W as (W0 & (L1 & W1) & (L2 & W2)). constructor; [left; now destruct o|]. cbn [children opt_list app].
    constructor; [exact (nst_shaped k1 e (B1 _ W1))|]. constructor; [exact (nst_shaped k2 f (B2 _ W2))|constructor].
  - intros b k k1 c e U U1 D B n (W0 & L & W). constructor; [right; right; split; [destruct b; auto|reflexivity]|]. cbn [children opt_list app].
    constructor; [exact (nst_shaped k1 e (B _ W))|constructor].
  - intros k kd c d e f U Ud _ B1 _ B2 n (W1 & W2). constructor; [split; [now apply free_key|auto]|]. cbn [children opt_list app].
    constructor; [exact (B1 _ W1)|]. constructor; [exact (B2 _ W2)|constructor].
  - intros k kd c u v e lo hi U Ud _ B1 _ B2 _ B3 n (W1 & W2 & W3). constructor; [split; [now apply free_key|discriminate]|]. cbn [children].
    constructor; [exact (B1 _ W1)|]. apply Forall_app; split; auto.
  - intros k ka m cs es U Ua I D B n W. cbn in W. apply all_writable in W. constructor; [apply WC, name_identifier; now left|].
    change (children (EFun k m ka es)) with es. clear - B W. induction B; [constructor|]. inversion W; subst. constructor; [now apply (H 0)|auto].
  - intros k ka m c e U Ua I _ B n [W _]. constructor; [apply WC, name_identifier; now left|]. constructor; [|constructor]. constructor; [exact Logic.I|].
    constructor; [exact (B _ W)|constructor].
  - intros k ka m cs es U Ua I D B n W. cbn in W. apply all_writable in W. constructor; [exact Logic.I|]. constructor; [|constructor]. constructor; [apply WC, name_identifier; now left|].
    change (children (EFun k m ka es)) with es. clear - B W. induction B; [constructor|]. inversion W; subst. constructor; [now apply (H 0)|auto].
  - intros k ks x ls U Us N L n W. constructor.
    + cbn. unfold no_label_aliased, labels_free in *. rewrite Forall_forall in *. intros l I. now apply free_key, L.
    + constructor; [now apply shaped_leaf|constructor].
  - intros k ka kp kv kw m x c d e f U Ua Up Uv Uw I _ B1 _ B2 n (W1 & W2 & W3). constructor; [exact Logic.I|]. constructor; [|constructor].
    constructor; [apply WC, name_identifier; now right|]. constructor; [|constructor]. constructor; [now apply free_key|].
    constructor; [now apply shaped_leaf|]. constructor; [exact (B1 _ W2)|]. constructor; [|constructor]. constructor; [exact Logic.I|].
    constructor; [exact (B2 _ W3)|constructor].
  - intros k kv x c u v e w d U Uv _ B1 _ B2 _ B3 n (W1 & W2 & W3 & W4). specialize (B2 W3). constructor.
    + cbn. unfold all_attached. eapply Forall_impl; [|exact B2]. now intros a [H _].
    + cbn [children]. constructor; [now apply shaped_leaf|]. constructor; [exact (B1 _ W2)|]. apply Forall_app; split; [|auto].
      eapply Forall_impl; [|exact B2]. now intros a [_ H].
  - constructor.
  - intros c cs e es _ B1 _ B2. now constructor.
  - constructor.
  - intros x c fs k e es U _ B1 _ B2 W. inversion W as [|? ? [W1 W2] W3]; subst. constructor; [|auto]. constructor; [exact Logic.I|]. constructor; [exact (B1 _ W2)|constructor].
  - constructor.
  - intros c e _ B W. constructor; [exact (B _ W)|constructor].
  - constructor.
  - intros c k e U _ B W. constructor; [|constructor]. split; [now apply free_key|]. constructor; [exact Logic.I|]. constructor; [exact (B _ W)|constructor].
Qed.

Definition silent_on_aliases (e : expr) : Prop := forall k a, ~ gives_alias_in k a e.
Lemma no_aliases_by : forall e, (forall k dk x a, e <> EAlias k dk x a) -> Forall silent_on_aliases (children e) -> silent_on_aliases e.
Proof.
  intros e N F k a G. inversion G; subst; [now apply (N ka k e0 a)|]. rewrite Forall_forall in F. now apply (F d H k a).
Qed.
Lemma nst_silent : forall k e, silent_on_aliases e -> silent_on_aliases (nst k e).
Proof. intros k e S. unfold nst. destruct (is_condition e); [|exact S]. apply no_aliases_by; [discriminate|]. repeat constructor. exact S. Qed.

Theorem denotes_no_aliases :
  (forall c e, denotes c e -> silent_on_aliases e)
  /\ (forall cs es, denotes_all cs es -> Forall silent_on_aliases es)
  /\ (forall fs es, denotes_fields fs es -> Forall silent_on_aliases es)
  /\ (forall u o, denotes_if u o -> Forall silent_on_aliases (opt_list o))
  /\ (forall u o, denotes_where u o -> Forall silent_on_aliases (opt_list o)).
Proof.
  apply denotes_ind'; intros; try (apply no_aliases_by; [discriminate|]); cbn [children opt_list app]; repeat (apply Forall_app; split); repeat (constructor; auto using nst_silent);
    try (apply no_aliases_by; [discriminate|]; cbn [children]; repeat (constructor; auto)).
  all: try assumption; try (apply Forall_app; split; assumption).
  all: repeat (apply no_aliases_by; [discriminate|]; cbn [children]; repeat (constructor; auto)).
Qed.
End Denotes.
