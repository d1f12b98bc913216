(** Proofs about calls on expressions. *)

From Coq Require Import Ascii String List ZArith Bool Arith Lia.
From Verif Require Import GoStr Escape Num VTree Ast GoVal Maps SpecDoc SpecPrint DocProofs Patterns SpecPattern PatternProofs Cond Builder Exprs Functions SpecExpr ReadProofs WrittenProofs SpecCalls.
Import ListNotations.
Open Scope string_scope.
Open Scope list_scope.

(** ** Operators *)

Definition nst (k : key) (e : expr) : expr := if is_condition e then ENested k e else e.

Inductive rep : tree expr -> expr -> Prop :=
| rep_leaf : forall e, self_contained e = true -> rep (Leaf e) e
| rep_compute : forall k c t u a b, rep t a -> rep u b -> rep (Bin (sign_of_computing c) t u) (EOperation k a (computing_op c) b)
| rep_compare : forall k k1 k2 c t u a b, rep t a -> rep u b ->
    rep (Bin (sign_of_comparing c) t u) (EComparison k (Some (nst k1 a)) (comparing_op c) (Some (nst k2 b)))
| rep_null : forall k k1 t a, rep t a -> rep (Post Null t) (EComparison k (Some (nst k1 a)) IsNull None)
| rep_not_null : forall k k1 t a, rep t a -> rep (Post NotNull t) (EComparison k (Some (nst k1 a)) IsNotNull None).

Lemma rep_condition : forall t e, rep t e -> is_condition e = conditional t.
Proof. destruct 1 as [e H|k c|k k1 k2 c| |]; try reflexivity; [destruct e; try reflexivity; discriminate|destruct c; reflexivity|destruct c; reflexivity]. Qed.

Lemma operand_nested : forall k e i, operand (nested_if_condition k (Elem (Good e) i)) = Some (Some (nst k e)).
Proof. intros k e i. unfold nested_if_condition, nst. destruct (is_condition e); reflexivity. Qed.

Lemma builds_rep : forall t v, builds t v -> exists e i, v = Elem (Good e) i /\ rep t e.
Proof.
  induction 1 as [e i S|ks c t u x y Hx IHx Hy IHy|ks c t u x y Hx IHx Hy IHy|ks t x Hx IHx|ks t x Hx IHx|ks b t x Hx IHx|ks s t x Hx IHx|ks e i v H|t c i j H IH].
  - exists e, i. split; [reflexivity|now constructor].
  - destruct IHx as (a & ia & -> & Ra), IHy as (b & ib & -> & Rb). eexists. eexists. split; [reflexivity|]. now constructor.
  - destruct IHx as (a & ia & -> & Ra), IHy as (b & ib & -> & Rb). unfold compare, comparison_create. cbn [value_err value_ok is_nil negb orb].
    rewrite !operand_nested. eexists. eexists. split; [reflexivity|]. now constructor.
  - destruct IHx as (a & ia & -> & Ra). unfold is_null, postfix_create. cbn [value_err value_ok negb]. rewrite operand_nested.
    eexists. eexists. split; [reflexivity|]. now constructor.
  - destruct IHx as (a & ia & -> & Ra). unfold is_not_null, postfix_create. cbn [value_err value_ok negb]. rewrite operand_nested.
    eexists. eexists. split; [reflexivity|]. now constructor.
  - destruct IHx as (a & ia & -> & Ra). unfold is_bool, compare, comparison_create. cbn [value_err value_ok is_nil negb orb bool_value made].
    rewrite !operand_nested. eexists. eexists. split; [reflexivity|]. apply (rep_compare _ _ (ks 2) IsEqualTo t (Leaf _) a (EBool (ks 3) b)); [exact Ra|now constructor].
  - destruct IHx as (a & ia & -> & Ra). unfold matches_pattern, compare, comparison_create. cbn [value_err value_ok is_nil negb orb string_value made].
    rewrite !operand_nested. eexists. eexists. split; [reflexivity|]. apply (rep_compare _ _ (ks 2) MatchesWith t (Leaf _) a (EStr (ks 3) s)); [exact Ra|now constructor].
  - cbn in H. injection H as <-. eexists. eexists. split; [reflexivity|].
    apply (rep_compare _ (ks 1) (ks 2) IsEqualTo (Leaf _) (Leaf _) (EFun (ks 4) "size" (ks 5) [e]) (ENum (ks 3) (num_of_Z 0))); now constructor.
  - destruct IH as (e & i' & E & R). injection E as -> _. exists e, j. auto.
Qed.

Lemma tokens_app : forall E a b, leq [tokens_doc E (a ++ b)] [tokens_doc E a; tokens_doc E b].
Proof.
  intros E a b. unfold tokens_doc. rewrite map_app. eapply leq_trans; [apply leq_nest|]. rewrite app_nil_r.
  assert (X : leq [Cat (map (token_doc E) a); Cat (map (token_doc E) b)] (map (token_doc E) a ++ map (token_doc E) b)).
  { eapply leq_trans; [apply leq_nest|]. apply leq_app; [apply leq_refl|]. eapply leq_trans; [apply leq_nest|]. rewrite app_nil_r. apply leq_refl. }
  destruct X as [X Y]. split; intros m; symmetry; auto.
Qed.

Lemma leq_sym : forall a b, leq a b -> leq b a.
Proof. intros a b [X Y]. split; intros m; symmetry; auto. Qed.

(** Documents one after the other, as tokens. *)
Lemma split_tokens : forall E a l, leq (tokens_doc E a :: l) (map (token_doc E) a ++ l).
Proof. intros E a l. apply leq_nest. Qed.

Lemma nst_text : forall E k e ts b, deq (plain (print E e)) (tokens_doc E ts) -> is_condition e = b ->
  deq (plain (print E (nst k e))) (tokens_doc E (nest_if b ts)).
Proof.
  intros E k e ts b D C. unfold nst. rewrite C. destruct b; [|exact D]. cbn [nest_if print plain map]. unfold tokens_doc, parens. cbn [map].
  rewrite map_app. cbn [map token_doc]. apply leq_deq. apply leq_cons; [apply deq_refl|].
  eapply leq_trans; [apply leq_cons; [exact D|apply leq_refl]|]. apply leq_nest.
Qed.

Lemma computing_text : forall c, op_word (computing_op c) = sign_text (sign_of_computing c).
Proof. now destruct c. Qed.
Lemma comparing_text : forall c, op_word (comparing_op c) = sign_text (sign_of_comparing c).
Proof. now destruct c. Qed.

Lemma rep_text : forall E t e, rep t e -> deq (plain (print E e)) (tokens_doc E (wr t)).
Proof.
  intros E t e R. induction R as [e S|k c t u a b Ra IHa Rb IHb|k k1 k2 c t u a b Ra IHa Rb IHb|k k1 t a Ra IHa|k k1 t a Ra IHa].
  - cbn [wr]. unfold tokens_doc. cbn [map token_doc]. apply deq_sym. apply deq_one.
  - assert (J : leq [plain (print E a); Txt (op_word (computing_op c)); plain (print E b)]
                    (map (token_doc E) (wr t ++ TSign (sign_of_computing c) :: wr u))).
    { rewrite map_app. cbn [map token_doc]. rewrite <- computing_text.
      eapply leq_trans; [apply leq_cons; [exact IHa|apply leq_refl]|]. eapply leq_trans; [apply leq_nest|]. apply leq_app; [apply leq_refl|].
      apply leq_cons; [apply deq_refl|]. eapply leq_trans; [apply leq_cons; [exact IHb|apply leq_refl]|].
      eapply leq_trans; [apply leq_nest|]. rewrite app_nil_r. apply leq_refl. }
    unfold tokens_doc. cbn [print plain].
    destruct c; cbn [computing_op in_parens plain map print_op wr level sign_of_computing] in *;
      try exact (leq_deq _ _ J); unfold parens; cbn [map token_doc]; rewrite map_app; cbn [map token_doc]; apply leq_deq;
      (apply leq_cons; [apply deq_refl|]); exact (leq_app _ _ [Txt ")"] [Txt ")"] J (leq_refl _)).
  - assert (Na : deq (plain (print E (nst k1 a))) (tokens_doc E (nest_if (conditional t) (wr t)))) by (apply nst_text; [exact IHa|now apply rep_condition]).
    assert (Nb : deq (plain (print E (nst k2 b))) (tokens_doc E (nest_if (conditional u) (wr u)))) by (apply nst_text; [exact IHb|now apply rep_condition]).
    assert (J : leq [plain (print E (nst k1 a)); Txt (op_word (comparing_op c)); plain (print E (nst k2 b))]
                    (map (token_doc E) (nest_if (conditional t) (wr t) ++ TSign (sign_of_comparing c) :: nest_if (conditional u) (wr u)))).
    { rewrite map_app. cbn [map token_doc]. rewrite <- comparing_text.
      eapply leq_trans; [apply leq_cons; [exact Na|apply leq_refl]|]. eapply leq_trans; [apply leq_nest|]. apply leq_app; [apply leq_refl|].
      apply leq_cons; [apply deq_refl|]. eapply leq_trans; [apply leq_cons; [exact Nb|apply leq_refl]|].
      eapply leq_trans; [apply leq_nest|]. rewrite app_nil_r. apply leq_refl. }
    unfold tokens_doc. cbn [print plain option_map maybe app map]. apply leq_deq. unfold print_op. cbn [plain].
    destruct c; exact J.
  - assert (Na : deq (plain (print E (nst k1 a))) (tokens_doc E (nest_if (conditional t) (wr t)))) by (apply nst_text; [exact IHa|now apply rep_condition]).
    unfold tokens_doc. cbn [print plain option_map maybe app map wr]. rewrite map_app. unfold print_op. cbn [plain map token_doc]. apply leq_deq.
    eapply leq_trans; [apply leq_cons; [exact Na|apply leq_refl]|]. apply leq_nest.
  - assert (Na : deq (plain (print E (nst k1 a))) (tokens_doc E (nest_if (conditional t) (wr t)))) by (apply nst_text; [exact IHa|now apply rep_condition]).
    unfold tokens_doc. cbn [print plain option_map maybe app map wr]. rewrite map_app. unfold print_op. cbn [plain map token_doc]. apply leq_deq.
    eapply leq_trans; [apply leq_cons; [exact Na|apply leq_refl]|]. apply leq_nest.
Qed.
