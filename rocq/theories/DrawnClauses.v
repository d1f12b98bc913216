(** Proofs: clauses whose operands are made by calls are read as the clauses
    asked for. *)

From Coq Require Import Ascii String List ZArith Bool Lia.
From Verif Require Import SpecCond GoStr Escape Num VTree SpecLex SpecNum SpecSpace SpecTokens EscapeProofs GoStrProofs Ast SpecDoc
  SpecPrint SpecShape SpecOutline SpecGrammar SpecReading GoVal Maps Slices Patterns SpecPattern PatternProofs ChainProofs Cond Queries Builder SpecBuilder SpecPhrases SpecCalled
  Exprs Functions SpecCalls FunctionProofs SpecAsked AskedProofs BuilderOutline PhrasePlaces SpecDrawn DrawnProofs PropertiesTokens TokenTexts.
Import ListNotations.
Open Scope string_scope.
Open Scope nat_scope.
Open Scope list_scope.

Section Clauses.
Context (E : env) (A : register) (NS : no_space_in_names E) (NK : unaliased A "").

Lemma expr_denotes : forall c e, expr_asked A c e -> denotes A c e.
Proof. intros c e [i H]. destruct (proj1 (asked_made A NK) c _ H) as (e' & j & Q & D). now injection Q as <- <-. Qed.
Lemma expr_only : forall c e t, expr_asked A c e -> SpecReading.agrees E A t e -> t = c.
Proof. intros c e t H. apply (proj1 (denotes_only A E NS)). now apply expr_denotes. Qed.
Lemma exprs_only : forall cs es ts, Forall2 (expr_asked A) cs es -> Forall2 (SpecReading.agrees E A) ts es -> ts = cs.
Proof.
  intros cs es ts H. revert ts. induction H as [|c e cs es H Hs IH]; intros ts F; inversion F; subst; [reflexivity|]. f_equal; [now apply (expr_only c e)|now apply IH].
Qed.
Lemma expr_back : forall c e n, expr_asked A c e -> writable E n c -> SpecReading.readable E A (At n) e.
Proof. intros c e n H. apply (proj1 (denotes_back A NK E NS)). now apply expr_denotes. Qed.
Lemma expr_placed : forall c e n, expr_asked A c e -> writable E n c -> in_place E A e.
Proof. intros c e n H. apply (proj1 (denotes_shaped A E NS)). now apply expr_denotes. Qed.
Lemma exprs_back : forall cs es n, Forall2 (expr_asked A) cs es -> Forall (writable E n) cs -> Forall (SpecReading.readable E A (At n)) es /\ Forall (in_place E A) es.
Proof.
  intros cs es n H. induction H as [|c e cs es H Hs IH]; intros F; [split; constructor|]. inversion F; subst. destruct IH; [assumption|].
  split; constructor; auto; [now apply (expr_back c)|now apply (expr_placed c e n)].
Qed.

(** ** Expressions with an alias *)

Ltac no_chain :=
  match goal with
  | G : agrees_chain _ _ _ _ ?e |- _ => exfalso; inversion G; subst; match goal with G : agrees_node _ _ _ _ |- _ => inversion G end
  end.
Ltac agree_again :=
  first [apply ag_sym|apply ag_param|apply ag_null|apply ag_bool|apply ag_str|eapply ag_num; eassumption|eapply ag_num_neg; eassumption|
    eapply ag_list_expr; eassumption|eapply ag_prop; eassumption|eapply ag_operation; eassumption|eapply ag_comparison; eassumption|
    eapply ag_is_null; eassumption|eapply ag_is_not_null; eassumption|eapply ag_index; eassumption|eapply ag_slice; eassumption|
    eapply ag_fun; eassumption|eapply ag_fun_distinct; eassumption|eapply ag_fun_filter; eassumption|eapply ag_has_label; eassumption|eapply ag_list_comp; eassumption].

Lemma address_agrees : forall c e k t, denotes A c e -> SpecReading.agrees E A t (at_address k e) -> SpecReading.agrees E A t e \/ by_alias (renamed A) t.
Proof.
  intros c e k t D. destruct D; cbn [at_address]; try (now left);
    intros H'; inversion H'; subst; try no_chain;
    try (match goal with Q : SpecReading.key_of _ = Some ?x |- _ => cbn in Q; injection Q as <- end; right; split; [eexists; eexists; split; eassumption|eexists; reflexivity]);
    left; try solve [agree_again].
  apply ag_map. match goal with G : agrees_map _ _ _ _ |- _ => inversion G; subst end. now constructor.
Qed.

Ltac read_again :=
  first [apply rd_sym; assumption|apply rd_param; assumption|apply rd_null|apply rd_bool|apply rd_str|apply rd_num; assumption|
    apply rd_list_expr; assumption|apply rd_map; assumption|apply rd_prop; assumption|eapply rd_operation; eassumption|eapply rd_comparison; eassumption|
    eapply rd_is_null; eassumption|eapply rd_index; eassumption|eapply rd_slice; eassumption|
    eapply rd_fun; eassumption|eapply rd_fun_distinct; eassumption|eapply rd_fun_filter; eassumption|eapply rd_has_label; eassumption|eapply rd_list_comp; eassumption].
Lemma address_readable : forall c e k n, denotes A c e -> SpecReading.readable E A (At n) e -> SpecReading.readable E A (At n) (at_address k e).
Proof.
  intros c e k n D. destruct D; cbn [at_address]; try (now intros X); intros H'; inversion H'; subst; try discriminate; try solve [read_again].
Qed.
Lemma address_shaped : forall c e k, denotes A c e -> in_place E A e -> in_place E A (at_address k e).
Proof.
  intros c e k D. unfold in_place. destruct D; cbn [at_address]; try (now intros X); intros H'; inversion H'; subst; constructor; assumption.
Qed.

Lemma item_only : forall c e t, item_asked A c e -> agrees_item E A t e -> near_item (renamed A) t c.
Proof.
  intros c e t H. destruct H as [c e H|ks k c e a x i j U H Na Ka Q].
  - intros G. pose proof (expr_denotes c e H) as D. left. inversion G; subst; [|inversion D|inversion D]. f_equal. now apply (expr_only c e).
  - unfold aliased_create in Q. destruct (String.eqb_spec a "") as [->|_]; [now destruct Na|]. cbn in Q. injection Q as <- <-.
    intros G. inversion G as [e' t' G'|k' dk e' a' t' G'|k' dk e' a' G1 G2]; subst.
    + exfalso. inversion G'; subst; try no_chain. discriminate.
    + destruct (address_agrees c e k t' (expr_denotes c e H) G') as [G''|B].
      * left. f_equal. now apply (expr_only c e).
      * right. exists a. auto.
    + right. exists a. split; [reflexivity|]. split; [|now right]. split; [eexists; eexists; split; eassumption|eexists; reflexivity].
Qed.
Lemma items_only : forall its es ts, Forall2 (item_asked A) its es -> Forall2 (agrees_item E A) ts es -> Forall2 (near_item (renamed A)) ts its.
Proof.
  intros its es ts H. revert ts. induction H as [|i e its es H Hs IH]; intros ts F; inversion F; subst; constructor; [now apply (item_only i e)|now apply IH].
Qed.
Lemma item_back : forall i e, item_asked A i e -> drawable_item E i -> readable_item E A e /\ in_place E A e.
Proof.
  intros i e H. destruct H as [c e H|ks k c e a x i j U H Na Ka Q]; intros [W V]; cbn [ci_value ci_alias] in *.
  - split; [apply ri_plain; now apply (expr_back c)|now apply (expr_placed c e 0)].
  - unfold aliased_create in Q. destruct (String.eqb_spec a "") as [->|_]; [now destruct Na|]. cbn in Q. injection Q as <- <-. pose proof (expr_denotes c e H) as D. split.
    + apply ri_alias; [assumption|assumption|]. apply (address_readable c); [assumption|]. now apply (expr_back c).
    + constructor; [now exists a|]. constructor; [|constructor]. apply (address_shaped c); [assumption|]. now apply (expr_placed c e 0).
Qed.
Lemma items_back : forall its es, Forall2 (item_asked A) its es -> Forall (drawable_item E) its -> Forall (readable_item E A) es /\ Forall (in_place E A) es.
Proof.
  intros its es H. induction H as [|i e its es H Hs IH]; intros F; [split; constructor|]. inversion F; subst. destruct IH; [assumption|].
  destruct (item_back i e H); auto.
Qed.

(** ** Conditions *)

Definition outer_is (m : option conn) (x : cnd) : Prop :=
  match m with
  | None => match x with Atom _ | Neg _ _ _ => True | _ => False end
  | Some o => exists k a b l n, x = Comp k (bop_of_conn o) (a :: b :: l) n
  end.
(** A part of joined conditions: alone, or alone in a group of its own. *)
Definition wrapped (o : conn) (m : option conn) (y z : cnd) : Prop := (m = None /\ z = y) \/ exists k, z = Comp k (bop_of_conn o) [y] 0.

Lemma bop_same : forall o, bop_eqb (bop_of_conn o) (bop_of_conn o) = true.
Proof. now intros []. Qed.
Lemma bop_other : forall o p, o <> p -> bop_eqb (bop_of_conn o) (bop_of_conn p) = false.
Proof. intros [] [] N; auto; now destruct N. Qed.
Lemma put_in : forall ki same cs o m y, outer_is m y -> m <> Some o -> same = true \/ m <> None ->
  exists y', wrapped o m y y' /\ add_conditions ki same cs (bop_of_conn o) y = Some (cs ++ [y']).
Proof.
  intros ki same cs o [p|] y H N Sm; cbn [outer_is] in H.
  - destruct H as (k & a & b & l & n & ->). exists (Comp ki (bop_of_conn o) [Comp k (bop_of_conn p) (a :: b :: l) n] 0). split; [right; now eexists|].
    unfold add_conditions, has_op. cbn [compound_conditions compound_op]. rewrite bop_other by congruence. now rewrite andb_false_r.
  - exists y. split; [now left|]. destruct Sm as [->|X]; [|now destruct X]. now destruct y.
Qed.
Lemma no_error : forall m x, outer_is m x -> get_error x = None /\ x <> Nil.
Proof. intros [o|] x H; [destruct H as (k & a & b & l & n & ->)|]; [now split|destruct x; now destruct H]. Qed.
Lemma created : forall ks o m n x y, outer_is m x -> outer_is n y -> m <> Some o -> n <> Some o ->
  exists x' y', wrapped o m x x' /\ wrapped o n y y' /\ create ks x (bop_of_conn o) y = Comp (ks 0) (bop_of_conn o) [x'; y'] 2.
Proof.
  intros ks o m n x y Hx Hy Nm Nn. destruct (put_in (ks 1) true [] o m x Hx Nm) as (x' & Wx & Qx); [now left|].
  destruct (put_in (ks 2) true [x'] o n y Hy Nn) as (y' & Wy & Qy); [now left|].
  exists x', y'. split; [assumption|]. split; [assumption|].
  assert (R : create ks x (bop_of_conn o) y = (let cs := added (ks 2) (added (ks 1) [] (bop_of_conn o) x) (bop_of_conn o) y in Comp (ks 0) (bop_of_conn o) cs (length cs))).
  { destruct (no_error m x Hx) as [Ex Zx], (no_error n y Hy) as [Ey Zy]. unfold create. rewrite Ex, Ey. destruct x; try congruence; destruct y; congruence. }
  rewrite R. unfold added. rewrite Qx. cbn [app]. rewrite Qy. reflexivity.
Qed.
Lemma joined_step : forall ks o m n x y z, outer_is m x -> outer_is n y -> joinable o m n -> condition_chain ks (bop_of_conn o) x y = Val z ->
  exists y', wrapped o n y y'
    /\ ((m = Some o /\ exists k a b l i, x = Comp k (bop_of_conn o) (a :: b :: l) i /\ z = Comp k (bop_of_conn o) (a :: b :: l ++ [y']) i)
        \/ (m <> Some o /\ exists x', wrapped o m x x' /\ z = Comp (ks 0) (bop_of_conn o) [x'; y'] 2)).
Proof.
  intros ks o m n x y z Hx Hy [Nn J] C. destruct m as [p|].
  - pose proof Hx as Hx'. destruct Hx as (k & a & b & l & i & ->). cbn [condition_chain add] in C.
    assert (D : p = o \/ p <> o) by (destruct p, o; auto; right; discriminate). destruct D as [->|D].
    + rewrite bop_same in C. destruct (put_in (ks 3) true (a :: b :: l) o n y Hy Nn) as (y' & Wy & Qy); [now left|]. rewrite Qy in C. injection C as <-.
      exists y'. split; [assumption|]. left. split; [reflexivity|]. exists k, a, b, l, i. split; reflexivity.
    + rewrite bop_other in C by assumption. destruct J as [J|[J|J]]; [discriminate|congruence|]. subst n.
      destruct (created ks o (Some p) None _ y Hx' Hy) as (x' & y' & Wx & Wy & Q); [congruence|discriminate|].
      exists y'. split; [assumption|]. right. split; [congruence|]. exists x'. split; [assumption|].
      assert (X : add_conditions (ks 3) false (a :: b :: l) (bop_of_conn o) y = None) by (destruct y; now destruct Hy). rewrite X in C. congruence.
  - destruct (created ks o None n x y Hx Hy) as (x' & y' & Wx & Wy & Q); [discriminate|assumption|].
    exists y'. split; [assumption|]. right. split; [discriminate|]. exists x'. split; [assumption|]. destruct x; destruct Hx; cbn [condition_chain container_chain embedded] in C; congruence.
Qed.
Lemma same_chain : forall ks o m x y, outer_is m x -> container_chain ks o x y = condition_chain ks o x y.
Proof. intros ks o [p|] x y H; [destruct H as (k & a & b & l & n & ->); reflexivity|destruct x; now destruct H]. Qed.
Lemma step_outer : forall ks o m n x y z, outer_is m x -> outer_is n y -> joinable o m n -> condition_chain ks (bop_of_conn o) x y = Val z -> outer_is (Some o) z.
Proof.
  intros ks o m n x y z Hx Hy J C. destruct (joined_step ks o m n x y z Hx Hy J C) as (y' & _ & [(_ & k & a & b & l & i & _ & ->)|(_ & x' & _ & ->)]); do 5 eexists; reflexivity.
Qed.
Lemma asked_outer : forall m c x, condition_asked A m c x -> outer_is m x.
Proof.
  intros m c x H. induction H as [c e H|ks m c x z U H IH Q|ks o m n c d x y z U Hx IHx Hy IHy J Q]; [exact Logic.I| |].
  - unfold container_not, comparison_not in Q. injection Q as <-. destruct (no_error m x IH) as [-> N]. destruct x; try exact Logic.I. now destruct N.
  - rewrite (same_chain _ _ m) in Q by assumption. now apply (step_outer ks o m n x y).
Qed.

Lemma joined_op : forall o, binop_of (op_of (bop_of_conn o)) = Some (joined o).
Proof. now intros []. Qed.
Lemma joined_connective : forall o, SpecReading.connective (op_of (bop_of_conn o)) = true /\ joins (joined o) = true /\ left_of (joined o) <= 3 /\ right_of (joined o) <= 3.
Proof. intros []; (split; [reflexivity|]; split; [reflexivity|]; split; vm_compute; repeat constructor). Qed.

Lemma unwrapped : forall o m y y' t, wrapped o m y y' -> SpecReading.agrees E A t (cond_expr y') -> SpecReading.agrees E A t (cond_expr y).
Proof.
  intros o m y y' t [[_ ->]|[k ->]] G; [exact G|]. cbn [cond_expr map] in G. inversion G; subst; try no_chain; [discriminate|assumption|congruence].
Qed.
Lemma compound_read : forall k o a b l t, SpecReading.agrees E A t (ECompound k (op_of (bop_of_conn o)) (a :: b :: l)) ->
  (exists v, t = XVar v /\ A k v /\ again A k)
  \/ exists u us, SpecReading.agrees E A u a /\ Forall2 (SpecReading.agrees E A) us (b :: l) /\ t = fold_left (XBin (joined o)) us u.
Proof.
  intros k o a b l t G. inversion G; subst; try no_chain.
  - left. cbn in *. match goal with Q : Some _ = Some _ |- _ => injection Q as <- end. eexists. now split.
  - right. match goal with G : binop_of _ = Some _ |- _ => rewrite joined_op in G; injection G as <- end. eexists. eexists. now repeat split; try eassumption.
Qed.
Lemma step_read : forall ks o m n x y z t, outer_is m x -> outer_is n y -> joinable o m n -> condition_chain ks (bop_of_conn o) x y = Val z ->
  SpecReading.agrees E A t (cond_expr z) ->
  (exists v, t = XVar v /\ renamed A /\ (A (ks 0) v \/ (m = Some o /\ SpecReading.agrees E A t (cond_expr x))))
  \/ exists u v, t = XBin (joined o) u v /\ SpecReading.agrees E A u (cond_expr x) /\ SpecReading.agrees E A v (cond_expr y).
Proof.
  intros ks o m n x y z t Hx Hy J C G. destruct (joined_step ks o m n x y z Hx Hy J C) as (y' & Wy & [(-> & k & a & b & l & i & -> & ->)|(N & x' & Wx & ->)]); cbn [cond_expr map] in *.
  - rewrite map_app in G. cbn [map] in G. apply compound_read in G as [(v & -> & G1 & G2)|(u & us & Gu & Gs & ->)].
    + left. exists v. split; [reflexivity|]. split; [now exists k, v|]. right. split; [reflexivity|]. apply (ag_alias E A _ k v); [reflexivity|assumption|assumption].
    + right. change (cond_expr b :: map cond_expr l ++ [cond_expr y']) with ((cond_expr b :: map cond_expr l) ++ [cond_expr y']) in Gs.
      apply Forall2_app_inv_r in Gs as (us1 & us2 & Gs & Gl & ->). inversion Gl as [|v ? ? ? Gv Gn]; subst. inversion Gn; subst.
      exists (fold_left (XBin (joined o)) us1 u), v. split; [now rewrite fold_left_app|]. split; [|now apply (unwrapped o n y y')].
      apply (ag_compound E A k _ (joined o)); [apply joined_op|discriminate|assumption|assumption].
  - apply compound_read in G as [(v & -> & G1 & G2)|(u & us & Gu & Gs & ->)].
    + left. exists v. split; [reflexivity|]. split; [now exists (ks 0), v|now left].
    + inversion Gs as [|v ? ? ? Gv Gn]; subst. inversion Gn; subst. right. exists u, v. split; [reflexivity|]. split; [now apply (unwrapped o m x x')|now apply (unwrapped o n y y')].
Qed.

Lemma condition_only : forall m c x t, condition_asked A m c x -> SpecReading.agrees E A t (cond_expr x) -> t = c.
Proof.
  intros m c x t H. revert t. induction H as [c e H|ks m c x z U H IH Q|ks o m n c d x y z U Hx IHx Hy IHy J Q]; intros t G.
  - now apply (expr_only c e).
  - pose proof (asked_outer m c x H) as O. unfold container_not, comparison_not in Q. injection Q as <-. destruct (no_error m x O) as [Z N]. rewrite Z in G.
    assert (G0 : SpecReading.agrees E A t (EComparison (ks 0) None Not (Some (ENested (ks 1) (cond_expr x))))) by (destruct x; try exact G; now destruct N). clear G.
    inversion G0 as [? k a Q Ga| | | | | | | | | | | | | | |? ? t' G'| | | | | | | | | | | | | | | | | | | | | |]; subst; try no_chain.
    + cbn in Q. injection Q as <-. destruct (U _ _ Ga).
    + f_equal. inversion G' as [? k a Q Ga| | | | | | | | | | | | | | | | | |? ? ? G''| | | | | | | | | | | | | | | | | | |]; subst; try no_chain.
      * cbn in Q. injection Q as <-. destruct (U _ _ Ga).
      * now apply IH.
  - pose proof (asked_outer m c x Hx) as Ox. pose proof (asked_outer n d y Hy) as Oy. rewrite (same_chain _ _ m) in Q by assumption.
    destruct (step_read ks o m n x y z t Ox Oy J Q G) as [(v & -> & _ & [X|[-> X]])|(u & v & -> & Gu & Gv)].
    + destruct (U _ _ X).
    + exfalso. pose proof (IHx _ X) as R. clear - R Hx. inversion Hx; subst. discriminate.
    + now rewrite (IHx _ Gu), (IHy _ Gv).
Qed.
Lemma more_only : forall m c l t, more_asked A m c l t -> forall x z u, outer_is m x -> (forall u, SpecReading.agrees E A u (cond_expr x) -> near_condition (renamed A) u c) ->
  chained x l z -> SpecReading.agrees E A u (cond_expr z) -> near_condition (renamed A) u t /\ ~ no_condition z.
Proof.
  intros m c l t H. induction H as [m c|m c o n d y l t Hy J H IH]; intros x z u Ox N C G; inversion C as [|ks o' x' y' z1 l' Q ? C']; subst.
  - split; [now apply N|]. intros [->|(k & o & i & ->)]; destruct m as [p|]; try exact Ox; destruct Ox as (k' & a & b & l & j & R); discriminate.
  - pose proof (asked_outer n d y Hy) as Oy. apply (IH z1 z u); [now apply (step_outer ks o m n x y)| |assumption|assumption].
    clear u G. intros u G. destruct (step_read ks o m n x y z1 u Ox Oy J Q G) as [(v & -> & R & _)|(a & b & -> & Ga & Gb)].
    + apply nc_alias. split; [exact R|now exists v].
    + rewrite (condition_only n d y b Hy Gb). apply nc_join. now apply N.
Qed.
Lemma chained_some : forall m c l t, more_asked A m c l t -> forall x z, outer_is m x -> chained x l z -> ~ no_condition z.
Proof.
  intros m c l t H. induction H as [m c|m c o n d y l t Hy J H IH]; intros x z Ox C; inversion C as [|ks o' x' y' z1 l' Q ? C']; subst.
  - intros [->|(k & o & i & ->)]; destruct m as [p|]; try exact Ox; destruct Ox as (k' & a & b & l & j & R); discriminate.
  - pose proof (asked_outer n d y Hy) as Oy. apply (IH z1 z); [now apply (step_outer ks o m n x y)|assumption].
Qed.
Lemma where_only : forall w t u, where_asked A w t -> asks_where E A w u -> near_where (renamed A) u t.
Proof.
  intros w t u H. destruct H as [|m x c l t H M]; cbn [asks_where]; [now intros ->|]. intros (z & C & Q). pose proof (asked_outer m c x H) as O.
  destruct Q as [[Q _]|[_ (u' & -> & Q)]]; [now destruct (chained_some m c l t M x z O C)|]. cbn [near_where].
  apply (more_only m c l t M x z u' O); [|assumption|assumption]. intros v G. rewrite (condition_only m c x v H G). apply nc_same.
Qed.

Lemma asked_not_joined : forall c e n, expr_asked A c e -> drawable_condition E n c -> writable E n c.
Proof.
  intros c e n H. apply expr_denotes in H. destruct H; cbn [drawable_condition]; auto; try now intros [].
  - unfold integer. destruct (z <? 0)%Z; cbn; auto.
  - destruct o; cbn [joins computed]; auto.
  - destruct o; cbn [joins compared]; auto.
Qed.
Lemma joined_drawable : forall o n c d, drawable_condition E n (XBin (joined o) c d) -> drawable_condition E (left_of (joined o)) c /\ drawable_condition E (right_of (joined o)) d.
Proof. intros o n c d H. cbn [drawable_condition] in H. now rewrite (proj1 (proj2 (joined_connective o))) in H. Qed.
(** What may follow a connective: nothing that another one joins. *)
Definition follows (o : conn) (e : expr) : Prop := match e with ECompound _ o' _ => o' = op_of (bop_of_conn o) | _ => True end.
Definition readable_below (n : nat) (x : cnd) : Prop := SpecReading.readable E A (At n) (cond_expr x).
Lemma wrapped_readable : forall o m y y' n, wrapped o m y y' -> readable_below n y -> readable_below n y'.
Proof. intros o m y y' n [[_ ->]|[k ->]] H; [exact H|]. now apply rd_compound_one. Qed.
Lemma wrapped_follows : forall o m y y', (m = None -> follows o (cond_expr y)) -> wrapped o m y y' -> follows o (cond_expr y').
Proof. intros o m y y' H [[-> ->]|[k ->]]; [now apply H|reflexivity]. Qed.
Lemma single_follows : forall c x o, condition_asked A None c x -> follows o (cond_expr x).
Proof.
  intros c x o H. inversion H; subst.
  - match goal with G : expr_asked _ _ _ |- _ => apply expr_denotes in G; now destruct G end.
  - pose proof (asked_outer None _ x H) as O. destruct x; try now destruct O. match goal with Q : container_not _ _ = Val _ |- _ => unfold container_not, comparison_not in Q; injection Q as Q end.
    destruct (get_error x0); [discriminate|]. destruct x0; discriminate.
Qed.
Lemma compound_parts : forall n k o a b l, SpecReading.readable E A (At n) (ECompound k (op_of (bop_of_conn o)) (a :: b :: l)) ->
  SpecReading.readable E A (At (left_of (joined o))) a /\ Forall (SpecReading.readable E A (At (right_of (joined o)))) (b :: l) /\ Forall (follows o) (b :: l).
Proof.
  intros n k o a b l H. inversion H; subst; try (match goal with G : binop_of _ = Some _ |- _ => rewrite joined_op in G; injection G as <- end); now repeat split.
Qed.
Lemma step_readable : forall ks o m n x y z i, outer_is m x -> outer_is n y -> joinable o m n -> condition_chain ks (bop_of_conn o) x y = Val z ->
  (n = None -> follows o (cond_expr y)) -> readable_below (left_of (joined o)) x -> readable_below (right_of (joined o)) y -> readable_below i z.
Proof.
  intros ks o m n x y z i Hx Hy J C F Rx Ry. destruct (joined_connective o) as (J1 & J2 & J3 & J4).
  destruct (joined_step ks o m n x y z Hx Hy J C) as (y' & Wy & [(-> & k & a & b & l & j & -> & ->)|(N & x' & Wx & ->)]); unfold readable_below in *; cbn [cond_expr map] in *.
  - apply compound_parts in Rx as (Ra & Rl & Fl). inversion Rl as [|? ? Rb Rl']; subst. inversion Fl as [|? ? Fb Fl']; subst.
    rewrite map_app. cbn [map]. apply (rd_compound E A i k _ (joined o)); [apply joined_op|assumption|discriminate|assumption| |].
    + constructor; [assumption|]. apply Forall_app. split; [assumption|]. constructor; [now apply (wrapped_readable o n y)|constructor].
    + constructor; [assumption|]. apply Forall_app. split; [assumption|]. constructor; [now apply (wrapped_follows o n y)|constructor].
  - apply (rd_compound E A i (ks 0) _ (joined o)); [apply joined_op|assumption|discriminate|now apply (wrapped_readable o m x)| |].
    + constructor; [now apply (wrapped_readable o n y)|constructor].
    + constructor; [now apply (wrapped_follows o n y)|constructor].
Qed.
Lemma condition_back : forall m c x n, n <= 3 -> condition_asked A m c x -> drawable_condition E n c ->
  SpecReading.readable E A (At n) (cond_expr x) /\ in_place_condition E A x.
Proof.
  intros m c x i L H. revert i L. induction H as [c e H|ks m c x z U H IH Q|ks o m n c d x y z U Hx IHx Hy IHy J Q]; intros i L W.
  - apply (asked_not_joined c e i H) in W. split; [now apply (expr_back c)|]. split; [reflexivity|]. now apply (expr_placed c e i).
  - pose proof (asked_outer m c x H) as O. cbn [drawable_condition] in W. destruct (IH 0) as [R [S P]]; [lia|assumption|].
    unfold container_not, comparison_not in Q. injection Q as <-. destruct (no_error m x O) as [Z N]. rewrite Z.
    assert (V : match x with Nil => Bad "comparison: expression must be not nil" | _ => Neg (ks 0) (ks 1) x end = Neg (ks 0) (ks 1) x) by (destruct x; try reflexivity; now destruct N).
    rewrite V. cbn [cond_expr]. split.
    + apply rd_not; [assumption|]. apply rd_nested; [lia|]. exact R.
    + split; [cbn [sound_cnd]; exact S|]. constructor; [right; left; split; reflexivity|]. constructor; [|constructor]. constructor; [exact Logic.I|]. constructor; [|constructor]. exact P.
  - pose proof (asked_outer m c x Hx) as Ox. pose proof (asked_outer n d y Hy) as Oy. rewrite (same_chain _ _ m) in Q by assumption.
    apply joined_drawable in W as [W1 W2]. destruct (joined_connective o) as (J1 & J2 & J3 & J4).
    destruct (IHx _ J3 W1) as [Rx [Sx Px]]. destruct (IHy _ J4 W2) as [Ry [Sy Py]]. split.
    + apply (step_readable ks o m n x y z i Ox Oy J Q); [intros ->; now apply (single_follows d)|assumption|assumption].
    + split; [now apply (sound_chain ks (bop_of_conn o) x y z)|]. now apply (placed_chain E A ks (bop_of_conn o) x y z).
Qed.
Lemma more_drawable : forall m c l t, more_asked A m c l t -> forall n, n <= 3 -> drawable_condition E n t -> exists i, i <= 3 /\ drawable_condition E i c.
Proof.
  intros m c l t H. induction H as [m c|m c o n d y l t Hy J H IH]; intros i L W; [now exists i|]. destruct (IH i L W) as (j & Lj & X).
  apply joined_drawable in X as [X _]. exists (left_of (joined o)). split; [apply joined_connective|assumption].
Qed.
Lemma more_back : forall m c l t, more_asked A m c l t -> forall x n, n <= 3 -> drawable_condition E n t -> outer_is m x ->
  (forall i, i <= 3 -> drawable_condition E i c -> readable_below i x) ->
  Forall (in_place_condition E A) (map snd l) /\ forall z, chained x l z -> readable_below n z.
Proof.
  intros m c l t H. induction H as [m c|m c o n d y l t Hy J H IH]; intros x i L W Ox R.
  - split; [constructor|]. intros z C. inversion C; subst. now apply R.
  - pose proof (asked_outer n d y Hy) as Oy. destruct (joined_connective o) as (J1 & J2 & J3 & J4).
    destruct (more_drawable _ _ _ _ H i L W) as (j & Lj & X). apply joined_drawable in X as [X1 X2]. destruct (condition_back n d y _ J4 Hy X2) as [Ry Py].
    assert (ST : forall ks z, condition_chain ks (bop_of_conn o) x y = Val z -> forall i, readable_below i z).
    { intros ks z Q i'. apply (step_readable ks o m n x y z i' Ox Oy J Q); [intros ->; now apply (single_follows d)|now apply R|exact Ry]. }
    split.
    + cbn [map snd]. constructor; [exact Py|]. 
      destruct (condition_chain (fun _ => "") (bop_of_conn o) x y) as [z|] eqn:Q.
      * apply (IH z i L W); [now apply (step_outer (fun _ => "") o m n x y)|]. intros i' _ _. now apply (ST _ z Q).
      * exfalso. clear - Ox Q. destruct m as [p|]; [destruct Ox as (k & a & b & l' & n' & ->); discriminate|destruct x; now destruct Ox].
    + intros z C. inversion C as [|ks o' x' y' z1 l' Q ? C']; subst. apply (IH z1 i L W); [now apply (step_outer ks o m n x y)| |assumption].
      intros i' _ _. now apply (ST ks z1 Q).
Qed.
Lemma where_back : forall w t, where_asked A w t -> drawable_where E t -> readable_conditions E A w /\ in_place_conditions E A w.
Proof.
  intros w t H W. destruct H as [|m x c l t H M]; [split; exact Logic.I|]; cbn [drawable_where] in W.
  destruct (more_back m c l t M x 0) as [P R]; [lia|assumption|now apply (asked_outer m c)|intros i L X; now apply (condition_back m c x i L H)|].
  destruct (more_drawable m c l t M 0) as (i & L & X); [lia|assumption|]. destruct (condition_back m c x i L H X) as [_ Px]. split.
  - intros z C _. now apply R.
  - cbn [in_place_conditions]. now constructor.
Qed.

(** ** SET and REMOVE *)

Lemma name_only : forall x t, asks_name E A x t -> t = XVar x \/ by_alias (renamed A) t.
Proof.
  intros x t [k G]. inversion G; subst; try no_chain; [|now left]. right. split; [eexists; eexists; split; eassumption|eexists; reflexivity].
Qed.
Lemma labels_only : forall x ls t, asks_name E A x t -> near_labels (renamed A) (XLabels t ls) (XLabels (XVar x) ls).
Proof. intros x ls t G. apply name_only in G as [->|B]; [now left|]. right. exists t, (XVar x), ls. auto. Qed.
Lemma set_only : forall i s t, set_asked A i s -> asks_set E A i t -> near_set (renamed A) t s.
Proof.
  intros i s t H. destruct H as [a b u v Hu Hv|k a b u v U Hu Hv|k a b u v U Hu Hv|x ls]; cbn [asks_set].
  - destruct t; try now intros []. intros [Q1 Q2]. left. f_equal; [now apply (expr_only u a)|now apply (expr_only v b)].
  - intros G. left. inversion G; subst; [f_equal; [now apply (expr_only u a)|now apply (expr_only v b)]|]. match goal with L : labelling _ |- _ => destruct L; discriminate end.
  - intros G. left. inversion G; subst; [f_equal; [now apply (expr_only u a)|now apply (expr_only v b)]|]. match goal with L : labelling _ |- _ => destruct L; discriminate end.
  - destruct t as [| |t]; try now intros []. destruct t; try now intros []. intros [Q ->]. right. eexists; eexists. split; [reflexivity|]. split; [reflexivity|]. now apply labels_only.
Qed.
Lemma sets_only : forall l m t, Forall2 (set_asked A) l m -> Forall2 (asks_set E A) l t -> Forall2 (near_set (renamed A)) t m.
Proof. intros l m t H. revert t. induction H as [|i s l m H Hs IH]; intros t F; inversion F; subst; constructor; [now apply (set_only i)|now apply IH]. Qed.
Lemma actions_only : forall l m t, Forall2 (action_asked A) l m -> Forall2 (asks_action E A) l t ->
  Forall2 (fun a b => fst a = fst b /\ Forall2 (near_set (renamed A)) (snd a) (snd b)) t m.
Proof.
  intros l m t H. revert t. induction H as [|[b1 i] [b2 s] l m [Q H] Hs IH]; intros t F; inversion F as [|? [b3 u] ? ? [Q' X]]; subst; constructor; [|now apply IH].
  cbn in *. subst. split; [reflexivity|]. now apply (sets_only i).
Qed.
Lemma removal_only : forall i s t, removal_asked A i s -> asks_removal E A i t -> near_labels (renamed A) t s.
Proof.
  intros i s t H. destruct H as [c x e H|x ls]; cbn [asks_removal].
  - intros G. left. inversion G; subst; [now apply (expr_only (XProp c x) e)|]. apply expr_denotes in H. inversion H.
  - destruct t; try now intros []. intros [Q ->]. now apply labels_only.
Qed.
Lemma removals_only : forall l m t, Forall2 (removal_asked A) l m -> Forall2 (asks_removal E A) l t -> Forall2 (near_labels (renamed A)) t m.
Proof. intros l m t H. revert t. induction H as [|i s l m H Hs IH]; intros t F; inversion F; subst; constructor; [now apply (removal_only i)|now apply IH]. Qed.

Lemma set_back : forall i s, set_asked A i s -> drawable_set E s -> readable_setting E A i /\ in_place_item E A i.
Proof.
  intros i s H W. destruct H as [a b t u Ht Hu|k a b t u U Ht Hu|k a b t u U Ht Hu|x ls].
  - destruct W as [W1 W2]. split; split; [now apply (expr_back t)|now apply (expr_back u)|now apply (expr_placed t a 10)|now apply (expr_placed u b 0)].
  - destruct W as [W1 W2]. split; [apply rs_assign; [assumption|now apply (expr_back t)|now apply (expr_back u)]|].
    constructor; [now left|]. constructor; [now apply (expr_placed t a 10)|]. constructor; [now apply (expr_placed u b 0)|constructor].
  - destruct W as [W1 W2]. split; [apply rs_mutate; [assumption|now apply (expr_back t)|now apply (expr_back u)]|].
    constructor; [now left|]. constructor; [now apply (expr_placed t a 10)|]. constructor; [now apply (expr_placed u b 0)|constructor].
  - split; [exact W|exact Logic.I].
Qed.
Lemma sets_back : forall l m, Forall2 (set_asked A) l m -> Forall (drawable_set E) m -> Forall (readable_setting E A) l /\ Forall (in_place_item E A) l.
Proof.
  intros l m H. induction H as [|i s l m H Hs IH]; intros F; [split; constructor|]. inversion F; subst. destruct IH; [assumption|].
  destruct (set_back i s); auto.
Qed.
Lemma removal_back : forall i s, removal_asked A i s -> drawable_removal E s -> readable_removing E A i /\ in_place_item E A i.
Proof.
  intros i s H W. destruct H as [c x e H|x ls].
  - split; [apply rr_plain; now apply (expr_back (XProp c x))|now apply (expr_placed (XProp c x) e 10)].
  - split; [exact W|exact Logic.I].
Qed.
Lemma removals_back : forall l m, Forall2 (removal_asked A) l m -> Forall (drawable_removal E) m -> Forall (readable_removing E A) l /\ Forall (in_place_item E A) l.
Proof.
  intros l m H. induction H as [|i s l m H Hs IH]; intros F; [split; constructor|]. inversion F; subst. destruct IH; [assumption|].
  destruct (removal_back i s); auto.
Qed.

(** ** Items, sorting and bounds *)

Lemma body_only : forall d es s b d' its order skip limit, body_asked A d es s b -> d' = d -> Forall2 (agrees_item E A) its es -> asks_sorting E A s order skip limit ->
  near_body (renamed A) (CBody d' its order skip limit) b.
Proof.
  intros d es s b d' its order skip limit (cs & o & -> & H & Ho) -> F (Fo & -> & ->). split; [reflexivity|]. split; [now apply (items_only cs es)|]. split; [|auto].
  revert order Fo. induction Ho as [|[c x] [e y] o l [H1 H2] Ho IH]; intros order Fo; inversion Fo as [|? [c' x'] ? ? [G1 G2]]; subst; [reflexivity|].
  cbn in *. subst. f_equal; [|now apply IH]. f_equal. now apply (expr_only c e).
Qed.
Lemma body_back : forall d es s b, body_asked A d es s b -> drawable_body E b ->
  (es <> [] /\ Forall (readable_item E A) es /\ SpecCalled.readable_sorting E A s) /\ (Forall (in_place E A) es /\ Forall (fun i => in_place E A (fst i)) (s_items s)).
Proof.
  intros d es s b (cs & o & -> & H & Ho) (N & W & Wo). destruct (items_back cs es H W) as [R P].
  assert (S : Forall (fun i => SpecReading.readable E A (At 0) (fst i)) (s_items s) /\ Forall (fun i => in_place E A (fst i)) (s_items s)).
  { clear - Ho Wo NS NK. induction Ho as [|[c x] [e y] o l [H1 H2] Ho IH]; [split; constructor|]. inversion Wo; subst. cbn in *. destruct IH; [assumption|].
    split; constructor; auto; [now apply (expr_back c)|now apply (expr_placed c e 0)]. }
  split; split; try apply S; auto; [intros ->; inversion H; subst; now apply N|]. split; [exact R|apply S].
Qed.

(** ** Patterns *)

(** The named nodes of the patterns of a phrase. *)
Definition phrase_patterns (ph : phrase) : list expr := match ph with PMatch _ es _ | PCreate es | PMerge es _ => es | _ => [] end.
Definition phrase_again (ph : phrase) : Prop := Exists (node_again E (again A)) (phrase_patterns ph).

Lemma parts_only : forall cs es ts (P : Prop), Forall2 (pattern_asked A) cs es -> (forall e, List.In e es -> node_again E (again A) e -> P) ->
  Forall2 (agrees_part E A) ts es -> Forall2 (near_part P) ts cs.
Proof.
  intros cs es ts P H I. revert ts. induction H as [|c e cs es H Hs IH]; intros ts F; inversion F as [|t e' ts' es' Ft F']; subst; [constructor|]. constructor.
  - destruct (part_read A NK E NS c _ H) as (e' & Q & _ & X & _). injection Q as <-. specialize (X t Ft).
    destruct t as [p f n h], c as [p' f' n' h']. destruct X as (X1 & X2 & X3). split; [exact X1|]. split; [exact X2|]. revert X3. apply near_more.
    apply I. now left.
  - apply IH; [|assumption]. intros x J. apply I. now right.
Qed.
Lemma parts_back : forall cs es, Forall2 (pattern_asked A) cs es -> Forall (drawable E) cs -> Forall (SpecReading.readable E A PartP) es /\ Forall (in_place E A) es.
Proof.
  intros cs es H. induction H as [|c e cs es H Hs IH]; intros F; [split; constructor|]. inversion F; subst. destruct IH; [assumption|].
  destruct (part_read A NK E NS c _ H) as (e' & Q & _ & _ & X). injection Q as <-. destruct X; [assumption|]. split; constructor; auto.
Qed.

(** ** Clauses *)

Theorem clause_only : forall ph c t, clause_asked A ph c -> drawable_clause E c -> asks E A ph t -> near_clause (phrase_again ph) (renamed A) t c.
Proof.
  assert (I : forall ph e, List.In e (phrase_patterns ph) -> node_again E (again A) e -> phrase_again ph) by (intros ph e I X; apply Exists_exists; eauto).
  intros ph c t H. destruct H as [o es cs w u H Hw|es cs H|es cs l m H Hm|d es cs H|l m H|l m H|c e x H|k dk e a x|n es cs ys its w u H Hy Hw|d es s w b u H Hw|d es s b H];
    intros D; destruct t; cbn [asks]; try now intros [].
  - intros (-> & F & G). split; [reflexivity|]. split; [|now apply (where_only w)]. apply (parts_only cs es); auto. intros e J. now apply (I (PMatch o es w)).
  - intros F. apply (parts_only cs es); auto. intros e J. now apply (I (PCreate es)).
  - intros (F & Ha). split; [|now apply (actions_only l)]. apply (parts_only cs es); auto. intros e J. now apply (I (PMerge es l)).
  - intros (-> & F). cbn. f_equal. now apply (exprs_only cs es).
  - intros F. now apply (sets_only l).
  - intros F. now apply (removals_only l).
  - intros (-> & F). split; [reflexivity|]. left. pose proof (expr_denotes c e H) as Dn. apply (expr_only c e); [assumption|]. destruct e; try exact F. inversion Dn.
  - intros (-> & F). split; [reflexivity|]. now apply name_only.
  - intros (T & (ts & -> & F) & Y & G). cbn [String.concat] in T. destruct D as (Dn & _). inversion Dn; subst. split; [now apply (spelled E NS)|].
    split; [f_equal; now apply (exprs_only cs es)|]. split; [|now apply (where_only w)].
    destruct Hy as [|i y its ys Hi Hy]; [now subst|]. destruct Y as (ts' & -> & Y). apply (items_only (i :: its) (y :: ys)); [now constructor|assumption].
  - destruct b0. intros (Q & F & S & W). split; [|now apply (where_only w)]. now apply (body_only d es s b).
  - destruct b0. intros (Q & F & S). now apply (body_only d es s b).
Qed.

Lemma none_left : forall X Y (R : X -> Y -> Prop) l m, Forall2 R l m -> l <> [] -> m <> [].
Proof. intros X Y R l m F N ->. inversion F; subst. now apply N. Qed.
Lemma none_right : forall X Y (R : X -> Y -> Prop) l m, Forall2 R l m -> m <> [] -> l <> [].
Proof. intros X Y R l m F N ->. inversion F; subst. now apply N. Qed.

Theorem clause_back : forall ph c, clause_asked A ph c -> drawable_clause E c -> readable_phrase E A ph /\ in_place_phrase E A ph.
Proof.
  intros ph c H. destruct H as [o es cs w t H Hw|es cs H|es cs l m H Hm|d es cs H|l m H|l m H|c e x H|k dk e a x|n es cs ys its w t H Hy Hw|d es s w b t H Hw|d es s b H];
    cbn [drawable_clause readable_phrase in_place_phrase].
  - intros (N & W & Wt). destruct (parts_back cs es H W), (where_back w t Hw Wt). repeat split; auto. now apply (none_left _ _ _ _ _ H).
  - intros (N & W). destruct (parts_back cs es H W). repeat split; auto. now apply (none_left _ _ _ _ _ H).
  - intros (N & W & Wm). destruct (parts_back cs es H W).
    assert (S : Forall (fun a : bool * list item => snd a <> [] /\ Forall (readable_setting E A) (snd a)) l /\ Forall (fun a : bool * list item => Forall (in_place_item E A) (snd a)) l).
    { clear - Hm Wm NS NK. induction Hm as [|[b1 i] [b2 s] l m [Q H] Hm IH]; [split; constructor|]. inversion Wm as [|? ? [Wn Ws] Wr]; subst. cbn in *. destruct IH; [assumption|].
      destruct (sets_back i s H Ws). split; constructor; auto. split; [now apply (none_right _ _ _ _ _ H)|assumption]. }
    destruct S. repeat split; auto. now apply (none_left _ _ _ _ _ H).
  - intros (N & W). destruct (exprs_back cs es 0 H W). repeat split; auto. now apply (none_left _ _ _ _ _ H).
  - intros (N & W). destruct (sets_back l m H W). repeat split; auto. now apply (none_right _ _ _ _ _ H).
  - intros (N & W). destruct (removals_back l m H W). repeat split; auto. now apply (none_right _ _ _ _ _ H).
  - intros (W & Wx). pose proof (expr_denotes c e H) as D. pose proof (expr_back c e 0 H W) as R. pose proof (expr_placed c e 0 H W) as P.
    assert (V : SpecTokens.self_contained E x) by now apply word_contained.
    destruct e; try (split; split; assumption). inversion D.
  - intros (W & Wx). assert (V : SpecTokens.self_contained E x) by now apply word_contained. split; split; try exact Logic.I; assumption.
  - intros (Wn & W & Wy & Wt). inversion Wn as [|? ? Hn _]; subst. destruct (exprs_back cs es 0 H W), (where_back w t Hw Wt).
    assert (X : Forall (readable_item E A) ys /\ Forall (in_place E A) ys).
    { apply (items_back its ys Hy). destruct its; [constructor|exact Wy]. }
    destruct X. split.
    + split; [|now repeat split]. exists n, n, []. split; [reflexivity|]. exact (soft_tokens E _ _ (word_soft E NS n Hn)).
    + split; [|now repeat split]. exists n. split; [reflexivity|]. now apply word_contained.
  - intros (W & Wt). destruct (body_back d es s b H W) as [(R1 & R2 & R3) (R4 & R5)], (where_back w t Hw Wt). repeat split; auto.
  - intros W. destruct (body_back d es s b H W) as [(R1 & R2 & R3) (R4 & R5)]. repeat split; auto.
Qed.
End Clauses.
