(** Headline theorems: C69. *)

From Coq Require Import Ascii String List ZArith Bool Lia.
From Verif Require Import GoStr Escape Num VTree WellKeyed SpecLex SpecNum SpecSpace SpecTokens EscapeProofs GoStrProofs Ast SpecDoc
  SpecPrint SpecShape SpecOutline SpecGrammar SpecReading GoVal Maps Patterns Cond Queries Builder SpecBuilder SpecPhrases SpecCalled PropertiesText PropertiesTokens
  TokenTexts SpecCond SpecTruth TruthProofs PropertiesTruth PropertiesExpr PropertiesBuilder PropertiesGrammar PropertiesCalled Exprs Functions SpecCalls FunctionProofs SpecAsked AskedProofs.
Import ListNotations.
Open Scope string_scope.
Open Scope nat_scope.
Open Scope list_scope.

(** The values that the calls return are set and without errors, and a Cypher
    reader reads them as what was asked for, and as nothing else. *)
Theorem C69_expressions_partial : forall E (A : register) c v n,
  no_space_in_names E -> unaliased A "" -> asked A c v -> writable E n c ->
  exists e i, v = Elem (Good e) i /\ SpecReading.readable E A (At n) e /\ forall t, SpecReading.agrees E A t e <-> t = c.
Proof.
  intros E A c v n NS NK H W. destruct (proj1 (asked_made A NK) c v H) as (e & i & -> & D). exists e, i. split; [reflexivity|].
  split; [exact (proj1 (denotes_back A NK E NS) c e D n W)|exact (proj1 (denotes_only A E NS) c e D)].
Qed.
Print Assumptions C69_expressions_partial.

(** ** Statements that return them *)

Definition no_aliases (k : key) (a : string) : Prop := False.
Definition nothing_aliased : register := Register no_aliases (fun _ => False).
Lemma none_aliased : forall k, unaliased no_aliases k.
Proof. intros k a []. Qed.

Definition all_good (vs : list value) (es : list expr) : Prop := Forall2 (fun v e => exists i, v = Elem (Good e) i) vs es.
Definition returning_all (k ke : key) (d : bool) (es : list expr) : query :=
  QSingle [] (Some (QReturn k d (Body (EExprs ke es) None None None))).
Definition asked_to_return (d : bool) (cs : list cx) : cquery :=
  CQuery [CReturn (CBody d (map (fun c => CItem c None) cs) [] None None)] [].

Lemma same_goods : forall vs es es', all_good vs es -> all_good vs es' -> es = es'.
Proof.
  intros vs es es' G. revert es'. induction G as [|v e vs' es0 [i Q] G IH]; intros es' G'; inversion G' as [|? e' ? ? [j Q'] G'']; subst; [reflexivity|].
  f_equal; [congruence|now apply IH].
Qed.

Lemma over_all : forall (R : cx -> expr -> Prop) (P : cx -> Prop) (Q : expr -> Prop) cs es,
  (forall c e, R c e -> P c -> Q e) -> Forall2 R cs es -> Forall P cs -> Forall Q es.
Proof. intros R P Q cs es X F. induction F as [|c e cs' es' Fe F IH]; intros W; inversion W; subst; constructor; eauto. Qed.

Lemma items_plain : forall E A its es, Forall silent_on_aliases es -> Forall2 (agrees_item E A) its es ->
  exists ts, its = map (fun c => CItem c None) ts /\ Forall2 (SpecReading.agrees E A) ts es.
Proof.
  intros E A its es S Mi. induction Mi as [|it e its' es' Me Mi IH]; [exists []; split; [reflexivity|constructor]|].
  inversion S as [|? ? Se Ss]; subst. destruct (IH Ss) as (ts & -> & F). inversion Me; subst.
  - eexists (_ :: ts). split; [reflexivity|]. now constructor.
  - exfalso. eapply Se. constructor.
  - exfalso. eapply Se. constructor.
Qed.

Lemma return_readable : forall E k ke d cs es, no_space_in_names E -> denotes_all nothing_aliased cs es -> Forall (writable E 0) cs -> cs <> [] ->
  readable_statement E (returning_all k ke d es) /\ forall c, SpecReading.means E c (returning_all k ke d es) -> c = asked_to_return d cs.
Proof.
  intros E k ke d cs es NS D W N.
  assert (G : forall x a, ~ gives_alias x a (returning_all k ke d es)).
  { intros x a H. inversion H as [? e I|? s I H']; subst; [destruct I|]. cbn in I. destruct I as [<-|[]].
    inversion H' as [? e I J|? s I]; subst; [|destruct I]. cbn in I. destruct I as [<-|[]].
    pose proof (proj1 (proj2 (denotes_no_aliases nothing_aliased)) cs es D) as F. inversion J; subst. rewrite Forall_forall in F. now apply (F d0 H0 x a). }
  assert (X : forall A : register, (forall x a, ~ A x a) -> denotes_all A cs es).
  { intros A NA. clear - D NA. revert cs es D.
    assert (U : forall k, unaliased A k) by (intros k a H; now apply (NA k a)).
    apply (denotes_all_mind nothing_aliased (denotes A) (denotes_all A) (denotes_fields A) (denotes_if A) (denotes_where A)); intros; try (now constructor; auto).
    constructor; auto. unfold labels_free. apply Forall_forall. auto. }
  set (A := Register (fun x a => gives_alias x a (returning_all k ke d es)) (written_again (print_query E (returning_all k ke d es)))) in *.
  specialize (X A G).
  assert (U : forall x, unaliased A x) by (intros x a H; now apply (G x a)).
  assert (KF : forall x, ~ (exists a, A x a)) by (intros x [a H]; now apply (G x a)).
  assert (NE : es <> []) by (intros ->; inversion D; subst; now destruct N).
  split; [|].
  - split; [repeat split; auto; intros; apply KF|]. split; [intros x a H; now destruct (G x a)|]. split.
    + apply sq_single; [constructor|constructor|]. constructor; [|constructor]. apply sq_return. split; [|constructor].
      cbn [b_items]. constructor; [exact Logic.I|]. change (children (EExprs ke es)) with es.
      apply (over_all _ _ _ _ _ (fun c e (Fe : in_shape A E c e) => Fe 0) (proj1 (proj2 (denotes_shaped A E NS)) cs es X) W).
    + constructor. constructor. constructor; [|constructor]. apply rc_return; [apply U|]. split; [|repeat constructor].
      exists ke, es. split; [reflexivity|]. split; [apply U|]. split; [exact NE|].
      apply (over_all _ _ _ _ _ (fun c e (Fe : back A E c e) w => ri_plain E A e (Fe 0 w)) (proj1 (proj2 (denotes_back A (U "") E NS)) cs es X) W).
  - intros [l us] M. unfold SpecReading.means, agrees_statement in M. cbn [cq_first cq_others] in M. inversion M as [? ? Mc|]; subst. inversion Mc as [? ? ? Ml| |]; subst.
    cbn [app] in Ml. inversion Ml as [|c0 ? ? ? Mr Mn]; subst. inversion Mn; subst. inversion Mr as [| | | | | | | |? ? ? ? Mb| |]; subst.
    inversion Mb as [? ? ? ? ? ? its ol sl nl Mi Mo Ms Mm]; subst. inversion Mo; subst. inversion Ms; subst. inversion Mm; subst. unfold asked_to_return. do 4 f_equal.
    pose proof (proj1 (proj2 (denotes_only A E NS)) cs es X) as O.
    destruct (items_plain E A its es (proj1 (proj2 (denotes_no_aliases A)) cs es X) Mi) as (ts & -> & F). f_equal. now apply O.
Qed.

(** The text of a statement that returns what the calls made is read as the
    statement that returns what they ask for. *)
Theorem C69_text_partial : forall E k ke d cs vs,
  no_space_in_names E -> SpecTokens.self_contained E (e_guid E) -> asked_all no_aliases cs vs -> cs <> [] -> Forall (writable E 0) cs ->
  exists es, all_good vs es /\ is_statement E (statement_text E (returning_all k ke d es)) (asked_to_return d cs).
Proof.
  intros E k ke d cs vs NS G H N W. destruct (proj1 (proj2 (asked_made nothing_aliased (none_aliased ""))) cs vs H) as (es & Gs & D).
  exists es. split; [exact Gs|]. destruct (return_readable E k ke d cs es NS D W N) as [R M].
  destruct (C63_text_is_the_statement_partial E _ NS G R) as (c & S & Mc). now rewrite <- (M c Mc).
Qed.
Print Assumptions C69_text_partial.

(** The same of the text that the renderer writes. *)
Theorem C69_rendered_text_partial : forall (err : Type) E k ke d cs vs,
  no_space_in_names E -> SpecTokens.self_contained E (e_guid E) -> asked_all no_aliases cs vs -> cs <> [] -> Forall (writable E 0) cs ->
  exists es, all_good vs es
    /\ (well_keyed (to_vtq E (returning_all k ke d es)) = true -> well_quiet (to_vtq E (returning_all k ke d es)) = true ->
        is_statement E (fst (fst (render (err:=err) (SOk (to_vtq E (returning_all k ke d es))) new_renderer))) (asked_to_return d cs)).
Proof.
  intros err E k ke d cs vs NS G H N W. destruct (proj1 (proj2 (asked_made nothing_aliased (none_aliased ""))) cs vs H) as (es & Gs & D).
  exists es. split; [exact Gs|]. intros WK WQ. destruct (return_readable E k ke d cs es NS D W N) as [R M].
  destruct (C63_rendered_text_is_the_statement_partial err E _ NS G R WK WQ) as (c & S & Mc). now rewrite <- (M c Mc).
Qed.
Print Assumptions C69_rendered_text_partial.

(** ** In chains of builder calls

    Whatever the aliases given by the calls are: the clause that is read has the
    expressions asked for. *)
Theorem C69_clauses_partial : forall E (A : register) cs vs es, no_space_in_names E -> unaliased A "" -> asked_all A cs vs -> all_good vs es -> Forall (writable E 0) cs ->
  (forall d s c, asks E A (PReturn d es s) c -> exists order skip limit, c = CReturn (CBody d (map (fun t => CItem t None) cs) order skip limit) /\ asks_sorting E A s order skip limit)
  /\ (forall d s c, asks E A (PWith d es s None) c -> exists order skip limit, c = CWith (CBody d (map (fun t => CItem t None) cs) order skip limit) None /\ asks_sorting E A s order skip limit)
  /\ (forall d c, asks E A (PDelete d es) c -> c = CDelete d cs).
Proof.
  intros E A cs vs es NS NK H Gs W. destruct (proj1 (proj2 (asked_made A NK)) cs vs H) as (es' & Gs' & D).
  pose proof (same_goods vs es' es Gs' Gs) as ->. pose proof (proj1 (proj2 (denotes_only A E NS)) cs es D) as O.
  assert (I : forall its, Forall2 (agrees_item E A) its es -> its = map (fun t => CItem t None) cs).
  { intros its F. destruct (items_plain E A its es (proj1 (proj2 (denotes_no_aliases A)) cs es D) F) as (ts & -> & Fs). f_equal. now apply O. }
  split; [|split].
  - intros d s c Hc. destruct c; try destruct Hc. destruct b. destruct Hc as (-> & F & Srt). do 3 eexists. split; [|exact Srt]. now rewrite (I _ F).
  - intros d s c Hc. destruct c; try destruct Hc. destruct b. destruct Hc as (-> & F & Srt & Wh). cbn in Wh. subst. do 3 eexists. split; [|exact Srt]. now rewrite (I _ F).
  - intros d c Hc. destruct c; try destruct Hc. subst. f_equal. now apply O.
Qed.
Print Assumptions C69_clauses_partial.

Theorem C69_chains_partial : forall E Kp ks p i ph d es s cs vs,
  no_space_in_names E -> SpecTokens.self_contained E (e_guid E) ->
  shared_parts E (fun k => exists a, called p k a) -> (forall k a, called p k a -> variable a) ->
  compiles IStart p = Some i -> buildable i = true -> orderly p = true ->
  Forall (in_place_phrase E (called p)) (written p) -> Forall (readable_phrase E (called p)) ph ->
  SpecCalled.readable_sorting E (called p) s ->
  written p = ph ++ [PReturn d es s] -> asked_all (called p) cs vs -> all_good vs es -> cs <> [] -> Forall (writable E 0) cs ->
  exists q, build_program Kp ks p = Some (Returns (Built (StOk q)))
    /\ (kept_apart E (called p) q ->
        exists l order skip limit, is_statement E (statement_text E q) (CQuery (l ++ [CReturn (CBody d (map (fun t => CItem t None) cs) order skip limit)]) [])
          /\ Forall2 (asks E (calls E p q)) ph l /\ asks_sorting E (calls E p q) s order skip limit).
Proof.
  intros E Kp ks p i ph d es s cs vs NS G SP AN C B O F Rp Rs Wp H Gs N W.
  assert (NK : unaliased (called p) "") by (intros a X; apply (proj1 (proj2 SP)); now exists a).
  destruct (C65_calls_read_from_the_text_partial E Kp ks p i NS G SP AN C B O F) as (q & Q & T).
  { rewrite Wp. apply Forall_app. split; [exact Rp|]. constructor; [|constructor].
    destruct (proj1 (proj2 (asked_made (Register (called p) (fun _ => False)) NK)) cs vs H) as (es' & Gs' & D).
    pose proof (same_goods vs es' es Gs' Gs) as ->. split; [intros ->; inversion D; subst; now destruct N|]. split; [|exact Rs].
    apply (over_all _ _ _ _ _ (fun c e (Fe : back (Register (called p) (fun _ => False)) E c e) w => ri_plain E (called p) e (Fe 0 w)) (proj1 (proj2 (denotes_back (Register (called p) (fun _ => False)) NK E NS)) cs es D) W). }
  exists q. split; [exact Q|]. destruct (C69_clauses_partial E (calls E p q) cs vs es NS NK H Gs W) as [CR _].
  intros KA. destruct (T KA) as (l & S & Fa). rewrite Wp in Fa. apply Forall2_app_inv_l in Fa as (l1 & l2 & F1 & F2 & ->).
  inversion F2 as [|? c ? ? Fc Fn]; subst. inversion Fn; subst. destruct (CR d s c Fc) as (order & skip & limit & -> & Srt). exists l1, order, skip, limit. auto.
Qed.
Print Assumptions C69_chains_partial.

(** ** In conditions

    The WHERE that is read from the text of a chain of builder calls is true,
    false or null as the calls of Where, And, Or and Not say about the
    expressions asked for ([R e]: what the basic condition e was asked for as). *)
Definition conditions_asked (A : key -> string -> Prop) (R : expr -> cx) (cc : SpecCond.call expr) : Prop :=
  Forall (fun e => exists i, asked A (R e) (Elem (Good e) i)) (operands cc).

Theorem C69_conditions_partial : forall E (A : register) R c cc,
  no_space_in_names E -> unaliased A "" -> SpecTruth.made c cc -> proper cc = true -> unmixed cc = true -> conditions_asked A R cc ->
  Forall (fun e => writable E 3 (R e)) (operands cc) ->
  readable_conditions E A c
  /\ forall w, SpecTruth.means E A cc w -> forall val, option_map (truth val) w = meaning (fun e => truth val (R e)) cc.
Proof.
  intros E A R c cc NS NK M P U Q W.
  assert (D : forall e, List.In e (operands cc) -> denotes A (R e) e).
  { intros e I. unfold conditions_asked in Q. rewrite Forall_forall in Q. destruct (Q e I) as [i H].
    destruct (proj1 (asked_made A NK) _ _ H) as (e' & j & X & D). now injection X as <- <-. }
  split.
  - apply (made_readable E A c cc M P U). apply Forall_forall. intros e I. split.
    + apply (proj1 (denotes_back A NK E NS) _ _ (D e I)). rewrite Forall_forall in W. now apply W.
    + pose proof (D e I) as X. destruct X; exact Logic.I.
  - intros w T val. apply T. intros e u I H. now rewrite (proj1 (proj1 (denotes_only A E NS) _ _ (D e I) u) H).
Qed.
Print Assumptions C69_conditions_partial.

Theorem C69_where_partial : forall E Kp ks p i,
  no_space_in_names E -> SpecTokens.self_contained E (e_guid E) ->
  shared_parts E (fun k => exists a, called p k a) -> (forall k a, called p k a -> variable a) ->
  compiles IStart p = Some i -> buildable i = true -> orderly p = true ->
  Forall (in_place_phrase E (called p)) (written p) -> Forall (readable_phrase E (called p)) (written p) ->
  exists q, build_program Kp ks p = Some (Returns (Built (StOk q)))
    /\ (kept_apart E (called p) q -> nameless (called p) q ->
        exists l, is_statement E (statement_text E q) (CQuery l [])
          /\ Forall2 (fun ph c => forall cc R, SpecTruth.made (phrase_conditions ph) cc -> proper cc = true -> unmixed cc = true -> conditions_asked (called p) R cc ->
                                               forall val, option_map (truth val) (where_read c) = meaning (fun e => truth val (R e)) cc) (written p) l).
Proof.
  intros E Kp ks p i NS G SP AN C B O F R.
  assert (NK : unaliased (called p) "") by (intros a X; apply (proj1 (proj2 SP)); now exists a).
  destruct (C66_where_means_the_calls_partial E Kp ks p i NS G SP AN C B O F R) as (q & Q & H). exists q. split; [exact Q|].
  intros KA NL. destruct (H KA NL) as (l & T & S). exists l. split; [exact T|]. eapply Forall2_impl; [|exact S].
  intros ph c X cc Rd M P U Cq val. apply (X cc M P U). intros e u I J. unfold conditions_asked in Cq. rewrite Forall_forall in Cq.
  destruct (Cq e I) as [j Hj]. destruct (proj1 (asked_made (calls E p q) NK) _ _ Hj) as (e' & j' & Y & D). injection Y as <- <-.
  now rewrite (proj1 (proj1 (denotes_only (calls E p q) E NS) _ _ D u) J).
Qed.
Print Assumptions C69_where_partial.

(** ** A case that meets the hypotheses *)

Definition out (o : outcome value) : value := match o with Returns v => v | _ => sym_value NoSym end.
Definition els (vs : list value) : list expr := flat_map (fun v => match v with Elem (Good e) _ => [e] | _ => [] end) vs.
Definition sy (x : string) : value := sym_value (symbolic_name_create x x).
Definition KM (p : string) : keys := Keys (kt p 0) (fun n => kt (p ++ "l")%string n) (fun n => kt (p ++ "e")%string n) (p ++ "null")%string.

Definition wanted_values : list value :=
  [ out (fn1_call (kt "count") CountDistinctByExpression (property_by_expression (kt "name") (sy "n") "name"));
    compare (kt "gt") Gt (compute (kt "mul") Multiply (compute (kt "add") Add (property_by_expression (kt "age") (sy "n") "age") (int_value "one" 1)) (int_value "two" 2))
      (parameter_value "limit" "$limit");
    is_null (kt "nl") (compare (kt "eq") IsEqualTo (sy "a") (sy "b"));
    out (list_returning (kt "lc") (list_where "w" (list_in (list_with (symbolic_name_create "lx" "x")) (sy "xs")) (compare (kt "wc") Gt (sy "x") (int_value "zero" 0)))
      [compute (kt "dd") Pow (sy "x") (int_value "three" 3)]);
    out (predicate_where (kt "pw") (predicate_in (predicate_create FAny (symbolic_name_create "py" "y")) (out (list_of_raw (kt "raw") (KM "rk") [AString "it's"; ANil; ABool true; AInt 7])))
      (matches_pattern (kt "mt") (sy "y") ".*"));
    out (calendar_date (kt "cd") (KM "cm") 2020 2 (-1)) ].

Definition wanted_cxs : list cx :=
  [ XCall ["count"] true [XProp (XVar "n") "name"];
    XBin OGt (XBin OMul (XBin OAdd (XProp (XVar "n") "age") (XNum "1")) (XNum "2")) (XParam "limit");
    XIsNull true (XBin OEq (XVar "a") (XVar "b"));
    XListComp "x" (XVar "xs") (Some (XBin OGt (XVar "x") (XNum "0"))) (Some (XBin OPow (XVar "x") (XNum "3")));
    XFilter "any" "y" (XList [XStr "it's"; XNull; XBool true; XNum "7"]) (Some (XBin OLike (XVar "y") (XStr ".*")));
    XCall ["date"] false [XMap [("year", XNum "2020"); ("month", XNum "2"); ("day", XNeg (XNum "1"))]] ].

Lemma fresh_none : forall ks, fresh no_aliases ks. Proof. intros ks n. apply none_aliased. Qed.
Lemma fresh_keys_none : forall K, fresh_keys no_aliases K. Proof. intros K. repeat split; intros; apply none_aliased. Qed.

Ltac ask := repeat match goal with
  | |- unaliased _ _ => apply none_aliased
  | |- fresh _ _ => apply fresh_none
  | |- fresh_keys _ _ => apply fresh_keys_none
  | |- short _ => unfold short; lia
  | |- asked _ (XVar _) (sy _) => apply q_name; [apply none_aliased|discriminate]
  | |- asked _ (XNum _) (int_value _ ?z) => apply (q_int no_aliases _ z)
  | |- asked _ (XBin ?b _ _) (compute _ ?o _ _) => apply (q_compute no_aliases _ o)
  | |- asked _ (XBin ?b _ _) (compare _ ?o _ _) => apply (q_compare no_aliases _ o)
  | |- asked _ (XProp _ _) _ => apply q_property; [apply fresh_none| |discriminate]
  | |- _ <> _ => discriminate
  end.

Lemma wanted_asked : asked_all no_aliases wanted_cxs wanted_values.
Proof.
  unfold wanted_cxs, wanted_values. constructor; [|constructor; [|constructor; [|constructor; [|constructor; [|constructor; [|constructor]]]]]].
  - apply (q_fn1 _ (kt "count") CountDistinctByExpression _ (property_by_expression (kt "name") (sy "n") "name")); [ask|ask|ask|vm_compute; reflexivity].
  - ask. now apply (q_param _ _ 1).
  - apply q_is_null; ask.
  - apply (q_filtered_mapped _ (kt "lc") "lx" "w" _ _ _ _ (sy "xs") (compare (kt "wc") Gt (sy "x") (int_value "zero" 0)) (compute (kt "dd") Pow (sy "x") (int_value "three" 3)));
      [ask|ask|ask|ask|ask|ask|ask|vm_compute; reflexivity].
  - apply (q_quantified _ (kt "pw") "py" FAny "any" "y" _ _ (out (list_of_raw (kt "raw") (KM "rk") [AString "it's"; ANil; ABool true; AInt 7])) (matches_pattern (kt "mt") (sy "y") ".*"));
      [ask|ask|reflexivity|ask| |apply q_matches; ask|vm_compute; reflexivity].
    apply (q_raw_list _ (kt "raw") (KM "rk") _ [AString "it's"; ANil; ABool true; AInt 7]); [ask|ask| |vm_compute; reflexivity].
    constructor; [constructor|]. constructor; [constructor|]. constructor; [constructor|]. constructor; [apply (li_int 7); ask|constructor].
  - apply (q_calendar_date _ (kt "cd") (KM "cm") 2020 2 (-1)); [ask|ask|ask|ask|ask|vm_compute; reflexivity].
Qed.

Example C69_case :
  asked_all no_aliases wanted_cxs wanted_values /\ Forall (writable env0 0) wanted_cxs
  /\ well_keyed (to_vtq env0 (returning_all "r" "es" false (els wanted_values))) = true /\ well_quiet (to_vtq env0 (returning_all "r" "es" false (els wanted_values))) = true
  /\ rendered (returning_all "r" "es" false (els wanted_values))
     = "RETURN count(DISTINCT n.name), ((n.age + 1) * 2) > $limit, (a = b) IS NULL, [x IN xs WHERE x > 0 | x^3], any(y IN ['it\'s', NULL, true, 7] WHERE y =~ '.*'), date({year: 2020, month: 2, day: -1})"
  /\ is_statement env0 (rendered (returning_all "r" "es" false (els wanted_values))) (asked_to_return false wanted_cxs).
Proof.
  assert (W : Forall (writable env0 0) wanted_cxs).
  { unfold wanted_cxs. repeat (constructor; [cbn; repeat split; try reflexivity; try discriminate; try lia|]). constructor. }
  split; [exact wanted_asked|]. split; [exact W|]. split; [vm_compute; reflexivity|]. split; [vm_compute; reflexivity|]. split; [vm_compute; reflexivity|].
  assert (C : SpecTokens.self_contained env0 (e_guid env0)) by (apply word_contained; [exact env0_names|reflexivity]).
  destruct (C69_rendered_text_partial unit env0 "r" "es" false wanted_cxs wanted_values env0_names C wanted_asked) as (es & G & S); [discriminate|exact W|].
  assert (G' : all_good wanted_values (els wanted_values)) by (repeat constructor; eexists; vm_compute; reflexivity).
  pose proof (same_goods _ _ _ G G') as ->. apply S; vm_compute; reflexivity.
Qed.

(** A chain that meets the hypotheses of the theorems on conditions: that of C66_case. *)
Definition atom_read (e : expr) : cx :=
  match e with EComparison _ (Some (EProp _ _ (ELookup _ p))) _ _ => is_one p | _ => XNull end.
Example C69_where_case :
  conditions_asked (called negated) atom_read negated_call /\ Forall (fun e => writable env0 3 (atom_read e)) (operands negated_call)
  /\ forall val, option_map (truth val) (where_read (hd (CSet []) negated_read)) = meaning (fun e => truth val (atom_read e)) negated_call.
Proof.
  assert (U : forall k, unaliased (called negated) k) by (intros k a H; now apply (negated_aliases k a)).
  assert (Q : conditions_asked (called negated) atom_read negated_call).
  { assert (X : forall p : string, p <> "" -> exists i, asked (called negated) (is_one p) (Elem (Good (atom_of p)) i)).
    { intros p N. exists NilValue. pose proof (q_compare (called negated) (fun _ => "c" ++ p)%string IsEqualTo (XProp (XVar "n") p) (XNum "1")
        (property_by_expression (fun k => match k with 0 => "p" ++ p | _ => "l" ++ "p" ++ p end)%string (sym_value (symbolic_name_create "sn" "n")) p) (int_value ("v" ++ p)%string 1)) as H.
      unfold property_by_expression in H. cbn [value_err is_nil] in H. destruct (String.eqb_spec p "") as [->|_]; [now destruct N|].
      apply (q_copy _ _ _ (Elem (Good (atom_of p)) NilValue)). apply H; clear H.
      - intros k. apply U.
      - pose proof (q_property (called negated) (fun k => match k with 0 => "p" ++ p | _ => "l" ++ "p" ++ p end)%string (XVar "n") (sym_value (symbolic_name_create "sn" "n")) p) as H.
        unfold property_by_expression in H. cbn [value_err is_nil] in H. destruct (String.eqb_spec p "") as [->|_]; [now destruct N|]. apply H; [intros k; apply U| |exact N].
        apply q_name; [apply U|discriminate].
      - apply (q_int (called negated) _ 1); [apply U|unfold short; lia]. }
    unfold conditions_asked. cbn [negated_call operands app]. repeat (apply Forall_cons; [apply X; discriminate|]). apply Forall_nil. }
  split; [exact Q|]. split.
  - cbn [negated_call operands app]. repeat (apply Forall_cons; [cbn; repeat split; try reflexivity; try discriminate; try lia|]). apply Forall_nil.
  - destruct (C69_conditions_partial env0 (calls env0 negated (statement_of negated)) atom_read _ negated_call env0_names (U "") negated_made eq_refl eq_refl Q) as [_ H].
    + cbn [negated_call operands app]. repeat (apply Forall_cons; [cbn; repeat split; try reflexivity; try discriminate; try lia|]). apply Forall_nil.
    + apply H. exact (proj2 (proj2 C66_case_read)).
Qed.

(** ** What is missing: calls that are read as something else *)

Definition misread_as (c : cx) (v : value) (s : string) (c' : cx) : Prop :=
  asked no_aliases c v /\ c <> c'
  /\ exists e i, v = Elem (Good e) i /\ well_keyed (to_vtq env0 (gives_back e)) = true /\ well_quiet (to_vtq env0 (gives_back e)) = true
     /\ rendered (gives_back e) = s /\ is_statement env0 s (read_back c').

Ltac misread := split; [|split; [discriminate|do 2 eexists; split; [vm_compute; reflexivity|split; [vm_compute; reflexivity|split; [vm_compute; reflexivity|split; [vm_compute; reflexivity|reads 80]]]]]].

(** (a = b) + c *)
Theorem C69_comparison_in_sum_refuted :
  misread_as (XBin OAdd (XBin OEq (XVar "a") (XVar "b")) (XVar "c")) (compute (kt "x") Add (compare (kt "y") IsEqualTo (sy "a") (sy "b")) (sy "c"))
    "RETURN (a = b + c)" (XBin OEq (XVar "a") (XBin OAdd (XVar "b") (XVar "c"))).
Proof. misread. ask. Qed.
Print Assumptions C69_comparison_in_sum_refuted.

(** a ^ (b ^ c) *)
Theorem C69_power_of_power_refuted :
  misread_as (XBin OPow (XVar "a") (XBin OPow (XVar "b") (XVar "c"))) (compute (kt "x") Pow (sy "a") (compute (kt "y") Pow (sy "b") (sy "c")))
    "RETURN a^b^c" (XBin OPow (XBin OPow (XVar "a") (XVar "b")) (XVar "c")).
Proof. misread. ask. Qed.
Print Assumptions C69_power_of_power_refuted.

(** [x IN y] as a list of one comparison *)
Theorem C69_list_refuted :
  misread_as (XList [XBin OIn (XVar "x") (XVar "y")]) (out (list_of (kt "l") [compare (kt "i") In (sy "x") (sy "y")]))
    "RETURN [x IN y]" (XListComp "x" (XVar "y") None None).
Proof.
  misread. apply (q_list _ (kt "l") _ [compare (kt "i") In (sy "x") (sy "y")]); [ask| |vm_compute; reflexivity]. constructor; [|constructor]. ask.
Qed.
Print Assumptions C69_list_refuted.

(** A property of a comparison: (a = b).p *)
Theorem C69_property_refuted :
  misread_as (XProp (XBin OEq (XVar "a") (XVar "b")) "p") (property_by_expression (kt "x") (compare (kt "y") IsEqualTo (sy "a") (sy "b")) "p")
    "RETURN a = b.p" (XBin OEq (XVar "a") (XProp (XVar "b") "p")).
Proof. misread. ask. Qed.
Print Assumptions C69_property_refuted.

(** Collecting distinct values computes an average. *)
Theorem C69_collect_distinct_refuted : exists e i,
  fn1_call (kt "f") CollectDistinct (sy "n") = Returns (Elem (Good e) i) /\ rendered (gives_back e) = "RETURN avg(DISTINCT n)"
  /\ is_statement env0 "RETURN avg(DISTINCT n)" (read_back (XCall ["avg"] true [XVar "n"])).
Proof. do 2 eexists. split; [vm_compute; reflexivity|]. split; [vm_compute; reflexivity|]. reads 80. Qed.
Print Assumptions C69_collect_distinct_refuted.
