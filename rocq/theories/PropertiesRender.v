(** Headline theorems about rendering: C01-C09 and C41. *)

From Coq Require Import Ascii String List ZArith Bool Lia.
From Verif Require Import GoStr Escape Num VTree WellKeyed VTreeProofs VTreeSim Ast SpecDoc SpecPrint DocProofs PrintProofs
  Alloc AllocProofs RenderProofs ReuseProofs PropertiesText.
Import ListNotations.
Open Scope string_scope.

(** Concrete statements, for the cases beside the theorems. *)
Definition user : expr := ENode "n1" (Some ("s1", "u")) [("l1", "User")] None.
Definition bike : expr := ENode "n2" (Some ("s2", "b")) [("l2", "Bike")] None.
Definition owns : expr := ERel "r1" user (EDetails "d1" LTR None (Some ("t1", ["OWNS"])) None None) bike.
Definition uname : expr := EProp "p1" (ESym "s1" "u") (ELookup "k1" "name").
Definition q_owns : query :=
  QSingle [QMatch "m1" false (EPattern "pa1" [owns; user]) (Some (EWhere "w1" (EComparison "c1" (Some uname) Equality (Some (EStr "st1" "it's")))))]
          (Some (QReturn "ret1" false (Body (EExprs "es1" [ESym "s1" "u"; EAlias "al1" "p1" uname "who"; uname]) None None None))).

Definition li_price : expr := EProp "p2" (ESym "s3" "li") (ELookup "k2" "price").
Definition li_quantity : expr := EProp "p3" (ESym "s3" "li") (ELookup "k3" "quantity").
Definition net : expr := EFun "f1" "sum" "fl1" [EOperation "o1" li_price Multiplication li_quantity].
Definition net_amount : expr := EAlias "al2" "f1" net "netAmount".
Definition total_amount : expr :=
  EAlias "al3" "o2" (EOperation "o2" net_amount Multiplication
                       (EOperation "o3" (ENum "i1" (num_of_Z 1)) Addition (EParam "pm1" "taxRate"))) "totalAmount".
Definition q_total : query :=
  QMulti [("mp1", [QMatch "m2" false (EPattern "pa2" [ENode "n4" (Some ("s3", "li")) [] None]) None],
           QWith "wi1" false (Body (EExprs "es2" [ESym "s4" "o"; net_amount; total_amount]) None None None) None)]
         (QSingle [] (Some (QReturn "ret2" false (Body (EExprs "es3" [net_amount; total_amount]) None None None)))).

(** ** C01 *)

Theorem C01_rendering_prints_the_statement_partial : forall (err : Type) E q,
  well_keyed (to_vtq E q) = true -> well_quiet (to_vtq E q) = true ->
  fst (render (err:=err) (SOk (to_vtq E q)) new_renderer) = (statement_text E q, None).
Proof.
  intros err E q H Q. cbn [render fst]. unfold statement_text. now rewrite (render_statement E q H Q).
Qed.
Print Assumptions C01_rendering_prints_the_statement_partial.

(** The same for statements whose elements were built by constructor calls with
    keys that were never handed out twice. *)
Theorem C01_built_statements_partial : forall (err : Type) E q hp,
  built false hp -> over hp (to_vtq E q) -> well_quiet (to_vtq E q) = true ->
  fst (render (err:=err) (SOk (to_vtq E q)) new_renderer) = (statement_text E q, None).
Proof.
  intros err E q hp Hb Ho Q. apply C01_rendering_prints_the_statement_partial; [|exact Q]. now apply (built_well_keyed hp).
Qed.
Print Assumptions C01_built_statements_partial.

Example C01_case : well_keyed (to_vtq env0 q_owns) = true /\ well_quiet (to_vtq env0 q_owns) = true
  /\ statement_text env0 q_owns =
     "MATCH (u:`User`)-[:`OWNS`]->(b:`Bike`), (u) WHERE u.name = 'it\'s' RETURN u, u.name AS who, who".
Proof. repeat split; vm_compute; reflexivity. Qed.
Example C01_case_alias : well_keyed (to_vtq env0 q_total) = true /\ well_quiet (to_vtq env0 q_total) = true
  /\ statement_text env0 q_total =
     "MATCH (li) WITH o, sum((li.price * li.quantity)) AS netAmount, (netAmount * (1 + $taxRate)) AS totalAmount RETURN netAmount, totalAmount".
Proof. repeat split; vm_compute; reflexivity. Qed.

(** A build that meets the hypotheses of [C01_built_statements_partial]. *)
Definition small : query := QSingle [QCreate "c" (EPattern "p" [ENode "n" (Some ("s", "x")) [("l", "L")] None])] None.
Example C01_built_case : exists hp, built false hp /\ over hp (to_vtq env0 small) /\ well_quiet (to_vtq env0 small) = true.
Proof.
  pose (s := leaf "s" "x"). pose (l := leaf "l" ":`L`").
  pose (n := V (Head "n" false (KNode (Some "x"))) [s; l]).
  pose (p := sub "p" "" "" [n]). pose (c := el "c" "CREATE " " " [p]).
  exists [("c", c); ("p", p); ("n", n); ("l", l); ("s", s)].
  assert (O : forall hp (ts : list vt), (forall t, In t ts -> exists k, In (k, t) hp) -> overs hp ts).
  { intros hp ts. induction ts as [|t ts IH]; intros H; [apply overs_nil|].
    apply overs_cons; [destruct (H t (or_introl eq_refl)) as [k Hk]; now apply (over_elem hp k)|].
    apply IH. intros t' Ht'. apply H. now right. }
  split; [|split; [|vm_compute; reflexivity]].
  - assert (F : forall k l, memk k l = false -> k = "" \/ false = true \/ ~ In k l).
    { intros k ks H. right. right. now apply memk_notIn. }
    apply built_new; [|apply F; reflexivity|apply made_plain; [exact I|apply O; intros t [<-|[]]; exists "p"; cbn; tauto]].
    apply built_new; [|apply F; reflexivity|apply made_plain; [exact I|apply O; intros t [<-|[]]; exists "n"; cbn; tauto]].
    apply built_new; [|apply F; reflexivity|apply made_plain; [discriminate|]].
    2:{ apply O. intros t [<-|[<-|[]]]; [exists "s"|exists "l"]; cbn; tauto. }
    apply built_new; [|apply F; reflexivity|apply made_plain; [exact I|apply O; intros t []]].
    apply built_new; [|apply F; reflexivity|apply made_plain; [exact I|apply O; intros t []]].
    apply built_nil.
  - apply over_bare. apply O. intros t [<-|[]]. exists "c". now left.
Qed.

(** The condition [well_quiet] is needed: the commas of a list literal with two
    items are written even if the node around it is abbreviated. *)
Definition with_list : expr :=
  ENode "n" (Some ("s", "x")) [] (Some (EProps "p" (EMap "m" [EEntry "e" "v" (EListLit "l" [ENum "a" (num_of_Z 1); ENum "b" (num_of_Z 2)])]))).
Theorem C01_list_literal_in_repeated_node_refuted : exists E q,
  well_keyed (to_vtq E q) = true
  /\ fst (render (err:=unit) (SOk (to_vtq E q)) new_renderer) <> (statement_text E q, None)
  /\ fst (fst (render (err:=unit) (SOk (to_vtq E q)) new_renderer)) = "CREATE (x {v: [1, 2]}), (x, )".
Proof.
  exists env0, (QSingle [QCreate "c" (EPattern "pa" [with_list; with_list])] None).
  split; [vm_compute; reflexivity|]. split; [|vm_compute; reflexivity].
  intros H. vm_compute in H. discriminate.
Qed.
Print Assumptions C01_list_literal_in_repeated_node_refuted.

(** ** C02 *)

(** The texts of documents written one after the other. *)
Inductive each : list doc -> memory -> list string -> memory -> Prop :=
| each_nil : forall m, each [] m [] m
| each_cons : forall d ds m x m1 xs m2, write d m = (x, m1) -> each ds m1 xs m2 -> each (d :: ds) m (x :: xs) m2.

Lemma each_rest : forall ds m, exists xs m', each ds m xs m'
  /\ wrest ds m = (match xs with [] => "" | _ => ", " ++ String.concat ", " xs end, m').
Proof.
  induction ds as [|d ds IH]; intros m; [exists [], m; split; [constructor|reflexivity]|].
  destruct (write d m) as [x m1] eqn:E. destruct (IH m1) as [xs [m2 [H1 H2]]].
  exists (x :: xs), m2. split; [econstructor; eassumption|]. cbn [wrest]. rewrite E, H2.
  destruct xs as [|y xs]; [now rewrite EscapeProofs.sapp_nil_r|]. reflexivity.
Qed.

Theorem C02_separated : forall ds m, exists xs m', each ds m xs m' /\ write (Commas ds) m = (String.concat ", " xs, m').
Proof.
  intros [|d ds] m; [exists [], m; split; [constructor|reflexivity]|].
  destruct (write d m) as [x m1] eqn:E. destruct (each_rest ds m1) as [xs [m2 [H1 H2]]].
  exists (x :: xs), m2. split; [econstructor; eassumption|]. rewrite write_Commas, E, H2.
  destruct xs; cbn; [now rewrite EscapeProofs.sapp_nil_r|reflexivity].
Qed.
Print Assumptions C02_separated.

(** Each comma separated construct, wherever it occurs and whatever its items
    are: [m] is what was written before. *)
Theorem C02_lists : forall E es m, forallb (fun e => negb (silent e)) es = true ->
  exists xs m', each (map (print E) es) m xs m'
  /\ (let items := String.concat ", " xs in
      forall k ka n, alias_of k (introduced m) = None -> alias_of ka (introduced m) = None ->
        write (print E (EExprs k es)) m = (items, m')
        /\ write (print E (EPattern k es)) m = (items, m')
        /\ write (print E (EFun k n ka es)) m = (n ++ "(" ++ items ++ ")", m')
        /\ write (print E (EArgs k es)) m = ("(" ++ items ++ ")", m')
        /\ write (print E (EMap k es)) m = ("{" ++ items ++ "}", m')
        /\ write (print E (EOrder k es)) m = (" ORDER BY " ++ items, m')
        /\ write (print E (EYield k es)) m = (" YIELD " ++ items, m')).
Proof.
  intros E es m S. destruct (C02_separated (map (print E) es) m) as [xs [m' [H1 H2]]].
  assert (L : listing (print E) es = Commas (map (print E) es)).
  { unfold listing. f_equal. clear H1 H2. induction es as [|e es IH]; [reflexivity|]. cbn in S.
    apply andb_true_iff in S. destruct S as [S1 S2]. apply negb_true_iff in S1. cbn. rewrite S1. cbn. f_equal. now apply IH. }
  exists xs, m'. split; [exact H1|]. intros items k ka n K KA.
  cbn [print]. rewrite L, !write_Shared, K, !write_Cat, H2. cbn [wcat].
  change (write (Txt n) m) with (n, m). cbv beta iota.
  change (write (Txt "(") m) with ("(", m). change (write (Txt "{") m) with ("{", m). cbv beta iota.
  change (write (Txt " ORDER BY ") m) with (" ORDER BY ", m). change (write (Txt " YIELD ") m) with (" YIELD ", m). cbv beta iota.
  rewrite !write_Shared, KA, !H2.
  change (write (Txt ")") m') with (")", m'). change (write (Txt "}") m') with ("}", m').
  repeat split; cbn; rewrite ?EscapeProofs.sapp_nil_r; reflexivity.
Qed.
Print Assumptions C02_lists.

Example C02_case : fst (write (print env0 (EFun "f" "coalesce" "l" [ESym "a" "x"; EMap "m" [EEntry "e" "k" (ESym "a" "x"); EEntry "g" "i" (ENull "n")]; ECompound "c" And []])) nothing_written)
  = "coalesce(x, {k: x, i: NULL})".
Proof. vm_compute. reflexivity. Qed.

(** ** C03 *)

Theorem C03_traversal_state_restored : forall t, well_keyed t = true ->
  let r := accept t new_renderer in
  r_stack r = [] /\ r_alstack r = [] /\ r_level r = 0%Z /\ r_skip r = false
  /\ forall l, get_sep l (r_seps r) = None.
Proof.
  intros t H. pose proof (accept_new t H) as A. destruct (pp t None none_seen) as [[txt sep] s].
  destruct A as [A1 A2 A3 A4 A5 A6 A7 A8 A9]. cbn zeta. repeat (split; [assumption|]).
  intros l. destruct (Z.eq_dec l (r_level new_renderer + 1)%Z) as [->|N]; [exact A8|]. rewrite A9 by exact N. reflexivity.
Qed.
Print Assumptions C03_traversal_state_restored.

(** From any point between two elements of a larger statement: [r] is the
    renderer after any elements [ts]. *)
Theorem C03_between_elements : forall ts t, well_keyed (B (ts ++ [t])) = true -> well_keyed (B ts) = true ->
  let r := accept (B ts) new_renderer in
  let r' := accept t r in
  r_stack r' = r_stack r /\ r_alstack r' = r_alstack r /\ r_level r' = r_level r /\ r_skip r' = r_skip r
  /\ (forall l, get_sep l (r_seps r') = get_sep l (r_seps r)) /\ exists txt, r_out r' = r_out r ++ txt.
Proof.
  intros ts t H H0. destruct (C03_traversal_state_restored _ H0) as [A1 [A2 [A3 [A4 A5]]]].
  assert (E : accept t (accept (B ts) new_renderer) = accept (B (ts ++ [t])) new_renderer).
  { rewrite !accept_B, accepts_app. reflexivity. }
  cbn zeta. rewrite E. destruct (C03_traversal_state_restored _ H) as [B1 [B2 [B3 [B4 B5]]]].
  rewrite A1, A2, A3, A4, B1, B2, B3, B4. repeat (split; [reflexivity|]). split; [intros l; now rewrite A5, B5|].
  eexists. apply (append_one ts t H).
Qed.
Print Assumptions C03_between_elements.

Example C03_case : well_keyed (to_vtq env0 q_total) = true.
Proof. vm_compute. reflexivity. Qed.

(** Without distinct keys the skip flag can stay set and a bracket open: a named
    node without key (NodeCreate3) whose label has no key either, used twice. *)
Definition keyless : expr := ENode "" (Some ("s", "n")) [("", "L")] None.
Theorem C03_keyless_node_refuted : exists E q,
  let r := accept (to_vtq E q) new_renderer in
  r_skip r = true /\ r_out r = "MATCH (n:`L`), (n ".
Proof.
  exists env0, (QSingle [QMatch "m" false (EPattern "pa" [keyless; keyless]) None] None).
  split; vm_compute; reflexivity.
Qed.
Print Assumptions C03_keyless_node_refuted.

(** ** C04 *)

(** [ts]: everything visited before. *)
Theorem C04_first_occurrence : forall ts k n kids,
  well_keyed (B (ts ++ [node k n kids])) = true ->
  ~ In k (named_l ts) -> ~ In k (dkeys (aliases_l (ts ++ [node k n kids]))) ->
  exists inner,
    r_out (accept (B (ts ++ [node k n kids])) new_renderer) = r_out (accept (B ts) new_renderer) ++ "(" ++ inner ++ ")"
    /\ r_out (accept (B kids) (accept (B ts) new_renderer)) = r_out (accept (B ts) new_renderer) ++ inner.
Proof. exact named_node_first. Qed.
Print Assumptions C04_first_occurrence.

Theorem C04_later_occurrence_partial : forall ts k n kids,
  well_keyed (B (ts ++ [node k n kids])) = true ->
  aliases_l ts = [] -> shows_l k ts = true -> has_append (B kids) = false ->
  r_out (accept (B (ts ++ [node k n kids])) new_renderer) = r_out (accept (B ts) new_renderer) ++ "(" ++ n ++ ")".
Proof. exact named_node_again. Qed.
Print Assumptions C04_later_occurrence_partial.

(** In statements: what a node is printed as depends only on whether it was
    printed before, whatever is around it. *)
Theorem C04_in_statements : forall E k kn n ls ps m, alias_of k (introduced m) = None ->
  (existsb (String.eqb k) (written m) = true -> fst (write (print E (ENode k (Some (kn, n)) ls ps)) m) = "(" ++ n ++ ")")
  /\ (existsb (String.eqb k) (written m) = false ->
       exists parts m', write (Cat (Shared kn (Txt (resolve E n)) :: map print_label ls ++ maybe (option_map (print E) ps))) (mark k m) = (parts, m')
                   /\ write (print E (ENode k (Some (kn, n)) ls ps)) m = ("(" ++ parts ++ ")", m'))
  /\ existsb (String.eqb k) (written (snd (write (print E (ENode k (Some (kn, n)) ls ps)) m))) = true.
Proof.
  intros E k kn n ls ps m H. cbn [print]. rewrite write_Shared, H.
  set (parts := (Shared kn (Txt (resolve E n)) :: map print_label ls ++ maybe (option_map (print E) ps))%list).
  change ([Shared kn (Txt (resolve E n))] ++ map print_label ls ++ maybe (option_map (print E) ps))%list with parts.
  change (write (Once k n (Cat parts)) m) with
    (if existsb (String.eqb k) (written m)
     then ("(" ++ n ++ ")", introduce_all (Cat parts) (mark k m))
     else let (x, m1) := write (Cat parts) (mark k m) in ("(" ++ x ++ ")", m1)).
  assert (M : forall d m0, written (introduce_all d m0) = written m0) by exact introduce_all_written.
  split; [|split].
  - intros ->. reflexivity.
  - intros ->. destruct (write (Cat parts) (mark k m)) as [x m1]. exists x, m1. now split.
  - destruct (existsb (String.eqb k) (written m)) eqn:Ew.
    + cbn [snd]. rewrite M. cbn. now rewrite String.eqb_refl.
    + pose proof (write_keeps_written k (Cat parts) (mark k m)) as W.
      destruct (write (Cat parts) (mark k m)) as [x m1]. cbn [snd] in *. apply W. cbn. now rewrite String.eqb_refl.
Qed.
Print Assumptions C04_in_statements.

Example C04_case :
  let n := to_vt env0 user in let before := [to_vt env0 owns; to_vt env0 bike] in
  well_keyed (B (before ++ [n])) = true /\ aliases_l before = [] /\ shows_l "n1" before = true
  /\ r_out (accept (B (before ++ [n])) new_renderer) = "(u:`User`)-[:`OWNS`]->(b:`Bike`)(b)(u)".
Proof. repeat split; vm_compute; reflexivity. Qed.

(** The key of a node is copied when it is named again (node.go:78-98), so two
    differently named copies of one base node count as one: the second loses its
    labels. *)
Theorem C04_renamed_copies_refuted : exists E a b,
  let na := ENode "n" (Some ("s1", a)) [("l", "L")] None in
  let nb := ENode "n" (Some ("s2", b)) [("l", "L")] None in
  a <> b
  /\ fst (render (err:=unit) (SOk (to_vtq E (QSingle [QMatch "m" false (EPattern "p" [na; nb]) None] None))) new_renderer)
     = ("MATCH (a:`L`), (b)", None).
Proof. exists env0, "a", "b". split; [discriminate|vm_compute; reflexivity]. Qed.
Print Assumptions C04_renamed_copies_refuted.

(** ** C05 *)

Theorem C05_first_occurrence : forall ts k dk a t,
  well_keyed (B (ts ++ [aliased k dk a t])) = true ->
  ~ In dk (dkeys (aliases_l ts)) -> ~ In k (dkeys (aliases_l ts)) ->
  exists inner,
    r_out (accept (B (ts ++ [aliased k dk a t])) new_renderer)
      = r_out (accept (B ts) new_renderer) ++ inner ++ " AS " ++ a
    /\ r_out (accept t (accept (B ts) new_renderer)) = r_out (accept (B ts) new_renderer) ++ inner.
Proof. exact alias_first. Qed.
Print Assumptions C05_first_occurrence.

(** [us]: what is visited between the two occurrences, with no other alias of
    the same expression. *)
Theorem C05_expression_again_partial : forall ts k dk a t us h kids,
  let pre := (ts ++ aliased k dk a t :: us)%list in
  well_keyed (B (pre ++ [V h kids])) = true -> ~ In dk (dkeys (aliases_l us)) ->
  h_key h = dk -> has_append (B kids) = false ->
  r_out (accept (B (pre ++ [V h kids])) new_renderer) = r_out (accept (B pre) new_renderer) ++ a.
Proof. exact alias_for_expression. Qed.
Print Assumptions C05_expression_again_partial.

Theorem C05_alias_again_partial : forall ts k dk a t us,
  let pre := (ts ++ aliased k dk a t :: us)%list in
  well_keyed (B (pre ++ [aliased k dk a t])) = true -> ~ In dk (dkeys (aliases_l us)) ->
  ~ In k (dkeys (aliases_l pre)) -> has_append t = false ->
  r_out (accept (B (pre ++ [aliased k dk a t])) new_renderer) = r_out (accept (B pre) new_renderer) ++ a.
Proof. intros ts k dk a t us. apply alias_for_alias. Qed.
Print Assumptions C05_alias_again_partial.

(** In statements, whatever is around: [m] is what was written before. *)
Theorem C05_in_statements : forall E k dk e a m, alias_of k (introduced m) = None ->
  let txt := escape_if_necessary E a in
  (alias_of dk (introduced m) = None ->
     exists x m1, write (print E e) m = (x, m1)
       /\ write (print E (EAlias k dk e a)) m = (x ++ " AS " ++ txt, introduce dk txt m1))
  /\ (forall b, alias_of dk (introduced m) = Some b -> fst (write (print E (EAlias k dk e a)) m) = txt)
  /\ alias_of dk (introduced (snd (write (print E (EAlias k dk e a)) m))) = Some txt
  /\ (forall d b, alias_of dk (introduced m) = Some b -> fst (write (Shared dk d) m) = b).
Proof.
  intros E k dk e a m H txt. cbn [print]. rewrite write_Shared, H.
  change (write (Aliased dk (escape_if_necessary E a) (print E e)) m) with
      (match alias_of dk (introduced m) with
       | Some _ => (txt, introduce dk txt (introduce_all (print E e) m))
       | None => let (x, m1) := write (print E e) m in (x ++ " AS " ++ txt, introduce dk txt m1)
       end).
  split; [|split; [|split]].
  - intros ->. destruct (write (print E e) m) as [x m1]. exists x, m1. now split.
  - intros b ->. reflexivity.
  - destruct (alias_of dk (introduced m)); [|destruct (write (print E e) m)]; cbn; now rewrite String.eqb_refl.
  - intros d b Hb. rewrite write_Shared, Hb. reflexivity.
Qed.
Print Assumptions C05_in_statements.

Example C05_case :
  let a := to_vt env0 net_amount in
  a = aliased "al2" "f1" "netAmount" (to_vt env0 net)
  /\ well_keyed (B ([a; to_vt env0 user] ++ [to_vt env0 net])) = true
  /\ well_keyed (B ([a; to_vt env0 user] ++ [a])) = true
  /\ r_out (accept (B [a; to_vt env0 user; to_vt env0 net; a]) new_renderer) =
     "sum((li.price * li.quantity)) AS netAmount(u:`User`)netAmountnetAmount".
Proof. repeat split; vm_compute; reflexivity. Qed.

(** A list literal with two items inside: its comma is written after the alias. *)
Definition collected : expr := EFun "f" "coll.max" "fa" [EListLit "l" [ENum "a" (num_of_Z 1); ENum "b" (num_of_Z 2)]].
Theorem C05_list_literal_refuted : exists E q,
  well_keyed (to_vtq E q) = true
  /\ q = QSingle [QWith "w" false (Body (EExprs "es" [EAlias "al" "f" collected "x"]) None None None) None]
                 (Some (QReturn "r" false (Body (EExprs "er" [collected]) None None None)))
  /\ fst (render (err:=unit) (SOk (to_vtq E q)) new_renderer) = ("WITH coll.max([1, 2]) AS x RETURN x,", None).
Proof. eexists env0, _. split; [|split; [reflexivity|]]; vm_compute; reflexivity. Qed.
Print Assumptions C05_list_literal_refuted.

(** ** C41: two aliases of one expression *)

Theorem C41_second_alias_refuted : exists E q,
  well_keyed (to_vtq E q) = true
  /\ q = QSingle [] (Some (QReturn "r" false (Body (EExprs "es"
            [EAlias "a1" "x" (ESym "x" "x") "a"; EAlias "a2" "x" (ESym "x" "x") "b"]) None None None)))
  /\ fst (render (err:=unit) (SOk (to_vtq E q)) new_renderer) = ("RETURN x AS a, b", None).
Proof. eexists env0, _. split; [|split; [reflexivity|]]; vm_compute; reflexivity. Qed.
Print Assumptions C41_second_alias_refuted.

(** ** C06 *)

Theorem C06_independent_of_addresses : forall (err : Type) (f : key -> key) t,
  (forall a b, f a = f b -> a = b) -> f "" = "" ->
  fst (render (err:=err) (SOk (rename f t)) new_renderer) = fst (render (err:=err) (SOk t) new_renderer).
Proof.
  intros err f t F F0. cbn [render fst].
  pose proof (proj1 (accept_rename f F F0) t new_renderer) as A. change (rename_rst f new_renderer) with new_renderer in A.
  rewrite A. reflexivity.
Qed.
Print Assumptions C06_independent_of_addresses.

(** An injective renaming that moves every address. *)
Definition moved (k : key) : key := if String.eqb k "" then "" else "0x" ++ k.
Example C06_case : (forall a b, moved a = moved b -> a = b) /\ moved "" = ""
  /\ rename moved (to_vt env0 bike) = V (Head "0xn2" false (KNode (Some "b"))) [leaf "0xs2" "b"; leaf "0xl2" ":`Bike`"].
Proof.
  split; [|split; reflexivity]. intros a b. unfold moved.
  destruct (String.eqb_spec a ""), (String.eqb_spec b ""); subst; intros H; try reflexivity; try discriminate.
  now inversion H.
Qed.

(** ** C07 *)

(** What rendering the element made by the i-th constructor call gives, if the
    local of the n-th call is at [address n]. *)
Definition rendered (err : Type) (address : nat -> key) (calls : list constructor) (i : nat)
  : option (string * option (render_error err)) :=
  match construct_all address [] calls with
  | Some hp => option_map (fun e => fst (render (err:=err) (SOk (snd e)) new_renderer)) (element hp i)
  | None => None
  end.

(** If no address is handed out twice, the text is determined by the calls.
    Addresses may be used again without effect, unless one of the two elements
    is a named node, an aliased expression, or what it stands for. *)
Theorem C07_text_of_calls_partial : forall err a b calls i,
  (forall n, a n <> "") -> (forall n, b n <> "") ->
  (forall n m, a n = a m -> n = m) ->
  (forall n m, n < length calls -> m < length calls -> identified calls n -> b n = b m -> n = m) ->
  rendered err a calls i = rendered err b calls i.
Proof.
  intros err a b calls i A0 B0 A1 B1. pose proof (reuse_harmless a b calls A0 A1 B0 B1) as R. unfold rendered.
  destruct (construct_all a [] calls) as [hp|]; [|now rewrite R].
  destruct R as (hp' & -> & L & R). destruct (element hp i) as [e|] eqn:E.
  - destruct (R i e E) as (e' & -> & Eo). cbn [option_map render fst]. now rewrite Eo.
  - cbn [option_map]. destruct (element hp' i) as [e'|] eqn:E'; [|reflexivity]. apply element_len in E'. rewrite L in E'.
    apply nth_error_None in E. rewrite rev_length in E. lia.
Qed.
Print Assumptions C07_text_of_calls_partial.

(** However addresses are used again: the text depends on nothing but the calls
    and which locals share an address. *)
Theorem C07_coincidences : forall err a b calls i,
  (forall n, a n <> "") -> (forall n, b n <> "") -> (forall n m, a n = a m <-> b n = b m) ->
  rendered err a calls i = rendered err b calls i.
Proof.
  intros err a b calls i A0 B0 AB. destruct (same_coincidences a b calls A0 B0 AB) as (f & Fi & F0 & E). unfold rendered. rewrite E.
  destruct (construct_all a [] calls) as [hp|]; [|reflexivity]. cbn [option_map]. rewrite element_move.
  destruct (element hp i) as [e|]; [|reflexivity]. cbn [option_map move snd]. f_equal. symmetry. now apply C06_independent_of_addresses.
Qed.
Print Assumptions C07_coincidences.

(** CREATE (a:A), (b:B): the two nodes at the addresses of calls 2 and 5; the
    symbolic names and labels share one address. *)
Definition two_created : list constructor :=
  [NewPlain true false (KText "a" "") []; NewPlain true false (KText ":`A`" "") [];
   NewPlain true false (KNode (Some "a")) [Built 0; Built 1];
   NewPlain true false (KText "b" "") []; NewPlain true false (KText ":`B`" "") [];
   NewPlain true false (KNode (Some "b")) [Built 3; Built 4];
   NewPlain true true (KText "" "") [Built 2; Built 5];
   NewPlain true false (KText "CREATE " " ") [Built 6]].
Fixpoint stars (n : nat) : string := match n with O => "*" | Datatypes.S m => "*" ++ stars m end.
Definition shared (n : nat) : key := match n with 0 | 1 | 3 | 4 | 6 => "x" | n => stars n end.
Example C07_case :
  rendered unit stars two_created 7 = Some ("CREATE (a:`A`), (b:`B`)", None)
  /\ (forall n, stars n <> "") /\ (forall n m, stars n = stars m -> n = m)
  /\ (forall n, shared n <> "")
  /\ (forall n m, n < length two_created -> m < length two_created -> identified two_created n -> shared n = shared m -> n = m)
  /\ rendered unit shared two_created 7 = Some ("CREATE (a:`A`), (b:`B`)", None)
  /\ rendered unit (fun n => match n with 5 => stars 2 | n => stars n end) two_created 7 = Some ("CREATE (a:`A`), (b)", None).
Proof.
  split; [vm_compute; reflexivity|]. split; [now destruct n|]. split.
  { induction n as [|n IH]; intros [|m] H; try discriminate; [reflexivity|destruct m; discriminate|destruct n; discriminate|].
    f_equal. apply IH. now inversion H. }
  split; [intros n; do 8 (destruct n; [discriminate|]); discriminate|].
  split.
  { intros n m Hn Hm Hi. cbn in Hn, Hm.
    assert (D : n = 2 \/ n = 5).
    { destruct Hi as [(? & ? & ? & ? & H)|[(? & ? & H)|(j & ? & H)]].
      - do 8 (destruct n; [try (now auto); discriminate H|]). lia.
      - do 8 (destruct n; [discriminate H|]). lia.
      - do 8 (destruct j; [discriminate H|]). destruct j; discriminate H. }
    destruct D as [->| ->]; do 8 (destruct m; [try reflexivity; discriminate|]); lia. }
  split; vm_compute; reflexivity.
Qed.

(** If the collector reuses the address of the local of a named node, the text
    is another one. *)
Definition two_nodes (ka kb : key) : vt :=
  el "c" "CREATE " " " [sub "p" "" "" [V (Head ka false (KNode (Some "a"))) [leaf "" "a"; leaf "" ":`A`"];
                                        V (Head kb false (KNode (Some "b"))) [leaf "" "b"; leaf "" ":`B`"]]].

Theorem C07_collector_refuted : exists f t h1 h2,
  built false h1 /\ over h1 t /\ built true h2 /\ over h2 (rename f t)
  /\ fst (render (err:=unit) (SOk t) new_renderer) = ("CREATE (a:`A`), (b:`B`)", None)
  /\ fst (render (err:=unit) (SOk (rename f t)) new_renderer) = ("CREATE (a:`A`), (b)", None).
Proof.
  exists (fun k => if String.eqb k "y" then "x" else k), (two_nodes "x" "y").
  pose (la := leaf "" ":`A`"). pose (lb := leaf "" ":`B`"). pose (sa := leaf "" "a"). pose (sb := leaf "" "b").
  pose (na := fun k => V (Head k false (KNode (Some "a"))) [sa; la]).
  pose (nb := fun k => V (Head k false (KNode (Some "b"))) [sb; lb]).
  pose (pa := fun k => sub "p" "" "" [na "x"; nb k]).
  pose (cr := fun k => el "c" "CREATE " " " [pa k]).
  pose (heap := fun k => [("c", cr k); ("p", pa k); (k, nb k); ("", sb); ("", lb); ("x", na "x"); ("", sa); ("", la)]).
  exists (heap "y"), (heap "x").
  assert (O : forall hp (ts : list vt), (forall t, In t ts -> exists k, In (k, t) hp) -> overs hp ts).
  { intros hp ts. induction ts as [|t ts IH]; intros H; [apply overs_nil|].
    apply overs_cons; [destruct (H t (or_introl eq_refl)) as [k Hk]; now apply (over_elem hp k)|].
    apply IH. intros t' Ht'. apply H. now right. }
  assert (Bl : forall reuse k, k <> "" -> k <> "c" -> k <> "p" -> (reuse = true \/ k <> "x") -> built reuse (heap k)).
  { intros reuse k K1 K2 K3 K4.
    assert (F : forall x l, ~ In x l -> x = "" \/ reuse = true \/ ~ In x l) by tauto.
    apply built_new; [|apply F; cbn; intuition discriminate|apply made_plain; [exact I|]].
    2:{ apply O. intros t [<-|[]]. exists "p". now left. }
    apply built_new; [|apply F; cbn; intuition discriminate|apply made_plain; [exact I|]].
    2:{ apply O. intros t [<-|[<-|[]]]; [exists "x"|exists k]; cbn; tauto. }
    apply built_new; [| |apply made_plain; [exact K1|]].
    2:{ right. destruct K4 as [->|K4]; [now left|right]. cbn. intuition. }
    2:{ apply O. intros t [<-|[<-|[]]]; exists ""; cbn; tauto. }
    apply built_new; [|now left|apply made_plain; [exact I|apply O; intros t []]].
    apply built_new; [|now left|apply made_plain; [exact I|apply O; intros t []]].
    apply built_new; [|apply F; cbn; intuition discriminate|apply made_plain; [discriminate|]].
    2:{ apply O. intros t [<-|[<-|[]]]; exists ""; cbn; tauto. }
    apply built_new; [|now left|apply made_plain; [exact I|apply O; intros t []]].
    apply built_new; [|now left|apply made_plain; [exact I|apply O; intros t []]].
    apply built_nil. }
  split; [apply Bl; try discriminate; right; discriminate|].
  split; [apply (over_elem _ "c"); now left|].
  split; [apply Bl; try discriminate; now left|].
  split; [apply (over_elem _ "c"); now left|].
  split; vm_compute; reflexivity.
Qed.
Print Assumptions C07_collector_refuted.

(** ** C08 *)

(** A renderer used for [ts] renders [t] like a fresh one if no named node and
    no aliased expression of [ts] occurs in [t]. *)
Theorem C08_renderer_reuse : forall ts t, well_keyed (B (ts ++ [t])) = true ->
  (forall k, In k (keys t) \/ In k (dkeys (aliases t)) -> ~ In k (named_l ts) /\ ~ In k (dkeys (aliases_l ts))) ->
  fst (render (err:=unit) (SOk t) (after (err:=unit) ts)) = fst (render (err:=unit) (SOk t) new_renderer).
Proof.
  intros ts t H D. cbn [render fst]. rewrite render_reused; [reflexivity|exact H|].
  intros k Hk. apply D. unfold mentions in Hk. now apply in_app_or.
Qed.
Print Assumptions C08_renderer_reuse.

Example C08_case :
  let q x := to_vtq env0 (QSingle [] (Some (QReturn "r" false (Body (EExprs "es" [ESym "s" x]) None None None)))) in
  well_keyed (B ([to_vtq env0 q_total; q "a"] ++ [q "b"])) = true
  /\ forallb (fun k => negb (memk k (named_l [to_vtq env0 q_total; q "a"])) && negb (memk k (dkeys (aliases_l [to_vtq env0 q_total; q "a"]))))
              (keys (q "b")) = true
  /\ fst (fst (render (err:=unit) (SOk (q "b")) (after (err:=unit) [to_vtq env0 q_total; q "a"]))) = "RETURN b".
Proof. repeat split; vm_compute; reflexivity. Qed.

(** Rendering the same statement twice with one renderer. *)
Theorem C08_same_renderer_refuted : exists E q,
  well_keyed (to_vtq E q) = true
  /\ fst (render (err:=unit) (SOk (to_vtq E q)) new_renderer) = ("MATCH (u:`User`) RETURN u", None)
  /\ fst (render (err:=unit) (SOk (to_vtq E q)) (snd (render (err:=unit) (SOk (to_vtq E q)) new_renderer))) = ("MATCH (u) RETURN u", None).
Proof.
  exists env0, (QSingle [QMatch "m" false (EPattern "p" [user]) None]
                        (Some (QReturn "r" false (Body (EExprs "es" [ESym "s1" "u"]) None None None)))).
  split; [|split]; vm_compute; reflexivity.
Qed.
Print Assumptions C08_same_renderer_refuted.

(** ** C09 *)

Theorem C09_render_errors : forall (err : Type) (s : stmt_value err) r,
  (s = SNil -> fst (render s r) = ("", Some NilStatement))
  /\ (forall e, s = SErr e -> fst (render s r) = ("", Some (Carried e)))
  /\ (forall t, s = SOk t -> snd (fst (render s r)) = None)
  /\ (snd (fst (render s r)) <> None -> fst (fst (render s r)) = "" /\ snd (render s r) = r).
Proof.
  intros err s r. repeat split; intros; subst; try reflexivity; destruct s; cbn in *; congruence.
Qed.
Print Assumptions C09_render_errors.

Example C09_case : fst (render (SErr "boom") new_renderer) = ("", Some (Carried "boom")).
Proof. reflexivity. Qed.
