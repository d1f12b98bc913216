(** Properties of nodes, relationships and chains: C32, C42, C43, C44. *)

From Coq Require Import Ascii String List ZArith Bool Arith Lia.
From Verif Require Import GoStr Escape Num VTree Ast GoVal Maps Slices SpecDoc SpecPrint DocProofs RenderProofs BuilderText
  Patterns SpecPattern PatternProofs ChainProofs PropertiesText.
Import ListNotations.
Open Scope string_scope.
Open Scope list_scope.

(** ** C32: relationships and chains *)

(** Two documents that are written in the same way wherever they stand. *)
Definition same_text (a b : doc) : Prop := forall m, write a m = write b m.

(** A relationship is written as its left node, the arrow that the calls
    describe and its right node, unless an alias has been introduced for one of
    its parts. *)
Theorem C32_relationship_text_partial : forall E left l m,
  nd_err left = None -> good_leg l = true -> transparent (print E (rel_expr (leg_rel left l))) m ->
  r_err (leg_rel left l) = None
  /\ write (print E (rel_expr (leg_rel left l))) m = write (path_doc E left [(leg_arrow l, l_node l)]) m.
Proof.
  intros E left l m L G T. pose proof (leg_made left l L G) as M. split; [apply M|].
  rewrite plain_write by assumption. now apply rel_text.
Qed.
Print Assumptions C32_relationship_text_partial.

(** A chain is written as its nodes, each once, in order, with the arrows that
    the calls describe between them; for chains of every length, whatever
    capacities the runtime chooses. *)
Theorem C32_chain_text_partial : forall grow first l1 l2 ls,
  nd_err first = None -> forallb good_leg (l1 :: l2 :: ls) = true ->
  exists h env, chain_run grow [] [] (fluent first l1 l2 ls) = Some (h, env)
  /\ forall E m, let e := chain_expr (read h (last env NoCells)) in
     transparent (print E e) m ->
     write (print E e) m = write (path_doc E first (map (fun l => (leg_arrow l, l_node l)) (l1 :: l2 :: ls))) m.
Proof.
  intros grow first l1 l2 ls F G. destruct (fluent_chain grow first l1 l2 ls) as (h & env & R & Rd). exists h, env. split; [exact R|].
  intros E m e T. unfold e in *. rewrite Rd in *. rewrite plain_write by assumption.
  apply chain_text; [now apply leg_rels_chained|discriminate|].
  assert (X : forall ls l d, forallb good_leg (l :: ls) = true -> nd_not_nil (snd (last (map (fun l => (leg_arrow l, l_node l)) (l :: ls)) d)) = true).
  { clear. induction ls as [|l' ls IH]; intros l d G.
    - cbn in *. rewrite andb_true_r in G. apply andb_prop in G as [G _]. now apply good_node_err in G.
    - cbn [forallb] in G. apply andb_prop in G as [_ G]. exact (IH l' d G). }
  exact (X (l2 :: ls) l1 _ G).
Qed.
Print Assumptions C32_chain_text_partial.

(** The brackets of an arrow are written exactly if the relationship has a
    name, types, a length or properties. *)
Theorem C32_brackets : forall E a,
  (a_name a = None /\ a_types a = [] /\ a_hops a = OneHop /\ a_props a = None
   -> same_text (arrow_doc E a) (Txt (match a_dir a with LTR => "-->" | RTL => "<--" | UNI => "--" | NoDirection => "" end)))
  /\ (a_name a <> None \/ a_types a <> [] \/ a_hops a <> OneHop \/ a_props a <> None
      -> same_text (arrow_doc E a)
           (match a_dir a with
            | LTR => Cat [Txt "-["; Cat (arrow_content E a); Txt "]->"]
            | RTL => Cat [Txt "<-["; Cat (arrow_content E a); Txt "]-"]
            | UNI => Cat [Txt "-["; Cat (arrow_content E a); Txt "]-"]
            | NoDirection => Cat [Txt "["; Cat (arrow_content E a); Txt "]"]
            end)).
Proof.
  intros E a. split.
  - intros (N & T & H & P) m. unfold arrow_doc, arrow_content. rewrite N, T, H, P. cbn. destruct (a_dir a); reflexivity.
  - intros H m. unfold arrow_doc. destruct (arrow_content E a) as [|d l] eqn:Ec.
    + exfalso. unfold arrow_content in Ec. apply app_eq_nil in Ec as [E1 Ec]. apply app_eq_nil in Ec as [E2 Ec]. apply app_eq_nil in Ec as [E3 E4].
      destruct (a_name a); [discriminate|]. destruct (a_types a); [|discriminate]. destruct (a_hops a); try discriminate. destruct (a_props a); [discriminate|].
      destruct H as [H|[H|[H|H]]]; congruence.
    + cbv beta iota zeta. clear Ec. generalize (d :: l) as c. clear d l. intros c.
      assert (W5 : forall x y, wcat [Txt x; Txt "["; Cat c; Txt "]"; Txt y] m = let (s, m1) := wcat c m in ((x ++ "[" ++ s ++ "]" ++ y ++ "")%string, m1)).
      { intros x y. rewrite <- (write_Cat c). remember (Cat c) as cc eqn:Hc. clear Hc. cbn. destruct (write cc m) as [s1 m1]. reflexivity. }
      assert (W3 : forall x y, wcat [Txt x; Cat c; Txt y] m = let (s, m1) := wcat c m in ((x ++ s ++ y ++ "")%string, m1)).
      { intros x y. rewrite <- (write_Cat c). remember (Cat c) as cc eqn:Hc. clear Hc. cbn. destruct (write cc m) as [s1 m1]. reflexivity. }
      assert (W : forall x y, wcat ([Txt x] ++ ([Txt "["] ++ c ++ [Txt "]"]) ++ [Txt y]) m
                              = wcat [Txt x; Txt "["; Cat c; Txt "]"; Txt y] m).
      { intros x y. rewrite W5. cbn [app]. cbn [wcat write]. rewrite <- app_assoc, wcat_app. destruct (wcat c m) as [s3 m3]. reflexivity. }
      destruct (a_dir a); rewrite !write_Cat, ?W, ?W5, W3.
      * destruct (wcat c m) as [s1 m1]. reflexivity.
      * destruct (wcat c m) as [s1 m1]. reflexivity.
      * destruct (wcat c m) as [s1 m1]. reflexivity.
      * cbn [app wcat write]. rewrite wcat_app. destruct (wcat c m) as [s1 m1]. reflexivity.
Qed.
Print Assumptions C32_brackets.

(** A chain with names, lengths, properties. *)
Definition kk (p : string) (n : nat) : key := (p ++ itoa (Z.of_nat n))%string.
Definition person : node := node_named_by_string (kk "p") (a_node (kk "P") "Person") "p".
Definition film : node := a_node (kk "F") "Film".
Definition prop_map : gmap := MapOk "M" [EEntry "M1" "since" (ENum "M2" (num_of_Z 2000))].
Definition leg1 : leg := Leg (kk "a") LTR film ["LIKES"; "LOVES"] [(kk "b", SetName "r"); (kk "c", SetMin 1)].
Definition leg2 : leg := Leg (kk "d") RTL any_node [] [(kk "e", SetUnbounded); (kk "f", SetProps prop_map)].
Definition leg3 : leg := Leg (kk "g") UNI person [] [].

Example C32_chain_case :
  nd_err person = None /\ forallb good_leg [leg1; leg2; leg3] = true
  /\ exists h env, chain_run go_grow [] [] (fluent person leg1 leg2 [leg3]) = Some (h, env)
     /\ (forall k, In k (shared_keys (print env0 (chain_expr (read h (last env NoCells))))) -> alias_of k (introduced nothing_written) = None)
     /\ aliased_keys (print env0 (chain_expr (read h (last env NoCells)))) = []
     /\ text (print env0 (chain_expr (read h (last env NoCells))))
        = "(p:`Person`)-[r:`LIKES`|`LOVES`*1..]->(:`Film`)<-[* {since: 2000}]-()--(p)".
Proof.
  split; [reflexivity|]. split; [reflexivity|].
  destruct (chain_run go_grow [] [] (fluent person leg1 leg2 [leg3])) as [[h env]|] eqn:R; [|vm_compute in R; discriminate].
  exists h, env. split; [reflexivity|]. vm_compute in R. inversion R; subst. split; [reflexivity|]. split; vm_compute; reflexivity.
Qed.

(** What is false. *)

(** NewNodeWithLabels makes nodes that do not count as present: at the end of a
    chain they are left out (relationship_chain.go:106). *)
Definition labelled : node := node_with_labels "A" ["B"].
Theorem C32_last_node_left_out_refuted : exists l1 l2 h env,
  l_node l2 = labelled /\ nd_err labelled = None
  /\ chain_run go_grow [] [] (fluent person l1 l2 []) = Some (h, env)
  /\ text (print env0 (chain_expr (read h (last env NoCells)))) = "(p:`Person`)-[:`X`]->(:`Film`)-[:`Y`]->"
  /\ text (path_doc env0 person [(leg_arrow l1, l_node l1); (leg_arrow l2, l_node l2)]) = "(p:`Person`)-[:`X`]->(:`Film`)-[:`Y`]->(:`A`:`B`)".
Proof.
  exists (Leg (kk "a") LTR film ["X"] []), (Leg (kk "b") LTR labelled ["Y"] []).
  destruct (chain_run go_grow [] [] (fluent person (Leg (kk "a") LTR film ["X"] []) (Leg (kk "b") LTR labelled ["Y"] []) [])) as [[h env]|] eqn:R; [|vm_compute in R; discriminate].
  exists h, env. vm_compute in R. inversion R; subst. repeat split; vm_compute; reflexivity.
Qed.
Print Assumptions C32_last_node_left_out_refuted.

(** The exported method Add takes any relationship: the right node of the one
    before it is lost. *)
Theorem C32_add_loses_node_refuted : exists ps h env,
  chain_run go_grow [] [] ps = Some (h, env)
  /\ ps = [StartChain (kk "a") (rel_create (kk "b") person LTR film ["X"]) LTR film ["Y"];
           AddToChain 0 (rel_create (kk "c") person LTR any_node ["Z"])]
  /\ text (print env0 (chain_expr (read h (nth 1 env NoCells)))) = "(p:`Person`)-[:`X`]->(:`Film`)-[:`Y`]->(p)-[:`Z`]->()".
Proof.
  eexists. destruct (chain_run go_grow [] [] [StartChain (kk "a") (rel_create (kk "b") person LTR film ["X"]) LTR film ["Y"];
           AddToChain 0 (rel_create (kk "c") person LTR any_node ["Z"])]) as [[h env]|] eqn:R; [|vm_compute in R; discriminate].
  exists h, env. split; [exact R|]. split; [reflexivity|]. vm_compute in R. inversion R; subst. vm_compute. reflexivity.
Qed.
Print Assumptions C32_add_loses_node_refuted.

(** ** C42: patterns do not change when others are derived from them *)

(** Nodes and relationships are values: every method returns a new one.  For
    chains it is true only of chains that no method has been called on. *)
Theorem C42_chains_used_once_partial : forall grow ps, NoDup (receivers ps) ->
  match said_run [] ps, chain_run grow [] [] ps with
  | Some said, Some (h, env) => length env = length said
      /\ forall i, i < length env -> ~ In i (receivers ps) -> read h (nth i env NoCells) = nth i said []
  | None, None => True
  | _, _ => False
  end.
Proof. exact chains_once. Qed.
Print Assumptions C42_chains_used_once_partial.

Example C42_case : NoDup (receivers (fluent person leg1 leg2 [leg3] ++ [StartChain (kk "h") (leg_rel person leg1) LTR film []]))
  /\ exists said, said_run [] (fluent person leg1 leg2 [leg3] ++ [StartChain (kk "h") (leg_rel person leg1) LTR film []]) = Some said /\ length said = 5.
Proof.
  split; [cbn; repeat constructor; cbn; intuition discriminate|]. eexists. split; [reflexivity|]. vm_compute. reflexivity.
Qed.

(** Naming the last relationship of a chain names it in the original too. *)
Definition to_film : chain_call := StartChain (kk "a") (rel_create (kk "b") person LTR film ["X"]) LTR any_node ["Y"].

Theorem C42_derived_chain_refuted : exists h1 env1 h2 env2,
  chain_run go_grow [] [] [to_film] = Some (h1, env1)
  /\ chain_run go_grow [] [] [to_film; ChangeChain (kk "c") 0 (SetName "r")] = Some (h2, env2)
  /\ nth 0 env2 NoCells = nth 0 env1 NoCells
  /\ text (print env0 (chain_expr (read h1 (nth 0 env1 NoCells)))) = "(p:`Person`)-[:`X`]->(:`Film`)-[:`Y`]->()"
  /\ text (print env0 (chain_expr (read h2 (nth 0 env1 NoCells)))) = "(p:`Person`)-[:`X`]->(:`Film`)-[r:`Y`]->()".
Proof.
  destruct (chain_run go_grow [] [] [to_film]) as [[h1 env1]|] eqn:R1; [|vm_compute in R1; discriminate].
  destruct (chain_run go_grow [] [] [to_film; ChangeChain (kk "c") 0 (SetName "r")]) as [[h2 env2]|] eqn:R2; [|vm_compute in R2; discriminate].
  exists h1, env1, h2, env2. vm_compute in R1, R2. inversion R1; inversion R2; subst. repeat split; vm_compute; reflexivity.
Qed.
Print Assumptions C42_derived_chain_refuted.

(** Two chains that continue the same chain of three relationships: the second
    replaces the end of the first. *)
Theorem C42_two_continuations_refuted : exists ps q h1 env1 h2 env2,
  ps = [to_film; ExtendChain (kk "d") 0 LTR any_node ["V"]; ExtendChain (kk "e") 1 LTR any_node ["Z"]]
  /\ q = ExtendChain (kk "f") 1 RTL film ["W"]
  /\ chain_run go_grow [] [] ps = Some (h1, env1) /\ chain_run go_grow [] [] (ps ++ [q]) = Some (h2, env2)
  /\ nth 2 env2 NoCells = nth 2 env1 NoCells
  /\ text (print env0 (chain_expr (read h1 (nth 2 env1 NoCells)))) = "(p:`Person`)-[:`X`]->(:`Film`)-[:`Y`]->()-[:`V`]->()-[:`Z`]->()"
  /\ text (print env0 (chain_expr (read h2 (nth 2 env1 NoCells)))) = "(p:`Person`)-[:`X`]->(:`Film`)-[:`Y`]->()-[:`V`]->()<-[:`W`]-(:`Film`)".
Proof.
  eexists. eexists.
  destruct (chain_run go_grow [] [] [to_film; ExtendChain (kk "d") 0 LTR any_node ["V"]; ExtendChain (kk "e") 1 LTR any_node ["Z"]]) as [[h1 env1]|] eqn:R1; [|vm_compute in R1; discriminate].
  destruct (chain_run go_grow [] [] ([to_film; ExtendChain (kk "d") 0 LTR any_node ["V"]; ExtendChain (kk "e") 1 LTR any_node ["Z"]] ++ [ExtendChain (kk "f") 1 RTL film ["W"]])) as [[h2 env2]|] eqn:R2; [|vm_compute in R2; discriminate].
  exists h1, env1, h2, env2. split; [reflexivity|]. split; [reflexivity|]. split; [exact R1|]. split; [exact R2|]. vm_compute in R1, R2. inversion R1; inversion R2; subst.
  repeat split; vm_compute; reflexivity.
Qed.
Print Assumptions C42_two_continuations_refuted.

(** ** C43: nodes have the name, labels and properties they were given *)

Inductive node_call := CallNamed (ks : nat -> key) (name : string) | CallNamedSym (s : sym) | CallProps (ks : nat -> key) (m : gmap).

Definition node_step (n : node) (c : node_call) : node :=
  match c with
  | CallNamed ks x => node_named_by_string ks n x
  | CallNamedSym s => node_named n s
  | CallProps ks m => node_set_properties ks n m
  end.

Definition good_node_call (c : node_call) : bool :=
  match c with
  | CallNamed _ x => negb (String.eqb x "")
  | CallNamedSym s => match s with Sym _ _ => true | _ => false end
  | CallProps _ m => match m with MapOk _ _ => true | _ => false end
  end.

(** The last name and the last properties given. *)
Fixpoint last_name (cs : list node_call) (before : option string) : option string :=
  match cs with
  | [] => before
  | CallNamed _ x :: cs' => last_name cs' (Some x)
  | CallNamedSym (Sym _ x) :: cs' => last_name cs' (Some x)
  | _ :: cs' => last_name cs' before
  end.
Fixpoint last_props (cs : list node_call) (before : option gmap) : option gmap :=
  match cs with
  | [] => before
  | CallProps _ m :: cs' => last_props cs' (Some m)
  | _ :: cs' => last_props cs' before
  end.

Definition name_of (n : node) : option string := match nd_sym n with Sym _ x => Some x | _ => None end.
Definition props_of (n : node) : option gmap := match nd_props n with Props _ m => Some m | _ => None end.

Theorem C43_node_calls : forall cs n, forallb good_node_call cs = true -> nd_err n = None ->
  let n' := fold_left node_step cs n in
  nd_err n' = None /\ map snd (nd_labels n') = map snd (nd_labels n)
  /\ name_of n' = last_name cs (name_of n) /\ props_of n' = last_props cs (props_of n)
  /\ (nd_not_nil n = true -> nd_not_nil n' = true).
Proof.
  induction cs as [|c cs IH]; intros n G E; [cbn; auto|]. cbn in G. apply andb_prop in G as [G1 G2]. cbn [fold_left].
  specialize (IH (node_step n c) G2).
  destruct c as [ks x|s|ks m]; cbn [node_step good_node_call last_name last_props] in *.
  - destruct (IH E) as (A & B & C & D & F). split; [exact A|]. split; [exact B|]. split; [|split; [exact D|exact F]].
    rewrite C. unfold name_of, node_named_by_string, symbolic_name_create. cbn. now destruct (String.eqb x "").
  - destruct s as [k x| |]; try discriminate. destruct (IH E) as (A & B & C & D & F). repeat split; auto.
  - destruct m as [k es| |]; try discriminate. destruct (IH eq_refl) as (A & B & C & D & F). repeat split; auto.
Qed.
Print Assumptions C43_node_calls.

(** The constructors: labels in order, with the properties given. *)
Theorem C43_constructors : forall ks primary more m,
  (primary <> "" -> nd_err (a_node ks primary) = None /\ map snd (nd_labels (a_node ks primary)) = [primary])
  /\ (primary <> "" -> ~ In "" more -> map_err m = None ->
      let n := node_with_properties ks primary m more in
      nd_err n = None /\ map snd (nd_labels n) = primary :: more /\ props_of n = Some m)
  /\ map snd (nd_labels (node_with_labels primary more)) = primary :: more
  /\ nd_labels any_node = [].
Proof.
  intros ks primary more m. assert (Z : primary <> "" -> String.eqb primary "" = false) by (intros H; now apply String.eqb_neq).
  split; [|split; [|split]].
  - intros H. unfold a_node. rewrite (Z H). split; reflexivity.
  - intros H N M n. unfold n, node_with_properties. rewrite (Z H).
    replace (existsb (fun l => String.eqb l "") more) with false.
    + cbn. split; [reflexivity|]. split; [f_equal|].
      * assert (X : forall (f : nat -> key) (l : list string) i, map snd (combine (map f (List.seq i (length l))) l) = l :> list string).
        { clear. induction l as [|x l IH]; intros i; [reflexivity|]. cbn. f_equal. apply IH. }
        apply (X (fun i => ks (2 + i))).
      * unfold props_of, properties_create. cbn. now rewrite M.
    + symmetry. apply not_true_iff_false. intros X. apply existsb_exists in X as (x & I & X). apply String.eqb_eq in X. subst. contradiction.
  - unfold node_with_labels. cbn. f_equal. rewrite map_map. cbn. apply map_id.
  - reflexivity.
Qed.
Print Assumptions C43_constructors.

(** How a node is written (for named nodes: the first time). *)
Theorem C43_node_text : forall E n m, transparent (print E (node_expr n)) m -> write (print E (node_expr n)) m = write (node_doc E n) m.
Proof. intros E n m T. rewrite plain_write by assumption. now apply node_text. Qed.
Print Assumptions C43_node_text.

Example C43_case :
  let n := fold_left node_step [CallNamed (kk "x") "q"; CallProps (kk "y") prop_map; CallNamed (kk "z") "p"] (node_with_properties (kk "n") "A" prop_map ["B"; "C"]) in
  text (print env0 (node_expr n)) = "(p:`A`:`B`:`C` {since: 2000})".
Proof. vm_compute. reflexivity. Qed.

(** NamedByString("") leaves the node without a name, and without error. *)
Theorem C43_empty_name_refuted : forall ks n, nd_err n = None ->
  nd_err (node_named_by_string ks n "") = None /\ name_of (node_named_by_string ks n "") = None.
Proof. intros ks n E. split; [exact E|reflexivity]. Qed.
Print Assumptions C43_empty_name_refuted.

(** Two nodes made by naming the same unnamed node count as the same node: the
    second is written without its labels. *)
Theorem C43_two_names_refuted : exists n a b,
  n = a_node (kk "n") "A" /\ a = node_named_by_string (kk "x") n "a" /\ b = node_named_by_string (kk "y") n "b"
  /\ text (print env0 (EPattern "P" [node_expr a; node_expr b])) = "(a:`A`), (b)".
Proof. do 3 eexists. do 3 (split; [reflexivity|]). vm_compute. reflexivity. Qed.
Print Assumptions C43_two_names_refuted.

(** So do all named nodes that NewNodeWithLabels makes. *)
Theorem C43_nodes_with_labels_refuted : exists a b,
  a = node_named_by_string (kk "x") (node_with_labels "A" ["B"]) "a" /\ b = node_named_by_string (kk "y") (node_with_labels "C" ["D"]) "b"
  /\ text (print env0 (EPattern "P" [node_expr a; node_expr b])) = "(a:`A`:`B`), (b)".
Proof. do 2 eexists. do 2 (split; [reflexivity|]). vm_compute. reflexivity. Qed.
Print Assumptions C43_nodes_with_labels_refuted.

(** WithRawProperties() without arguments writes an empty map. *)
Theorem C43_no_properties_refuted : exists n, node_raw_properties (Keys "" (fun _ => "") (fun _ => "") "") (kk "k") person [] = Returns n
  /\ text (print env0 (node_expr n)) = "(p:`Person` {})".
Proof. eexists. split; [reflexivity|]. vm_compute. reflexivity. Qed.
Print Assumptions C43_no_properties_refuted.

(** ** C44: errors in nodes, names and properties reach the pattern *)

(** A relationship with a bad node or a bad name has an error, and Match with it
    keeps it (C38). *)
Theorem C44_relationship_error_partial : forall ks l d r ts m,
  (nd_err l = Some m -> r_err (rel_create ks l d r ts) = Some m)
  /\ (nd_err l = None -> nd_err r = Some m -> r_err (rel_create ks l d r ts) = Some m)
  /\ (forall x, r_err (rel_change ks (SetName "") x) <> None).
Proof.
  intros. unfold rel_create. repeat split.
  - intros ->. reflexivity.
  - intros -> ->. reflexivity.
  - intros x. cbn. unfold rel_create3, details_named. cbn. destruct (nd_err (r_left x)); [discriminate|]. discriminate.
Qed.
Print Assumptions C44_relationship_error_partial.

(** Node constructors refuse exactly an empty label; naming a node by a symbolic
    name that is missing or has an error gives an error, and only that. *)
Theorem C44_node_errors : forall ks primary more m n s,
  (nd_err (a_node ks primary) <> None <-> primary = "")
  /\ (nd_err (node_with_properties ks primary m more) <> None <-> primary = "" \/ In "" more)
  /\ (nd_err n = None -> (nd_err (node_named n s) <> None <-> match s with Sym _ _ => False | _ => True end)).
Proof.
  intros ks primary more m n s. split; [|split].
  - unfold a_node. destruct (String.eqb_spec primary ""); cbn; [split; [auto|discriminate]|split; [congruence|contradiction]].
  - unfold node_with_properties. destruct (String.eqb_spec primary ""); [cbn; split; [auto|discriminate]|].
    destruct (existsb (fun l => String.eqb l "") more) eqn:X; cbn.
    + split; [|discriminate]. intros _. right. apply existsb_exists in X as (x & I & E). apply String.eqb_eq in E. now subst.
    + split; [congruence|]. intros [H|H]; [contradiction|]. exfalso.
      assert (existsb (fun l => String.eqb l "") more = true) by (apply existsb_exists; exists ""; split; [exact H|reflexivity]). congruence.
  - intros E. destruct s; cbn; [split; [congruence|tauto]|split; [auto|discriminate]|split; [auto|discriminate]].
Qed.
Print Assumptions C44_node_errors.

(** WithRawProperties with bad arguments has an error. *)
Theorem C44_raw_properties_error : forall K ks objs m n r, objs <> [] -> new_map K objs = Returns (GErr TOther m) ->
  (exists n', node_raw_properties K ks n objs = Returns n' /\ nd_err n' = Some m)
  /\ (exists r', rel_raw_properties K ks r objs = Returns r' /\ r_err r' = Some m).
Proof.
  intros K ks objs m n r H E. unfold node_raw_properties, rel_raw_properties. destruct objs; [congruence|]. rewrite E. split; eexists; split; reflexivity.
Qed.
Print Assumptions C44_raw_properties_error.

Example C44_case : exists K objs m, objs <> [] /\ new_map K objs = Returns (GErr TOther m) /\ nd_err (a_node (kk "a") "") <> None.
Proof.
  exists (Keys "" (fun _ => "") (fun _ => "") ""), [AString "k"], "new map expression". repeat split; try discriminate.
Qed.

(** The next call on such a relationship forgets the error, and the nodes. *)
Theorem C44_error_forgotten_refuted : forall ks ks', exists r,
  r = rel_change ks (SetName "") (rel_create ks' person LTR film ["X"]) /\ r_err r <> None
  /\ r_err (rel_change ks (SetMin 1) r) = None
  /\ text (print env0 (rel_expr (rel_change (kk "c") (SetMin 1) r))) = "()[*1..]()".
Proof.
  intros ks ks'. eexists. split; [reflexivity|]. split; [discriminate|]. split; [reflexivity|]. vm_compute. reflexivity.
Qed.
Print Assumptions C44_error_forgotten_refuted.

(** Exactly: after any calls on a relationship, it has an error if and only if the
    last of them gave it an empty name, whatever was wrong before.  Calls of
    WithProperties without a map change nothing if there are no properties. *)
Definition changes_something (c : change) : bool := match c with SetProps m => map_not_nil m | _ => true end.
Definition refused (c : change) : option string :=
  match c with SetName x => if String.eqb x "" then Some "symbolic name is required" else None | _ => None end.

Theorem C44_only_the_last_call_counts : forall ks l d r ts cs ks' c,
  changes_something c = true ->
  r_err (rel_change ks' c (fold_left (fun x (p : (nat -> key) * change) => rel_change (fst p) (snd p) x) cs (rel_create ks l d r ts))) = refused c.
Proof.
  intros ks l d r ts cs ks' c CS.
  assert (X : forall x, nd_err (r_left x) = None -> nd_err (r_right x) = None -> sym_err (dt_sym (r_details x)) = None -> props_err (dt_props (r_details x)) = None ->
    forall k ch, let y := rel_change k ch x in
      nd_err (r_left y) = None /\ nd_err (r_right y) = None /\ sym_err (dt_sym (r_details y)) = None /\ props_err (dt_props (r_details y)) = None
      /\ (changes_something ch = true -> r_err y = refused ch)).
  { intros x L R Sy P k ch.
    assert (C3 : forall t, sym_err (dt_sym t) = None -> props_err (dt_props t) = None -> let y := rel_create3 (k 0) (r_left x) t (r_right x) in
      nd_err (r_left y) = None /\ nd_err (r_right y) = None /\ sym_err (dt_sym (r_details y)) = None /\ props_err (dt_props (r_details y)) = None /\ r_err y = dt_err t).
    { intros t St Pt. unfold rel_create3. rewrite L, R. destruct (dt_err t); cbn; auto. }
    assert (DC : forall s ts' len p, sym_err s = None -> props_err p = None -> let t := details_create (dt_dir (r_details x)) s ts' len p in
      sym_err (dt_sym t) = None /\ props_err (dt_props t) = None /\ dt_err t = None).
    { intros s ts' len p A B. cbv zeta. unfold details_create. rewrite A, B. cbn. auto. }
    assert (Q : forall t, sym_err (dt_sym t) = None -> props_err (dt_props t) = None -> forall e, dt_err t = e -> let y := rel_create3 (k 0) (r_left x) t (r_right x) in
      nd_err (r_left y) = None /\ nd_err (r_right y) = None /\ sym_err (dt_sym (r_details y)) = None /\ props_err (dt_props (r_details y)) = None /\ r_err y = e).
    { intros t A B e <-. now apply C3. }
    assert (T : forall y e, nd_err (r_left y) = None /\ nd_err (r_right y) = None /\ sym_err (dt_sym (r_details y)) = None /\ props_err (dt_props (r_details y)) = None /\ r_err y = e ->
      nd_err (r_left y) = None /\ nd_err (r_right y) = None /\ sym_err (dt_sym (r_details y)) = None /\ props_err (dt_props (r_details y)) = None /\ (changes_something ch = true -> r_err y = e)) by intuition.
    destruct ch as [n| |z|z|lo hi|m]; cbn [rel_change refused changes_something].
    - apply T. unfold details_named. destruct (String.eqb_spec n ""); [now apply Q|].
      destruct (DC (symbolic_name_create (k 1) n) (dt_types (r_details x)) (dt_len (r_details x)) (dt_props (r_details x))) as (A & B & C); auto.
      unfold symbolic_name_create. destruct (String.eqb_spec n ""); [contradiction|reflexivity].
    - apply T. destruct (DC (dt_sym (r_details x)) (dt_types (r_details x)) (Some (k 1, true, None, None)) (dt_props (r_details x)) Sy P) as (A & B & C). now apply Q.
    - apply T. edestruct DC as (A & B & C); [exact Sy|exact P|]. apply Q; [exact A|exact B|exact C].
    - apply T. edestruct DC as (A & B & C); [exact Sy|exact P|]. apply Q; [exact A|exact B|exact C].
    - apply T. apply Q; unfold details_max, details_min, details_create; rewrite ?Sy, ?P; cbn [dt_sym dt_props dt_dir dt_err sym_err]; rewrite ?Sy, ?P; auto.
    - destruct m as [km es| |e]; cbn [map_not_nil negb andb].
      + apply T. unfold details_with, properties_create. cbn [map_err]. edestruct DC as (A & B & C); [exact Sy| |apply Q; [exact A|exact B|exact C]]. reflexivity.
      + destruct (props_not_nil (dt_props (r_details x))); cbn [negb]; [|repeat split; auto; discriminate].
        edestruct DC as (A & B & C); [exact Sy| |destruct (Q _ A B _ C) as (Q1 & Q2 & Q3 & Q4 & _); repeat split; try eassumption; discriminate]. reflexivity.
      + destruct (props_not_nil (dt_props (r_details x))); cbn [negb]; [|repeat split; auto; discriminate].
        edestruct DC as (A & B & C); [exact Sy| |destruct (Q _ A B _ C) as (Q1 & Q2 & Q3 & Q4 & _); repeat split; try eassumption; discriminate]. reflexivity. }
  assert (Y : forall cs x, nd_err (r_left x) = None -> nd_err (r_right x) = None -> sym_err (dt_sym (r_details x)) = None -> props_err (dt_props (r_details x)) = None ->
    r_err (rel_change ks' c (fold_left (fun x (p : (nat -> key) * change) => rel_change (fst p) (snd p) x) cs x)) = refused c).
  { clear cs. induction cs as [|[k ch] cs IH]; intros x L R Sy P; cbn [fold_left].
    - now apply (X x L R Sy P ks' c).
    - destruct (X x L R Sy P k ch) as (A & B & C & D & _). now apply IH. }
  unfold rel_create. destruct (nd_err l) eqn:L; [now apply Y|]. destruct (nd_err r) eqn:R; [now apply Y|].
  unfold rel_create3. rewrite L, R. cbn [details_create1 dt_err]. now apply Y.
Qed.
Print Assumptions C44_only_the_last_call_counts.

(** A chain has no error, whatever its relationships are: a bad node is
    rendered as an empty one. *)
Theorem C44_chain_refuted : exists bad h env,
  nd_err bad <> None
  /\ chain_run go_grow [] [] [StartChain (kk "a") (rel_create (kk "b") person LTR film ["X"]) LTR bad ["Y"];
                               ExtendChain (kk "c") 0 LTR film ["Z"]] = Some (h, env)
  /\ chain_value h (nth 1 env NoCells) = GOk (chain_expr (read h (nth 1 env NoCells)))
  /\ text (print env0 (chain_expr (read h (nth 1 env NoCells)))) = "(p:`Person`)-[:`X`]->()()-[:`Z`]->(:`Film`)".
Proof.
  exists (a_node (kk "x") "").
  destruct (chain_run go_grow [] [] [StartChain (kk "a") (rel_create (kk "b") person LTR film ["X"]) LTR (a_node (kk "x") "") ["Y"];
                               ExtendChain (kk "c") 0 LTR film ["Z"]]) as [[h env]|] eqn:R; [|vm_compute in R; discriminate].
  exists h, env. split; [discriminate|]. split; [reflexivity|]. vm_compute in R. inversion R; subst. split; vm_compute; reflexivity.
Qed.
Print Assumptions C44_chain_refuted.

(** WithProperties with a bad map: relationships ignore it, nodes lose their
    own error with it. *)
Theorem C44_properties_refuted : forall ks m,
  (exists r, r_err r = None /\ rel_change ks (SetProps (BadMap m)) r = r)
  /\ (exists n, nd_err n <> None /\ nd_err (node_set_properties ks n (BadMap m)) = None).
Proof.
  intros ks m. split.
  - exists (rel_create ks person LTR film []). split; reflexivity.
  - exists (a_node ks ""). split; [discriminate|reflexivity].
Qed.
Print Assumptions C44_properties_refuted.
