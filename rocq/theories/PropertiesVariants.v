(** C57: an abbreviation means the call it abbreviates. *)

From Coq Require Import Ascii String List ZArith Bool Lia.
From Verif Require Import GoStr Escape Num VTree Ast GoVal Patterns Cond Exprs Functions Queries Builder SpecPrint SpecBuilder Variants FunctionProofs.
From Verif Require Import PropertiesText PropertiesBuilder.
From Verif Require PropertiesExpr.
Import ListNotations.
Open Scope string_scope.
Open Scope list_scope.

(** ** What each abbreviation stands for *)

Definition variables (l : list string) (items : list gval) : Prop :=
  Forall2 (fun s g => s <> "" /\ exists k, g = GOk (ESym k s)) l items.

(** A node, relationship or path with a name and without error, and its name. *)
Definition variable_of (x : option named) (g : gval) : Prop :=
  exists n k s, x = Some n /\ n_err n = None /\ n_sym n = Sym k s /\ g = GOk (ESym k s).

Definition pattern_of (p : pattern) (c : cnd) : Prop := exists e k, p = Some (GOk e) /\ c = Atom (ERelCond k e).

Definition stands_for (c : any_call) (c' : call) : Prop :=
  match c, c' with
  | Full c, c' => c = c'
  | Short (ByString (VReturning b) l), Returning b' l' => b = b' /\ variables l l'
  | Short (ByString (VWith b) l), With b' l' => b = b' /\ variables l l'
  | Short (ByString (VDelete b) l), Delete b' l' => b = b' /\ variables l l'
  | Short (ByNamed (VReturning b) l), Returning b' l' => b = b' /\ Forall2 variable_of l l'
  | Short (ByNamed (VWith b) l), With b' l' => b = b' /\ Forall2 variable_of l l'
  | Short (ByNamed (VDelete b) l), Delete b' l' => b = b' /\ Forall2 variable_of l l'
  | Short (WherePattern p), Where c | Short (AndPattern p), AndC c | Short (OrPattern p), OrC c => pattern_of p c
  | Short (SetNamed x g), SetItems [v; g'] => variable_of x v /\ g' = g /\ error_of g = None
  | Short (OnActionNamed b x g), OnAction b' [v; g'] => b = b' /\ variable_of x v /\ g' = g /\ error_of g = None
  | Short (Unwinds l v), Builder.Unwind g v' => v = v' /\ first_error l = None /\ exists k k', g = GOk (EListExpr k (EExprs k' (sound_exprs l)))
  | Short (UnwindByString s v), Builder.Unwind g v' => v = v' /\ s <> "" /\ exists k, g = GOk (ESym k s)
  | Short (YieldString l), Yield l' => variables l l'
  | _, _ => False
  end.

Definition clear (c : any_call) : Prop := exists c', stands_for c c'.

Lemma names_of_strings_variables : forall ks l l', variables l l' -> variables l (names_of_strings ks l).
Proof.
  intros ks l l' H. induction H as [|s g l l' (N & _) _ IH]; cbn [names_of_strings]; [constructor|].
  destruct (String.eqb_spec s ""); [contradiction|]. constructor; [|exact IH]. split; [exact N|eexists; reflexivity].
Qed.

Lemma names_of_named_variables : forall l l', Forall2 variable_of l l' ->
  names_of_named l = l' /\ named_error l = None /\ Forall (fun x => match x with Some n => name_value (required_name n) = name_value (n_sym n) | None => True end) l.
Proof.
  intros l l' H. induction H as [|x g l l' (n & k & s & -> & E & Y & ->) _ (A & B & C)]; [repeat split; constructor|].
  unfold names_of_named in *. cbn [flat_map named_error]. rewrite Y, E, A, B. repeat split; try reflexivity.
  constructor; [|exact C]. unfold required_name. now rewrite Y.
Qed.

Lemma yield_variables : forall kn l l', variables l l' ->
  forall i, variables l (map (fun x => name_value (symbolic_name_create (kn (fst x)) (snd x))) (combine (seq i (length l)) l)).
Proof.
  intros kn l l' H. induction H as [|s g l l' (N & _) _ IH]; intros i; cbn; [constructor|]. constructor; [|apply IH].
  unfold symbolic_name_create. destruct (String.eqb_spec s ""); [contradiction|]. split; [exact N|eexists; reflexivity].
Qed.

Lemma single : forall x g, variable_of x g -> exists n, x = Some n /\ n_err n = None /\ name_value (n_sym n) = g /\ name_value (required_name n) = g.
Proof. intros x g (n & k & s & -> & E & Y & ->). exists n. unfold required_name. rewrite Y. now repeat split. Qed.

(** One call in any state of a builder. *)
Lemma short_as_full : forall kn c, clear (Short c) -> exists c', stands_for (Short c) c' /\
  (forall i j, any_offers i (Short c) = Some j -> offers i c' = Some j)
  /\ (forall ks s, short_step kn ks s c = step ks s c')
  /\ (forall ks, any_offers IStart (Short c) <> None -> short_start kn ks c = start ks c').
Proof.
  intros kn c (c0 & H).
  assert (O : forall c', (forall i, offers i c' = offers i (full_method c)) -> forall i j, any_offers i (Short c) = Some j -> offers i c' = Some j).
  { intros c' A i j B. rewrite A. unfold any_offers in B. destruct i; try exact B.
    destruct c as [[]| [] | | | | | | | | ]; try discriminate; try (destruct distinct; [discriminate|]); exact B. }
  destruct c as [v l|v l|p|p|p|x g|b x g|l v|s v|l].
  - (* ByString *)
    exists (verb_call v (names_of_strings kn l)). split; [|split; [|split]].
    + destruct v, c0; cbn [stands_for verb_call] in *; try contradiction; destruct H as [_ H]; split; try reflexivity; exact (names_of_strings_variables _ _ _ H).
    + apply O. intros i. destruct v, i; reflexivity.
    + intros ks [d|u|w|r|d p|p]; try reflexivity; destruct v; try reflexivity; cbn [short_step call_short step call_step verb_call]; reflexivity.
    + intros ks N. destruct v as [|[]|]; cbn in N; try congruence. reflexivity.
  - (* ByNamed *)
    exists (verb_call v (names_of_named l)).
    assert (G : exists l', Forall2 variable_of l l' /\ stands_for (Short (ByNamed v l)) (verb_call v l')).
    { destruct v, c0; cbn [stands_for verb_call] in *; try contradiction; destruct H as [_ H]; eexists; split; [exact H|split; [reflexivity|exact H]|exact H|split; [reflexivity|exact H]|exact H|split; [reflexivity|exact H]]. }
    destruct G as (l' & G & S0). destruct (names_of_named_variables _ _ G) as (A & B & _). rewrite A. split; [exact S0|split; [|split]].
    + apply O. intros i. destruct v, i; reflexivity.
    + intros ks [d|u|w|r|d p|p]; cbn [short_step d_short u_short w_short]; rewrite ?A; try reflexivity.
      * rewrite B. destruct (d_err d); reflexivity.
      * destruct v; reflexivity.
      * destruct v; cbn [call_short]; rewrite ?A; reflexivity.
      * destruct v; cbn [call_short]; rewrite ?A; reflexivity.
    + intros ks N. destruct v as [|[]|]; cbn in N; try congruence. cbn [short_start d_short d_new d_err]. rewrite B, A. reflexivity.
  - destruct c0; cbn [stands_for] in H; try contradiction. destruct H as (e & k & -> & ->).
    exists (Where (Atom (ERelCond (kn 0) e))). split; [eexists; eexists; split; reflexivity|split; [|split]].
    + apply O. intros i. destruct i; reflexivity.
    + intros ks [d|u|w|r|d p|p]; try reflexivity. cbn. unfold d_step. destruct (d_err d); reflexivity.
    + intros ks N. now destruct N.
  - destruct c0; cbn [stands_for] in H; try contradiction. destruct H as (e & k & -> & ->).
    exists (AndC (Atom (ERelCond (kn 0) e))). split; [eexists; eexists; split; reflexivity|split; [|split]].
    + apply O. intros i. destruct i; reflexivity.
    + intros ks [d|u|w|r|d p|p]; try reflexivity. cbn. unfold d_step. destruct (d_err d); reflexivity.
    + intros ks N. now destruct N.
  - destruct c0; cbn [stands_for] in H; try contradiction. destruct H as (e & k & -> & ->).
    exists (OrC (Atom (ERelCond (kn 0) e))). split; [eexists; eexists; split; reflexivity|split; [|split]].
    + apply O. intros i. destruct i; reflexivity.
    + intros ks [d|u|w|r|d p|p]; try reflexivity. cbn. unfold d_step. destruct (d_err d); reflexivity.
    + intros ks N. now destruct N.
  - destruct c0; cbn [stands_for] in H; try contradiction. destruct items as [|y [|g' [|]]]; try contradiction. destruct H as (V & -> & E).
    exists (SetItems [y; g]). split; [split; [exact V|split; [reflexivity|exact E]]|].
    destruct (single _ _ V) as (n & -> & En & A & B). split; [|split].
    + apply O. intros i. destruct i; reflexivity.
    + intros ks [d|u|w|r|d p|p]; cbn [short_step d_short u_short w_short call_short named_error]; rewrite ?En, ?A, ?B, ?E; try reflexivity.
      unfold step, d_step. destruct (d_err d); reflexivity.
    + intros ks N. now destruct N.
  - destruct c0; cbn [stands_for] in H; try contradiction. destruct items as [|y [|g' [|]]]; try contradiction. destruct H as (<- & V & -> & E).
    exists (OnAction b [y; g]). split; [split; [reflexivity|split; [exact V|split; [reflexivity|exact E]]]|].
    destruct (single _ _ V) as (n & -> & En & A & B). split; [|split].
    + apply O. intros i. destruct i; reflexivity.
    + intros ks [d|u|w|r|d p|p]; cbn [short_step d_short u_short w_short call_short named_error]; rewrite ?En, ?A, ?B, ?E; try reflexivity.
      unfold step, d_step. destruct (d_err d); [reflexivity|]. destruct (d_update d) as [[]|]; reflexivity.
    + intros ks N. now destruct N.
  - destruct c0; cbn [stands_for] in H; try contradiction. destruct H as (<- & F & _).
    assert (L : list_value kn l = GOk (EListExpr (kn 0) (EExprs (kn 1) (sound_exprs l)))) by (unfold list_value; now rewrite F).
    exists (Builder.Unwind (list_value kn l) v). split; [split; [reflexivity|split; [exact F|rewrite L; eexists; eexists; reflexivity]]|]. split; [|split].
    + apply O. intros i. destruct i; reflexivity.
    + intros ks [d|u|w|r|d p|p]; try reflexivity. cbn [short_step d_short]. rewrite F. unfold step, d_step. destruct (d_err d); reflexivity.
    + intros ks _. reflexivity.
  - destruct c0; cbn [stands_for] in H; try contradiction. destruct H as (<- & F & _).
    exists (Builder.Unwind (GOk (ESym (kn 0) s)) v). split; [split; [reflexivity|split; [exact F|eexists; reflexivity]]|].
    assert (L : name_value (symbolic_name_create (kn 0) s) = GOk (ESym (kn 0) s)).
    { unfold symbolic_name_create. destruct (String.eqb_spec s ""); [contradiction|reflexivity]. }
    split; [|split].
    + apply O. intros i. destruct i; reflexivity.
    + intros ks [d|u|w|r|d p|p]; cbn [short_step d_short w_short]; rewrite ?L; try reflexivity. unfold step, d_step. destruct (d_err d); reflexivity.
    + intros ks N. now destruct N.
  - destruct c0; cbn [stands_for] in H; try contradiction.
    exists (Yield (map (fun x => name_value (symbolic_name_create (kn (fst x)) (snd x))) (combine (seq 0 (length l)) l))).
    split; [exact (yield_variables kn _ _ H 0)|split; [|split]].
    + apply O. intros i. destruct i; reflexivity.
    + intros ks [d|u|w|r|d p|p]; try reflexivity. cbn [short_step d_short]. unfold step, d_step. destruct (d_err d); reflexivity.
    + intros ks N. now destruct N.
Qed.

Lemma any_as_full : forall kn c, clear c -> exists c', stands_for c c' /\
  (forall i j, any_offers i c = Some j -> offers i c' = Some j)
  /\ (forall ks s, any_step kn ks s c = step ks s c')
  /\ (forall ks, any_offers IStart c <> None -> any_start kn ks c = start ks c').
Proof.
  intros kn [c|c] H.
  - exists c. now repeat split.
  - exact (short_as_full kn c H).
Qed.

Lemma same_length : forall A B (R : A -> B -> Prop) l l', Forall2 R l l' -> length l = length l'.
Proof. intros A B R l l' H. induction H; [reflexivity|]. cbn. now f_equal. Qed.

Lemma run_as_full : forall KN p, Forall clear p -> exists q, Forall2 stands_for p q
  /\ (forall i j, any_compiles i p = Some j -> compiles i q = Some j)
  /\ (forall K s, any_run KN K s p = run K s q).
Proof.
  intros KN p H. induction H as [|c p C _ (q & F & T & R)].
  - exists []. now repeat split; try constructor.
  - destruct (any_as_full (KN (length p)) c C) as (c' & S0 & O & A & _). exists (c' :: q). split; [now constructor|split].
    + intros i j. cbn [any_compiles compiles]. destruct (any_offers i c) as [i'|] eqn:E; [|discriminate]. rewrite (O _ _ E). apply T.
    + intros K s. cbn [any_run run]. rewrite A. rewrite (same_length _ _ _ _ _ F). destruct (step (K (length q)) s c') as [[s'| |]|]; try reflexivity. apply R.
Qed.

(** A chain of calls and abbreviations builds what the chain of the calls that
    the abbreviations stand for builds. *)
Theorem C57_abbreviations_partial : forall KN p i, any_compiles IStart p = Some i -> Forall clear p ->
  exists q, Forall2 stands_for p q /\ compiles IStart q = Some i
    /\ forall K ks, any_build KN K ks p = build_program K ks q.
Proof.
  intros KN [|c p] i C H.
  - exists []. now repeat split; try constructor.
  - inversion H as [|a b Hc Hp]; subst. destruct (any_as_full (KN (length p)) c Hc) as (c' & S0 & O & _ & St).
    destruct (run_as_full KN p Hp) as (q & F & T & R). exists (c' :: q). split; [now constructor|]. cbn [any_compiles] in C.
    destruct (any_offers IStart c) as [i'|] eqn:E; [|discriminate]. split.
    + cbn [compiles]. rewrite (O _ _ E). now apply T.
    + intros K ks. unfold any_build, build_program. cbn [any_run_start run_start]. rewrite St, (same_length _ _ _ _ _ F) by (rewrite ?E; discriminate).
      destruct (start (K (length q)) c') as [[s'| |]|]; try reflexivity. now rewrite R.
Qed.
Print Assumptions C57_abbreviations_partial.

(** A case: every kind of abbreviation in a chain. *)
Definition shown_of (p : list any_call) : option string :=
  match any_build (fun i n => ("a" ++ K0 i n)%string) K0 (K0 99) p with
  | Some (Returns (Built (StOk q))) => Some (statement_text env0 q)
  | _ => None
  end.
Definition named_n : named := Named (Sym "sn" "n") true None "".
Definition named_m : named := Named (Sym "sm" "m") true None "".
Definition node_n : expr := ENode "n1" (Some ("sn", "n")) [] None.
Definition node_m : expr := ENode "m1" (Some ("sm", "m")) [] None.
Definition n_to_m : expr := ERel "r" node_n (EDetails "d" LTR None (Some ("t", ["KNOWS"])) None None) node_m.
Definition nodes : any_call := Full (Match false [GOk n_; GOk m_]).

Definition reading_chain : list any_call :=
  [nodes; Short (WherePattern (Some (GOk n_to_m))); Short (OrPattern (Some (GOk n_to_m)));
   Short (ByString (VWith false) ["n"; "m"]); Short (UnwindByString "n" "x"); Short (Unwinds [GOk nn; GOk mm] "y");
   Short (ByNamed (VReturning true) [Some named_n; Some named_m])].
Definition writing_chain : list any_call :=
  [nodes; Short (ByNamed (VWith true) [Some named_n]); Short (ByString (VDelete true) ["n"]);
   Full (Merge [GOk m_]); Short (OnActionNamed true (Some named_m) (GOk nn))].
Definition calling_chain : list any_call :=
  [Full (Proc ["labels"]); Short (YieldString ["label"; "other"]); Short (ByString (VReturning false) ["label"])].

Ltac made_clear :=
  eexists; cbn [stands_for];
  repeat match goal with
  | |- _ /\ _ => split
  | |- variables _ _ => unfold variables
  | |- Forall2 _ _ _ => constructor
  | |- exists _, _ => eexists
  end; try reflexivity; try discriminate.

Example C57_case :
  (any_compiles IStart reading_chain = Some IReadingAndReturn /\ Forall clear reading_chain
   /\ shown_of reading_chain = Some "MATCH (n:`Person`), (m:`Movie`) WHERE ((n)-[:`KNOWS`]->(m) OR (n)-[:`KNOWS`]->(m)) WITH n, m UNWIND n AS x UNWIND [n, m] AS y RETURN DISTINCT n, m")
  /\ (any_compiles IStart writing_chain = Some IMergeAction /\ Forall clear writing_chain
      /\ shown_of writing_chain = Some "MATCH (n:`Person`), (m:`Movie`) WITH DISTINCT n DETACH DELETE n MERGE (m) ON CREATE SET m = n")
  /\ any_compiles IStart calling_chain = Some IReadingAndReturn /\ Forall clear calling_chain
  /\ shown_of calling_chain = Some "CALL labels() YIELD label, other RETURN label".
Proof.
  repeat split; try (vm_compute; reflexivity).
  - unfold reading_chain. repeat constructor; unfold clear.
    + now eexists.
    + exists (Where (Atom (ERelCond "" n_to_m))). now eexists; eexists.
    + exists (OrC (Atom (ERelCond "" n_to_m))). now eexists; eexists.
    + exists (With false [GOk (ESym "" "n"); GOk (ESym "" "m")]). split; [reflexivity|]. repeat constructor; try discriminate; now eexists.
    + exists (Builder.Unwind (GOk (ESym "" "n")) "x"). split; [reflexivity|]. split; [discriminate|now eexists].
    + exists (Builder.Unwind (GOk (EListExpr "" (EExprs "" [nn; mm]))) "y"). split; [reflexivity|]. split; [reflexivity|now eexists; eexists].
    + exists (Returning true [GOk nn; GOk mm]). split; [reflexivity|]. repeat constructor; (eexists; eexists; eexists; repeat split; reflexivity).
  - unfold writing_chain. repeat constructor; unfold clear.
    + now eexists.
    + exists (With true [GOk nn]). split; [reflexivity|]. repeat constructor. eexists; eexists; eexists; repeat split; reflexivity.
    + exists (Delete true [GOk (ESym "" "n")]). split; [reflexivity|]. repeat constructor; try discriminate; now eexists.
    + now eexists.
    + exists (OnAction true [GOk mm; GOk nn]). split; [reflexivity|]. split; [eexists; eexists; eexists; repeat split; reflexivity|]. now split.
  - unfold calling_chain. repeat constructor; unfold clear.
    + now eexists.
    + exists (Yield [GOk (ESym "" "label"); GOk (ESym "" "other")]). repeat constructor; try discriminate; now eexists.
    + exists (Returning false [GOk (ESym "" "label")]). split; [reflexivity|]. repeat constructor; try discriminate; now eexists.
Qed.

(** ** Errors *)

(** The first error of what an abbreviation is given. *)
Definition given_error (c : short) : option string :=
  match c with
  | ByNamed _ l => named_error l
  | WherePattern p | AndPattern p | OrPattern p => pattern_error p
  | SetNamed x g | OnActionNamed _ x g => match named_error [x] with Some m => Some m | None => error_of g end
  | ByString _ _ | Unwinds _ _ | UnwindByString _ _ | YieldString _ => None
  end.
Definition state_error (s : state) : option string :=
  match s with D d => d_err d | U u => u_err u | W w => w_err w | R r => Builder.r_err r | I _ _ | Builder.S _ => None end.

(** The default builder, which is the one after MATCH, CREATE, MERGE, DELETE and
    UNWIND, reports the error of a node, relationship, path, pattern or value. *)
Theorem C57_errors_reported : forall kn ks d c m, d_err d = None -> given_error c = Some m ->
  exists s, short_step kn ks (D d) c = Some (Returns s)
    /\ (state_error s = Some m
        \/ (exists b x g, c = OnActionNamed b x g) /\ state_error s = Some "merge must have been invoked before defining an event").
Proof.
  intros kn ks d c m N G.
  destruct c as [v l|v l|p|p|p|x g|b x g|l v|s v|l]; cbn [given_error] in G; try discriminate; cbn [short_step d_short]; rewrite ?N.
  - rewrite G. eexists. split; [reflexivity|]. left. now destruct v.
  - rewrite G. eexists. split; [reflexivity|]. now left.
  - rewrite G. eexists. split; [reflexivity|]. now left.
  - rewrite G. eexists. split; [reflexivity|]. now left.
  - destruct (named_error [x]); [injection G as ->; eexists; split; [reflexivity|now left]|]. rewrite G. eexists. split; [reflexivity|now left].
  - destruct (d_update d) as [[]|]; try (eexists; split; [reflexivity|]; right; split; [now eexists; eexists; eexists|reflexivity]).
    destruct (named_error [x]); [injection G as ->; eexists; split; [reflexivity|now left]|]. rewrite G. eexists. split; [reflexivity|now left].
Qed.
Print Assumptions C57_errors_reported.

(** After a WITH or a CALL a pattern with an error is what the condition with this
    error is: it is not left out. *)
Theorem C57_pattern_errors : forall kn ks s t m,
  match s with W _ | I _ _ | Builder.S _ => True | _ => False end ->
  short_step kn ks s (WherePattern (Some (GErr t m))) = step ks s (Where (Bad m))
  /\ forall w, s = W w -> short_step kn ks s (AndPattern (Some (GErr t m))) = step ks s (AndC (Bad m))
                         /\ short_step kn ks s (OrPattern (Some (GErr t m))) = step ks s (OrC (Bad m)).
Proof. intros kn ks s t m H. split; [now destruct s|]. intros w ->. now split. Qed.
Print Assumptions C57_pattern_errors.

Definition broken_node : named := Named NoSym false (Some "primary label is required") "node get symbolic name:  no name present".

Example C57_errors_case :
  node_as_named (a_node (K0 0) "") = broken_node
  /\ given_error (ByNamed (VReturning false) [Some named_n; Some broken_node]) = Some "primary label is required"
  /\ any_build (fun _ => K0 0) K0 (K0 99) [nodes; Short (ByNamed (VReturning false) [Some named_n; Some broken_node])]
     = Some (Returns (BuildFails "primary label is required")).
Proof. repeat split; vm_compute; reflexivity. Qed.

(** After a WITH, a SET or a CALL the error is lost, and a random name is written. *)
Theorem C57_errors_lost_refuted :
  let bad_element v := Short (ByNamed v [Some named_n; Some broken_node]) in
  let lost := [[nodes; Short (ByString (VWith false) ["n"]); bad_element (VReturning false)];
               [nodes; Full (SetItems a_is_1); bad_element (VReturning false)];
               [nodes; Full (SetItems a_is_1); bad_element (VDelete false)];
               [Full (Proc ["labels"]); Short (YieldString ["n"]); bad_element (VReturning false)]] in
  Forall (fun p => exists i, any_compiles IStart p = Some i /\ buildable i = true) lost
  /\ map shown_of lost =
     [Some ("MATCH (n:`Person`), (m:`Movie`) WITH n RETURN n, " ++ e_guid env0)%string;
      Some ("MATCH (n:`Person`), (m:`Movie`) SET n.a = 1 RETURN n, " ++ e_guid env0)%string;
      Some ("MATCH (n:`Person`), (m:`Movie`) SET n.a = 1 DELETE n, " ++ e_guid env0)%string;
      Some ("CALL labels() YIELD n RETURN n, " ++ e_guid env0)%string].
Proof. cbv zeta. split; [repeat constructor; eexists; split; vm_compute; reflexivity|vm_compute; reflexivity]. Qed.
Print Assumptions C57_errors_lost_refuted.

(** After a WITH the error of a pattern is lost, too, and the conditions it is
    joined to are lost with it. *)
Theorem C57_pattern_error_lost_refuted :
  let chain cs := nodes :: Short (ByString (VWith false) ["n"]) :: cs ++ [Short (ByString (VReturning false) ["n"])] in
  let lost := [chain [Short (WherePattern (Some bad))]; chain [Full (Where (cond "a")); Short (AndPattern (Some bad))]] in
  Forall (fun p => exists i, any_compiles IStart p = Some i /\ buildable i = true) lost
  /\ map shown_of lost = [Some "MATCH (n:`Person`), (m:`Movie`) WITH n RETURN n"; Some "MATCH (n:`Person`), (m:`Movie`) WITH n RETURN n"].
Proof. cbv zeta. split; [repeat constructor; eexists; split; vm_compute; reflexivity|vm_compute; reflexivity]. Qed.
Print Assumptions C57_pattern_error_lost_refuted.

(** An empty name, a missing element and an element without name are not
    reported: the first two are left out, the third is written as a random name. *)
Theorem C57_missing_names_refuted :
  shown_of [nodes; Short (ByString (VReturning false) ["n"; ""; "m"])] = Some "MATCH (n:`Person`), (m:`Movie`) RETURN n, m"
  /\ shown_of [nodes; Short (ByNamed (VReturning false) [Some named_n; None])] = Some "MATCH (n:`Person`), (m:`Movie`) RETURN n"
  /\ shown_of [nodes; Short (ByNamed (VReturning false) [Some (Named NoSym true None "")])]
     = Some ("MATCH (n:`Person`), (m:`Movie`) RETURN " ++ e_guid env0)%string
  /\ shown_of [Full (Proc ["labels"]); Short (YieldString ["a"; ""])] = Some "CALL labels()".
Proof. repeat split; vm_compute; reflexivity. Qed.
Print Assumptions C57_missing_names_refuted.

(** Errors of what is unwound panic, and so do nil patterns and elements. *)
Theorem C57_panics_refuted : forall KN K ks,
  any_build KN K ks [nodes; Short (UnwindByString "" "x")] = Some Panics
  /\ any_build KN K ks [nodes; Short (Unwinds [bad] "x")] = Some Panics
  /\ any_build KN K ks [nodes; Short (WherePattern None)] = Some Panics
  /\ any_build KN K ks [nodes; Short (SetNamed None (GOk nn))] = Some Panics.
Proof. intros. repeat split; reflexivity. Qed.
Print Assumptions C57_panics_refuted.

(** ** Procedures by name *)

Definition has_separator (s : string) : Prop := exists a b, s = (a ++ "\." ++ b)%string.

Lemma sapp_assoc : forall a b c : string, ((a ++ b) ++ c)%string = (a ++ b ++ c)%string.
Proof. intros a b c. induction a as [|x a IH]; cbn; [reflexivity|now rewrite IH]. Qed.

Lemma sapp_empty : forall a : string, (a ++ "")%string = a.
Proof. induction a as [|x a IH]; cbn; [reflexivity|now rewrite IH]. Qed.

Lemma split_whole : forall s cur, ~ has_separator s -> split_dots cur s = [(cur ++ s)%string].
Proof.
  induction s as [|a s IH]; intros cur N; cbn [split_dots]; [now rewrite sapp_empty|].
  assert (N' : ~ has_separator s).
  { intros (x & y & ->). apply N. exists (String a x), y. reflexivity. }
  destruct s as [|b s].
  - rewrite IH by exact N'. now rewrite sapp_assoc.
  - destruct (Ascii.eqb_spec a "\"%char) as [->|Na]; cbn [andb].
    + destruct (Ascii.eqb_spec b "."%char) as [->|Nb].
      * destruct N. exists "", s. reflexivity.
      * rewrite IH by exact N'. now rewrite sapp_assoc.
    + rewrite IH by exact N'. now rewrite sapp_assoc.
Qed.

(** A procedure is called by the name that was given, dots included. *)
Theorem C57_call_by_name_partial : forall k name, name <> "" -> ~ has_separator name ->
  forall ks, exists s, call_simple k name = Returns s
    /\ start ks (Proc [name]) = Some (Returns s)
    /\ exists k0 k1 k2, build ks s = Some (Returns (Built (StOk (QCall k0 k1 None name (Some (EArgs k2 [])) None None)))).
Proof.
  intros k name N S0 ks. unfold call_simple. destruct (String.eqb_spec name ""); [contradiction|]. rewrite split_whole by exact S0.
  eexists. split; [reflexivity|]. split; [reflexivity|]. eexists. eexists. eexists. reflexivity.
Qed.
Print Assumptions C57_call_by_name_partial.

Example C57_call_by_name_case : ~ has_separator "db.labels"
  /\ (match call_simple "k" "db.labels" with
      | Returns s => match build (K0 1) s with Some (Returns (Built (StOk q))) => Some (statement_text env0 q) | _ => None end
      | _ => None
      end) = Some "CALL db.labels()".
Proof.
  split; [|vm_compute; reflexivity]. intros (a & b & H).
  do 10 (destruct a as [|? a]; [discriminate H|]; cbn in H; try (injection H as _ H)). discriminate H.
Qed.

(** A name is split at every backslash that is followed by a dot, into the parts
    as they were. *)
Lemma split_first : forall s cur r, ~ has_separator s -> split_dots cur (s ++ "\." ++ r)%string = (cur ++ s)%string :: split_dots "" r.
Proof.
  induction s as [|a s IH]; intros cur r N; [cbn; now rewrite sapp_empty|].
  assert (N' : ~ has_separator s). { intros (x & y & ->). apply N. exists (String a x), y. reflexivity. }
  destruct s as [|b s].
  - specialize (IH (cur ++ String a "")%string r N'). cbn [append] in *. cbn [split_dots] in *. destruct (Ascii.eqb_spec a "\"%char) as [->|Na]; cbn [andb]; rewrite sapp_empty in IH; exact IH.
  - specialize (IH (cur ++ String a "")%string r N'). rewrite sapp_assoc in IH. cbn [append] in IH |- *. rewrite <- IH. cbn [split_dots].
    destruct (Ascii.eqb_spec a "\"%char) as [->|Na]; cbn [andb]; [|reflexivity]. destruct (Ascii.eqb_spec b "."%char) as [->|Nb]; [|reflexivity].
    destruct N. exists "", s. reflexivity.
Qed.
Theorem C57_split_name : forall parts, parts <> [] -> Forall (fun s => ~ has_separator s) parts -> split_dots "" (String.concat "\." parts) = parts.
Proof.
  induction parts as [|s parts IH]; intros N F; [congruence|]. inversion F as [|? ? F1 F2]; subst. destruct parts as [|s' parts]; [now apply split_whole|].
  change (String.concat "\." (s :: s' :: parts)) with (s ++ "\." ++ String.concat "\." (s' :: parts))%string. rewrite split_first by exact F1. now rewrite IH by (discriminate || exact F2).
Qed.
Print Assumptions C57_split_name.

(** So it is the call with these parts. *)
Theorem C57_separated_name : forall ks parts, String.concat "\." parts <> "" -> Forall (fun s => ~ has_separator s) parts ->
  exists k, start ks (Proc parts) = Some (call_simple k (String.concat "\." parts)).
Proof.
  intros ks parts N F. unfold call_simple. destruct (String.eqb_spec (String.concat "\." parts) ""); [contradiction|].
  rewrite C57_split_name; [|intros ->; now apply N|exact F]. exists (ks 0). destruct parts as [|a [|b parts]]; [now destruct N|reflexivity|reflexivity].
Qed.
Print Assumptions C57_separated_name.
Example C57_separated_case : String.concat "\." ["apoc"; "meta"; "data"] = "apoc\.meta\.data" /\ split_dots "" "apoc\.meta\.data" = ["apoc"; "meta"; "data"].
Proof. split; vm_compute; reflexivity. Qed.

(** A name with a backslash before a dot loses what precedes it, and no error is
    reported for the empty name. *)
Theorem C57_call_by_name_refuted :
  (forall name, name <> "" -> (match call_simple "k" name with Returns (Builder.S p) => snd (p_name p) = name | _ => False end)) -> False.
Proof. intros H. specialize (H "a\.b" ltac:(discriminate)). vm_compute in H. discriminate. Qed.
Print Assumptions C57_call_by_name_refuted.

Theorem C57_empty_call_refuted : forall k ks,
  exists s q, call_simple k "" = Returns s /\ build ks s = Some (Returns (Built (StOk q))) /\ statement_text env0 q = "CALL ()".
Proof. intros. eexists. eexists. split; [reflexivity|]. split; [reflexivity|]. vm_compute. reflexivity. Qed.
Print Assumptions C57_empty_call_refuted.

(** ** A procedure as a function *)

(** ACall(parts...).WithArgs(args...).AsFunction() must call the function by the
    parts joined with dots; the call starts with a dot instead, whatever the
    parts are, and only has the last one. *)
Theorem C57_as_function_refuted : forall ks a p parts args es, a <> "."%char -> goods args es -> es <> [] ->
  let name := String.concat "." (String a p :: parts) in
  let written := ("." ++ last (String a p :: parts) "")%string in
  (exists ka, as_function ks (String a p :: parts) args = Returns (made (Good (EFun (ks 0) written ka es)))) /\ written <> name.
Proof.
  intros ks a p parts args es N G E name written. split.
  - exists (ks 1). unfold as_function, procedure_name. destruct parts as [|q parts]; (rewrite (function_ok ks _ _ _ G E)); reflexivity.
  - subst name written. intros H. destruct parts as [|q parts]; cbn in H; injection H as H _; congruence.
Qed.
Print Assumptions C57_as_function_refuted.

Example C57_as_function_case :
  goods [made (Good nn)] [nn]
  /\ exists v, as_function (K0 0) ["apoc"; "text"; "clean"] [made (Good nn)] = Returns (made (Good v))
     /\ PropertiesExpr.says (made (Good v)) = Some ".clean(n)".
Proof. split; [repeat constructor; eexists; reflexivity|]. eexists. split; [reflexivity|]. vm_compute. reflexivity. Qed.
