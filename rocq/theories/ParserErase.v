(** The reader of SpecGrammar.v does not look at the values of string literals:
    from tokens without them it reads the tree without them. *)

From Coq Require Import Ascii String List Bool Arith Lia.
From Verif Require Import GoStr SpecTokens SpecOutline SpecGrammar SpecStrings.
Import ListNotations.
Open Scope string_scope.
Open Scope list_scope.

Notation er := (map erase).
Definition lift {A} (b : A -> A) (o : option (A * list token)) : option (A * list token) :=
  match o with Some (x, r) => Some (b x, er r) | None => None end.
(** [p] does not look at the values of string literals. *)
Definition blind {A} (b : A -> A) (p : reader A) : Prop := forall ts, p (er ts) = lift b (p ts).

Lemma bind_lift : forall A B (a : A -> A) (b : B -> B) o (k l : A -> list token -> option (B * list token)),
  (forall x r, k (a x) (er r) = lift b (l x r)) -> bind (lift a o) k = lift b (bind o l).
Proof. intros A B a b [[x r]|] k l H; [apply H|reflexivity]. Qed.

(** ** Tokens *)

Lemma is_mark_er : forall m ts, is_mark m (er ts) = option_map er (is_mark m ts).
Proof. intros m [|[] ts]; try reflexivity. cbn [map erase is_mark]. destruct (String.eqb _ m); reflexivity. Qed.
Lemma is_word_er : forall m ts, is_word m (er ts) = option_map er (is_word m ts).
Proof. intros m [|[] ts]; try reflexivity. cbn [map erase is_word]. destruct (one_of [m] _); reflexivity. Qed.
Lemma maybe_name_er : forall ts, maybe_name (er ts) = (fst (maybe_name ts), er (snd (maybe_name ts))).
Proof. intros [|[] ts]; reflexivity. Qed.
Lemma blind_a_name : blind (fun x => x) a_name.
Proof. intros [|[] ts]; reflexivity. Qed.

Definition paired {A} (x : A * list token) : A * list token := (fst x, er (snd x)).

Lemma two : forall (P : list token -> Prop), P [] -> (forall t, P [t]) -> (forall t u r, P r -> P (t :: u :: r)) -> forall l, P l.
Proof.
  intros P A B C. assert (H : forall l, P l /\ forall t, P (t :: l)).
  { induction l as [|x l [IH1 IH2]]; [auto|]. split; [apply IH2|]. intros t. now apply C. }
  intros l. apply H.
Qed.
Lemma labels_of_er : forall ts, labels_of (er ts) = paired (labels_of ts).
Proof.
  apply two; [reflexivity|intros []; reflexivity|]. intros [] u r IH; try reflexivity. cbn [map erase labels_of].
  destruct (String.eqb _ ":"); [|reflexivity]. destruct u; cbn [erase]; try reflexivity; rewrite IH; destruct (labels_of r); reflexivity.
Qed.
Lemma types_more_er : forall ts, types_more (er ts) = paired (types_more ts).
Proof.
  apply two; [reflexivity|intros []; reflexivity|]. intros [] u r IH; try reflexivity. cbn [map erase types_more].
  destruct (String.eqb _ "|"); [|reflexivity]. destruct u; cbn [erase]; try reflexivity; rewrite IH; destruct (types_more r); reflexivity.
Qed.
Lemma dotted_er : forall ts, dotted (er ts) = paired (dotted ts).
Proof.
  apply two; [reflexivity|intros []; reflexivity|]. intros [] u r IH; try reflexivity. cbn [map erase dotted].
  destruct (String.eqb _ "."); [|reflexivity]. destruct u; cbn [erase]; try reflexivity; rewrite IH; destruct (dotted r); reflexivity.
Qed.
Lemma blind_types_of : blind (fun x => x) types_of.
Proof.
  intros ts. unfold types_of. rewrite is_mark_er. destruct (is_mark ":" ts) as [r|]; cbn [option_map]; [|reflexivity].
  rewrite blind_a_name. apply bind_lift. intros x l. rewrite types_more_er. destruct (types_more l). reflexivity.
Qed.
Lemma numeral_er : forall ts, numeral (er ts) = paired (numeral ts).
Proof. intros [|[] [|[] ts]]; try reflexivity; cbn [map erase numeral]; destruct (String.eqb _ "-"); reflexivity. Qed.
Lemma length_of_er : forall ts, length_of (er ts) = paired (length_of ts).
Proof.
  intros ts. unfold length_of. rewrite is_mark_er. destruct (is_mark "*" ts) as [r|]; cbn [option_map]; [|reflexivity].
  rewrite numeral_er. destruct (numeral r) as [lo r']. unfold paired. cbn [fst snd]. rewrite is_mark_er. destruct (is_mark ".." r') as [l|]; cbn [option_map]; [|reflexivity].
  rewrite numeral_er. destruct (numeral l). reflexivity.
Qed.
Lemma arrow_er : forall ts, arrow (er ts) = arrow ts.
Proof.
  intros ts. unfold arrow. rewrite !is_mark_er. destruct (is_mark "<" ts) as [r|]; cbn [option_map]; [rewrite is_mark_er; destruct (is_mark "-" r) as [[|[] l]|]|
    destruct (is_mark "-" ts) as [[|[] l]|]]; reflexivity.
Qed.
Lemma filter_ahead_er : forall ts, filter_ahead (er ts) = filter_ahead ts.
Proof. intros [|[] [|[] ts]]; reflexivity. Qed.
Lemma infix_of_er : forall ts, infix_of (er ts) = option_map (fun x => (fst x, er (snd x))) (infix_of ts).
Proof.
  intros [|[] ts]; try reflexivity; cbn [map erase infix_of].
  - rewrite !is_word_er. repeat match goal with |- context [if ?b then _ else _] => destruct b; try reflexivity end; destruct (is_word "WITH" ts); reflexivity.
  - destruct (mark_operator _) as [[l o]|]; reflexivity.
Qed.
Lemma null_test_er : forall ts, null_test (er ts) = option_map paired (null_test ts).
Proof.
  intros ts. unfold null_test. rewrite is_word_er. destruct (is_word "IS" ts) as [r|]; cbn [option_map]; [|reflexivity].
  rewrite !is_word_er. destruct (is_word "NULL" r); cbn [option_map]; [reflexivity|]. destruct (is_word "NOT" r) as [l|]; cbn [option_map]; [|reflexivity].
  rewrite is_word_er. destruct (is_word "NULL" l); reflexivity.
Qed.
Lemma step_er : forall s t, step s (erase t) = step s t.
Proof. intros s []; reflexivity. Qed.
Lemma called_er : forall m t, called m (erase t) = called m t.
Proof. intros m []; reflexivity. Qed.
Lemma node_ahead_er : forall ts s, node_ahead s (er ts) = option_map er (node_ahead s ts).
Proof.
  induction ts as [|t ts IH]; intros s; cbn [map node_ahead]; [reflexivity|]. rewrite called_er, step_er. destruct (may_end s && called ")" t)%bool; [reflexivity|apply IH].
Qed.
Lemma pattern_ahead_er : forall ts, pattern_ahead (er ts) = pattern_ahead ts.
Proof. intros ts. unfold pattern_ahead. rewrite node_ahead_er. destruct (node_ahead Start ts); cbn [option_map]; [apply arrow_er|reflexivity]. Qed.
Lemma query_ends_er : forall ts, query_ends (er ts) = query_ends ts.
Proof. intros [|[] ts]; reflexivity. Qed.
Lemma maybe_distinct_er : forall ts, maybe_distinct (er ts) = paired (maybe_distinct ts).
Proof. intros ts. unfold maybe_distinct. rewrite is_word_er. destruct (is_word "DISTINCT" ts); reflexivity. Qed.
Lemma path_of_hollow : forall x, path_of (hollow x) = path_of x.
Proof. fix IH 1. intros []; try reflexivity. cbn [hollow path_of]. now rewrite IH. Qed.
Lemma comprehension_hollow : forall x w d,
  comprehension (hollow x) (option_map hollow w) (option_map hollow d) = option_map hollow (comprehension x w d).
Proof.
  intros x w d. unfold comprehension. destruct w, d; cbn [option_map]; try reflexivity; destruct x as [| | | | | | | | | | | | | | | |[]a b| | | | | | | |];
    cbn [hollow]; try reflexivity; destruct a; cbn [hollow]; try reflexivity; destruct b; reflexivity.
Qed.

Lemma turned_hollow : forall h x, turned h (hollow_rel x) = hollow_rel (turned h x).
Proof. intros h []. reflexivity. Qed.

Ltac simp := rewrite ?is_mark_er, ?is_word_er, ?maybe_name_er, ?labels_of_er, ?length_of_er, ?arrow_er, ?filter_ahead_er, ?infix_of_er,
  ?null_test_er, ?pattern_ahead_er, ?query_ends_er, ?maybe_distinct_er, ?dotted_er, ?path_of_hollow, ?turned_hollow, ?comprehension_hollow, ?map_length; unfold paired.
Ltac go := repeat (intros; cbn [option_map fst snd]; simp; first
  [ reflexivity
  | match goal with
    | M : blind _ _ |- bind _ _ = _ => rewrite M
    | M : forall _, blind _ _ |- bind _ _ = _ => rewrite M
    | |- bind (lift _ _) _ = lift _ (bind _ _) => apply bind_lift
    | M : blind _ _ |- _ => apply M
    | M : forall _, blind _ _ |- _ => apply M
    | |- match option_map _ (infix_of ?s) with _ => _ end = _ => destruct (infix_of s) as [[[? ?] ?]|]
    | |- match option_map _ (null_test ?s) with _ => _ end = _ => destruct (null_test s) as [[? ?]|]
    | |- match option_map _ ?s with _ => _ end = _ => destruct s
    | |- match match option_map _ ?s with _ => _ end with _ => _ end = _ => destruct s
    | |- context [let (_, _) := (_, _) in _] => progress cbv iota beta
    | |- context [let (_, _) := ?s in _] => destruct s
    | |- (if ?s then _ else _) = _ => destruct s
    | |- match ?s with _ => _ end = _ => destruct s
    end ]).

Section Lists.
Context {A : Type} (b : A -> A) (p : reader A) (M : blind b p).

Lemma blind_maybe_after : forall w, blind (option_map b) (maybe_after w p).
Proof. intros w ts. unfold maybe_after. go. Qed.
Lemma blind_more : forall n, blind (map b) (more n p).
Proof. induction n as [|n IH]; intros ts; cbn [more]; go. Qed.
Lemma blind_items : blind (map b) (items p).
Proof. pose proof blind_more as L. intros ts. unfold items. go. Qed.
Lemma blind_items_until : forall m, blind (map b) (items_until m p).
Proof. pose proof blind_items as L. intros m ts. unfold items_until. go. Qed.
End Lists.

Definition hollow_entry (e : string * cx) : string * cx := (fst e, hollow (snd e)).
Definition hollow_hop (h : crel * cnode) : crel * cnode := (hollow_rel (fst h), hollow_node (snd h)).
Definition hollow_chain (c : cnode * list (crel * cnode)) : cnode * list (crel * cnode) := (hollow_node (fst c), map hollow_hop (snd c)).
Definition hollow_args (a : bool * list cx) : bool * list cx := (fst a, map hollow (snd a)).
Definition hollow_filter (a : string * cx * option cx) : string * cx * option cx := (fst (fst a), hollow (snd (fst a)), option_map hollow (snd a)).
Definition hollow_when (x : cx * cx) : cx * cx := (hollow (fst x), hollow (snd x)).

Section Parts.
Context (p : reader cx) (M : blind hollow p).
Let A0 := blind_a_name.
Let A1 := blind_types_of.

Lemma blind_entry : blind hollow_entry (entry p).
Proof.
  pose proof A0. pose proof A1. intros ts. unfold entry. go.
Qed.
Lemma blind_entries : blind (map hollow_entry) (entries p).
Proof.
  pose proof A0. pose proof A1. pose proof (blind_items_until _ _ blind_entry) as L0. intros ts. unfold entries. go.
Qed.
Lemma blind_properties : blind (option_map (map hollow_entry)) (properties p).
Proof.
  pose proof A0. pose proof A1. pose proof (blind_entries) as L0. intros ts. unfold properties. go.
Qed.
Lemma blind_projection : blind hollow_proj (projection p).
Proof.
  pose proof A0. pose proof A1. intros ts. unfold projection. go.
Qed.
Lemma blind_a_node : blind hollow_node (a_node p).
Proof.
  pose proof A0. pose proof A1. pose proof (blind_properties) as L0. intros ts. unfold a_node. go.
Qed.
Lemma blind_details : forall h, blind hollow_rel (details p h).
Proof.
  pose proof A0. pose proof A1. pose proof (blind_properties) as L0. intros h ts. unfold details. go.
Qed.
Lemma blind_a_rel : blind hollow_rel (a_rel p).
Proof.
  pose proof A0. pose proof A1. pose proof (blind_details) as L0. intros ts. unfold a_rel. go.
Qed.
Lemma blind_hops : forall n, blind (map hollow_hop) (hops p n).
Proof.
  pose proof A0. pose proof A1. pose proof (blind_a_rel) as L0. pose proof (blind_a_node) as L1. 
  induction n as [|n IH]; intros ts; cbn [hops]; go.
Qed.
Lemma blind_a_chain : blind hollow_chain (a_chain p).
Proof.
  pose proof A0. pose proof A1. pose proof (blind_a_node) as L0. pose proof (blind_hops) as L1. intros ts. unfold a_chain. go.
Qed.
Lemma blind_a_part_of : forall path, blind hollow_part (a_part_of p path).
Proof.
  pose proof blind_a_chain as L. intros path ts.
  assert (D : bind (a_chain p (er ts)) (fun c r => Some (CPart path None (fst c) (snd c), r)) =
              lift hollow_part (bind (a_chain p ts) (fun c r => Some (CPart path None (fst c) (snd c), r)))) by go.
  destruct ts as [|[] [|[] ts]]; try exact D. cbn [map erase a_part_of]. go.
Qed.
Lemma blind_a_part : blind hollow_part (a_part p).
Proof.
  pose proof blind_a_part_of as L. intros ts. pose proof (L None ts) as D.
  destruct ts as [|[] [|[] ts]]; try exact D; cbn [map erase a_part]; (destruct (String.eqb _ "="); [apply L|exact D]).
Qed.
Lemma blind_arguments : blind hollow_args (arguments p).
Proof.
  pose proof A0. pose proof A1. pose proof (blind_items_until _ _ M) as L0. intros ts. unfold arguments. go.
Qed.
Lemma blind_a_filter : blind hollow_filter (a_filter p).
Proof.
  pose proof A0. pose proof A1. pose proof (blind_maybe_after _ _ M "WHERE") as L0. intros ts. unfold a_filter. go.
Qed.
Lemma blind_whens : forall n, blind (map hollow_when) (whens p n).
Proof.
  pose proof A0. pose proof A1. 
  induction n as [|n IH]; intros ts; cbn [whens]; go.
Qed.
Lemma blind_a_case : blind hollow (a_case p).
Proof.
  pose proof blind_whens as L0. pose proof (blind_maybe_after _ _ M "ELSE") as L1.
  assert (L2 : blind (option_map hollow) (fun ts => match is_word "WHEN" ts with
    | Some _ => Some (None, ts) | None => bind (p ts) (fun s r => Some (Some s, r)) end)) by (intros ts; go).
  intros ts. unfold a_case. specialize (L2 ts). cbv beta in L2. rewrite L2. go.
Qed.
Lemma blind_maybe_result : blind (option_map hollow) (maybe_result p).
Proof.
  pose proof A0. pose proof A1. intros ts. unfold maybe_result. go.
Qed.
Lemma blind_a_list : blind hollow (a_list p).
Proof.
  pose proof A0. pose proof A1. pose proof (blind_maybe_result) as L0. pose proof (blind_a_filter) as L1. pose proof (blind_maybe_after _ _ M "WHERE") as L2. pose proof (blind_more _ _ M) as L3. intros ts. unfold a_list. go.
Qed.
Lemma blind_subscript : forall x ts, subscript p (hollow x) (er ts) = lift hollow (subscript p x ts).
Proof.
  assert (L2 : blind (option_map hollow) (fun ts => match is_mark ".." ts with
    | Some _ => Some (None, ts) | None => bind (p ts) (fun s r => Some (Some s, r)) end)) by (intros ts; go).
  intros x ts. unfold subscript. specialize (L2 ts). cbv beta in L2. rewrite L2. go.
Qed.
Lemma blind_an_exists : blind hollow (an_exists p).
Proof.
  pose proof A0. pose proof A1. pose proof (blind_items _ _ blind_a_part) as L0. pose proof (blind_maybe_after _ _ M "WHERE") as L1. intros ts. unfold an_exists. go.
Qed.
End Parts.

Theorem expressions_blind : forall f,
  (forall n, blind hollow (expr_at f n)) /\ (forall n x ts, operators f n (hollow x) (er ts) = lift hollow (operators f n x ts)) /\
  (forall x ts, tests f (hollow x) (er ts) = lift hollow (tests f x ts)) /\ (forall x ts, postfix f (hollow x) (er ts) = lift hollow (postfix f x ts)) /\
  blind hollow (atom f).
Proof.
  pose proof blind_a_name as LN.
  induction f as [|f (IE & IO & IT & IP & IA)]; [repeat split; repeat intro; reflexivity|].
  pose proof (blind_subscript _ (IE 0)) as L1. pose proof (blind_a_filter _ (IE 0)) as L2. pose proof (blind_arguments _ (IE 0)) as L3.
  pose proof (blind_items_until _ _ (blind_projection _ (IE 0))) as L4. pose proof (blind_a_case _ (IE 0)) as L5.
  pose proof (blind_an_exists _ (IE 0)) as L6. pose proof (blind_a_list _ (IE 0)) as L7. pose proof (blind_entries _ (IE 0)) as L8.
  pose proof (blind_a_chain _ (IE 0)) as L9.
  Ltac fin IO IT IP := go; intros; cbn [option_map fst snd]; try first
    [ apply IO | apply IT | apply IP
    | match goal with |- operators _ _ (XBin _ _ _) _ = _ => idtac end; rewrite <- IO; reflexivity
    | match goal with |- tests _ _ _ = _ => idtac end; rewrite <- IT; reflexivity
    | match goal with |- postfix _ _ _ = _ => idtac end; rewrite <- IP; reflexivity ].
  repeat split.
  - intros n ts. cbn [expr_at]. fin IO IT IP.
  - intros n x ts. cbn [operators]. fin IO IT IP.
  - intros x ts. cbn [tests]. fin IO IT IP.
  - intros x ts. assert (D : Some (hollow x, er ts) = lift hollow (Some (x, ts))) by reflexivity.
    destruct ts as [|[s|s|s|s|s] ts]; try exact D. cbn [map erase postfix].
    destruct (String.eqb s "."); [fin IO IT IP|]. destruct (String.eqb s "["); [rewrite L1; fin IO IT IP|].
    destruct (String.eqb s "("); [rewrite path_of_hollow; destruct (path_of x); [|reflexivity]; destruct (quantifier l); fin IO IT IP|].
    destruct (String.eqb s "{"); [destruct x; try reflexivity; cbn [hollow]; fin IO IT IP|].
    pose proof (labels_of_er (Mark s :: ts)) as LE. cbn [map erase] in LE. rewrite LE. destruct (labels_of (Mark s :: ts)) as [[|l ls] r]; [exact D|reflexivity].
  - intros ts. destruct ts as [|[s|s|s|s|s] ts]; try reflexivity; cbn [map erase atom].
    + destruct (one_of ["CASE"] s); [apply L5|]. assert (D : word s (er ts) = lift hollow (word s ts)).
      { unfold word. repeat match goal with |- context [if ?b then _ else _] => destruct b; try reflexivity end. }
      destruct ts as [|[] ts]; try exact D. cbn [map erase]. repeat match goal with |- context [if ?b then _ else _] => destruct b end; try exact D; try reflexivity. apply L6.
    + repeat match goal with |- (if String.eqb ?a ?b then _ else _) = _ => destruct (String.eqb a b) end; try solve [go].
      rewrite pattern_ahead_er. destruct (pattern_ahead ts); [|go]. pose proof (L9 (Mark s :: ts)) as LC. cbn [map erase] in LC. rewrite LC. go.
Qed.

Section Clauses.
Context (p q : reader cx) (M : blind hollow p) (N : blind hollow q).
Let A0 := blind_a_name.
Let A1 := I.

Definition hollow_sort (o : cx * option bool) : cx * option bool := (hollow (fst o), snd o).
Definition hollow_action (a : bool * list cset) : bool * list cset := (fst a, map hollow_set (snd a)).
Lemma blind_alias : blind (fun x => x) (maybe_after "AS" a_name).
Proof. pose proof A0. intros ts. unfold maybe_after. go. Qed.
Lemma blind_an_item : blind hollow_item (an_item p).
Proof.
  pose proof A0. pose proof A1. pose proof (blind_alias) as L0. intros ts. unfold an_item. go.
Qed.
Lemma blind_a_sort : blind hollow_sort (a_sort p).
Proof.
  intros ts. unfold a_sort. rewrite M. apply bind_lift. intros x r. assert (D : Some ((hollow x, @None bool), er r) = lift hollow_sort (Some ((x, None), r))) by reflexivity.
  destruct r as [|[] r]; try exact D. cbn [map erase]. repeat match goal with |- context [if ?b then _ else _] => destruct b end; try exact D; reflexivity.
Qed.
Lemma blind_an_order : blind (map hollow_sort) (an_order p).
Proof.
  pose proof A0. pose proof A1. pose proof (blind_items _ _ blind_a_sort) as L0. intros ts. unfold an_order. go.
Qed.
Lemma blind_a_body : blind hollow_body (a_body p).
Proof.
  pose proof A0. pose proof A1. pose proof (blind_items _ _ blind_an_item) as L0. pose proof (blind_an_order) as L1. pose proof (blind_maybe_after _ _ M) as L2. intros ts. unfold a_body. go.
Qed.
Lemma blind_a_set : blind hollow_set (a_set p q).
Proof.
  intros ts. unfold a_set. rewrite N. apply bind_lift. intros x r. rewrite is_mark_er. destruct (is_mark "=" r); cbn [option_map]; [go|].
  rewrite is_mark_er. destruct (is_mark "+=" r); cbn [option_map]; [go|]. destruct x; reflexivity.
Qed.
Lemma blind_actions : forall n, blind (map hollow_action) (actions p q n).
Proof.
  pose proof (blind_items _ _ blind_a_set) as L0.
  assert (L1 : blind (fun x => x) (fun r => match is_word "CREATE" r with
     | Some r => Some (true, r) | None => match is_word "MATCH" r with Some r => Some (false, r) | None => None end end)) by (intros ts; go).
  induction n as [|n IH]; intros ts; cbn [actions]; [go|]. rewrite is_word_er. destruct (is_word "ON" ts) as [r|]; cbn [option_map]; [|reflexivity].
  pose proof (L1 r) as L2. cbv beta in L2. rewrite L2. go.
Qed.
Lemma blind_a_call : blind hollow_clause (a_call p).
Proof.
  pose proof (blind_items_until _ _ M ")") as L0. pose proof (blind_maybe_after _ _ (blind_items _ _ blind_an_item)) as L1. pose proof (blind_maybe_after _ _ M) as L2.
  assert (L3 : blind (option_map (map hollow)) (fun r => match is_mark "(" r with
     | Some r => bind (items_until ")" p r) (fun a r => Some (Some a, r)) | None => Some (None, r) end)) by (intros ts; go).
  intros ts. unfold a_call. rewrite A0. apply bind_lift. intros n r. rewrite dotted_er. destruct (dotted r) as [l t]. unfold paired. cbn [fst snd].
  pose proof (L3 t) as L4. cbv beta in L4. rewrite L4. go.
Qed.
Lemma blind_a_match : forall o, blind hollow_clause (a_match p o).
Proof.
  pose proof (blind_items _ _ (blind_a_part _ M)) as L1. pose proof (blind_maybe_after _ _ M) as L2. intros o ts. unfold a_match. go.
Qed.
Lemma blind_clause_of : forall w, blind hollow_clause (clause_of p q w).
Proof.
  pose proof A0. pose proof blind_a_match as L0. pose proof (blind_items _ _ (blind_a_part _ M)) as L1. pose proof (blind_maybe_after _ _ M) as L2.
  pose proof blind_actions as L3. pose proof (blind_items _ _ M) as L4. pose proof (blind_items _ _ N) as L5. pose proof (blind_items _ _ blind_a_set) as L6.
  pose proof blind_a_body as L7. intros w ts. unfold clause_of. go.
Qed.
End Clauses.

Definition hollow_union (u : bool * list cclause) : bool * list cclause := (fst u, map hollow_clause (snd u)).

Theorem clauses_blind : forall f, blind (map hollow_clause) (clauses f) /\ blind hollow_clause (a_clause f) /\ blind (map hollow_union) (unions f).
Proof.
  induction f as [|f (IC & IA & IU)]; [repeat split; repeat intro; reflexivity|].
  destruct (expressions_blind f) as (E & _).
  pose proof (blind_a_call _ (E 0)) as L1. pose proof (blind_clause_of _ _ (E 0) (E 10)) as L2.
  repeat split.
  - intros ts. cbn [clauses]. go.
  - intros [|[] ts]; try reflexivity. cbn [map erase a_clause]. go.
  - intros ts. cbn [unions]. rewrite is_word_er. destruct (is_word "UNION" ts) as [r|]; cbn [option_map]; [|reflexivity].
    rewrite is_word_er. destruct (is_word "ALL" r); cbn [option_map]; go.
Qed.

Theorem query_blind : forall f, blind hollow_tree (a_query f).
Proof. intros f ts. destruct (clauses_blind f) as (C & _ & U). unfold a_query. go. Qed.
