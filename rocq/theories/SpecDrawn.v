(** Specification: which pattern the calls that make nodes, relationships, chains
    and paths ask for, as the patterns of SpecGrammar.v. *)

From Coq Require Import Ascii String List ZArith Bool.
From Verif Require Import SpecCond GoStr Escape Num VTree Ast SpecDoc SpecPrint SpecTokens SpecShape SpecOutline SpecGrammar SpecReading GoVal Maps Slices Patterns SpecPattern
  PatternProofs ChainProofs Exprs Functions SpecAsked Cond Queries Builder SpecBuilder SpecPhrases SpecCalled.
Import ListNotations.
Open Scope string_scope.
Open Scope list_scope.

Section Drawn.
Context (A : key -> string -> Prop).

(** A map made of the given names and values. *)
Definition map_asked (fs : list (string * cx)) (m : gmap) : Prop :=
  exists K l g, fresh_keys A K /\ NoDup (map fst fs) /\ asked_fields A fs l /\ new_map K l = Returns g /\ m = gmap_of g.

(** ** Nodes *)
Inductive node_asked : cnode -> node -> Prop :=
| na_any : node_asked (CNode None [] None) any_node
| na_label : forall ks l, fresh A ks -> l <> "" -> node_asked (CNode None [l] None) (Patterns.a_node ks l)
| na_properties : forall ks l ls fs m, fresh A ks -> l <> "" -> Forall (fun x => x <> "") ls -> map_asked fs m ->
    node_asked (CNode None (l :: ls) (Some fs)) (node_with_properties ks l m ls)
(* calls on nodes *)
| na_named : forall ks x y ls ps n, fresh A ks -> x <> "" -> node_asked (CNode y ls ps) n -> node_asked (CNode (Some x) ls ps) (node_named_by_string ks n x)
| na_named_sym : forall k x y ls ps n, unaliased A k -> node_asked (CNode y ls ps) n -> node_asked (CNode (Some x) ls ps) (node_named n (Sym k x))
| na_with_properties : forall ks x ls ps n fs m, fresh A ks -> map_asked fs m -> node_asked (CNode x ls ps) n ->
    node_asked (CNode x ls (Some fs)) (node_set_properties ks n m).

(** ** Relationships *)

(** What has been said about a relationship. *)
Record wish := Wish { w_heading : heading; w_name : option string; w_types : list string; w_hops : SpecPattern.hops; w_fields : option (list (string * cx)) }.
Definition length_said (h : SpecPattern.hops) : option (option string * bool * option string) :=
  match h with
  | OneHop => None
  | AnyHops => Some (None, false, None)
  | Between lo hi => Some (option_map itoa lo, true, option_map itoa hi)
  end.
Definition wished (w : wish) : crel := CRel (w_heading w) (w_name w) (w_types w) (length_said (w_hops w)) (w_fields w).

Inductive said : change -> wish -> wish -> Prop :=
| sd_name : forall x h y ts hs fs, x <> "" -> said (SetName x) (Wish h y ts hs fs) (Wish h (Some x) ts hs fs)
| sd_unbounded : forall h y ts hs fs, said SetUnbounded (Wish h y ts hs fs) (Wish h y ts AnyHops fs)
| sd_min : forall z h y ts hs fs, said (SetMin z) (Wish h y ts hs fs) (Wish h y ts (Between (Some z) (upper hs)) fs)
| sd_max : forall z h y ts hs fs, said (SetMax z) (Wish h y ts hs fs) (Wish h y ts (Between (lower hs) (Some z)) fs)
| sd_length : forall lo hi h y ts hs fs, said (SetLength lo hi) (Wish h y ts hs fs) (Wish h y ts (Between (Some lo) (Some hi)) fs)
| sd_properties : forall gs m h y ts hs fs, map_asked gs m -> said (SetProps m) (Wish h y ts hs fs) (Wish h y ts hs (Some gs))
| sd_no_properties : forall h y ts hs fs, said (SetProps NoMap) (Wish h y ts hs fs) (Wish h y ts hs None).
Inductive all_said : list ((nat -> key) * change) -> wish -> wish -> Prop :=
| as_nil : forall w, all_said [] w w
| as_cons : forall ks c cs w w' w'', fresh A ks -> said c w w' -> all_said cs w' w'' -> all_said ((ks, c) :: cs) w w''.

(** A relationship to a node, and what is said about it then. *)
Definition leg_asked (s : crel * cnode) (l : leg) : Prop :=
  exists h w, fresh A (l_keys l) /\ heading_of (l_dir l) = Some h /\ all_said (l_changes l) (Wish h None (l_types l) OneHop None) w
    /\ fst s = wished w /\ node_asked (snd s) (l_node l).

(** ** Patterns *)

(** What a clause gets. *)
Definition given (v : value) : gval :=
  match v with Elem (Good e) _ => GOk e | Elem (Failed m _) _ => GErr TOther m | _ => GErr TOther "" end.

Inductive chain_asked : cnode -> list (crel * cnode) -> gval -> Prop :=
| ca_node : forall c n, node_asked c n -> chain_asked c [] (node_value n)
| ca_rel : forall c n s l, node_asked c n -> leg_asked s l -> chain_asked c [s] (rel_value (leg_rel n l))
| ca_chain : forall grow c n s1 s2 ss l1 l2 ls h cs, node_asked c n -> leg_asked s1 l1 -> leg_asked s2 l2 -> Forall2 leg_asked ss ls ->
    chain_run grow [] [] (fluent n l1 l2 ls) = Some (h, cs) -> chain_asked c (s1 :: s2 :: ss) (chain_value h (last cs NoCells)).
Inductive part_asked : cpart -> gval -> Prop :=
| pa_chain : forall c ss g, chain_asked c ss g -> part_asked (CPart None None c ss) g
| pa_path : forall c ss e k kx x i, chain_asked c ss (GOk e) -> unaliased A k -> unaliased A kx -> x <> "" ->
    part_asked (CPart (Some x) None c ss) (given (path_value (path_create k (a_path kx x) (Elem (Good e) i))))
| pa_shortest : forall c s n l ks x, node_asked c n -> leg_asked s l -> fresh A ks -> x <> "" ->
    part_asked (CPart (Some x) (Some "shortestPath") c [s]) (given (path_value (a_shortest_path ks x (leg_rel n l)))).
End Drawn.

(** ** What is read *)

(** When [R], a node of the pattern is written more than once in the statement: a
    named node may then be read by its name only. Otherwise [near] is equality. *)
Section Near.
Context (R : Prop).
Inductive near_node : cnode -> cnode -> Prop :=
| nn_same : forall c, near_node c c
| nn_name : forall x ls ps, R -> near_node (CNode (Some x) [] None) (CNode (Some x) ls ps).
Definition near_step (s t : crel * cnode) : Prop := fst s = fst t /\ near_node (snd s) (snd t).
Definition near_part (c d : cpart) : Prop :=
  match c, d with CPart p f n ss, CPart p' f' n' ss' => p = p' /\ f = f' /\ near_node n n' /\ Forall2 near_step ss ss' end.
End Near.
(** A named node of the pattern is among those for which [again] holds. *)
Definition node_again (E : env) (again : key -> Prop) (e : expr) : Prop := exists k, List.In k (node_mentions (print E e)) /\ again k.

(** What the library writes so that it is read. *)
Section Drawable.
Context (E : env).
Definition drawable_fields (fs : option (list (string * cx))) : Prop :=
  match fs with Some l => Forall (fun f => blank (fst f) = false /\ writable E 0 (snd f)) l | None => True end.
Definition drawable_node (c : cnode) : Prop :=
  match c with CNode x ls ps => match x with Some n => is_identifier E n = true | None => True end /\ drawable_fields ps end.
Definition drawable_step (s : crel * cnode) : Prop :=
  match fst s with
  | CRel _ x ts _ ps => match x with Some n => variable n | None => True end /\ Forall (fun t => t <> "") ts /\ drawable_fields ps
  end /\ drawable_node (snd s).
Definition drawable (c : cpart) : Prop :=
  match c with CPart p _ n ss => match p with Some x => variable x | None => True end /\ drawable_node n /\ Forall drawable_step ss end.
End Drawable.

(** ** Clauses

    The clause asked for by calls whose operands are made by the calls above and
    by those of SpecAsked.v. *)
Section Clauses.
Context (A : key -> string -> Prop).
Definition expr_asked (c : cx) (e : expr) : Prop := exists i, asked A c (Elem (Good e) i).
Definition pattern_asked (c : cpart) (e : expr) : Prop := part_asked A c (GOk e).

(** Conditions: expressions, negations, and conditions joined by connectives, to
    any depth.  The first argument is the connective that joins the outermost
    conditions, if there is one.  Two cases are left out: conditions joined by a
    connective are not joined again as the right side of the same one (the
    library writes them in one row), and conditions joined by one connective are
    not joined by another one to conditions that are themselves joined (the
    library mixes the connectives up, see [C16_mixed_chains_refuted]). *)
Definition joined (o : conn) : binop := match o with CAnd => OAnd | COr => OOr | CXor => OXor end.
Definition joinable (o : conn) (m n : option conn) : Prop := n <> Some o /\ (m = None \/ m = Some o \/ n = None).
Inductive condition_asked : option conn -> cx -> cnd -> Prop :=
| co_one : forall c e, expr_asked c e -> condition_asked None c (Atom e)
| co_not : forall ks m c x z, fresh A ks -> condition_asked m c x -> container_not ks x = Val z -> condition_asked None (XNot c) z
| co_join : forall ks o m n c d x y z, fresh A ks -> condition_asked m c x -> condition_asked n d y -> joinable o m n ->
    container_chain ks (bop_of_conn o) x y = Val z -> condition_asked (Some o) (XBin (joined o) c d) z.

(** A WHERE, and what is added to it one after the other. *)
Inductive more_asked : option conn -> cx -> list (conn * cnd) -> cx -> Prop :=
| mo_none : forall m c, more_asked m c [] c
| mo_more : forall m c o n d y l t, condition_asked n d y -> joinable o m n -> more_asked (Some o) (XBin (joined o) c d) l t ->
    more_asked m c ((o, y) :: l) t.
Inductive where_asked : conditions -> option cx -> Prop :=
| wa_none : where_asked None None
| wa_some : forall m x c l t, condition_asked m c x -> more_asked m c l t -> where_asked (Some (x, l)) (Some t).

(** Assignments, and labels of a variable. *)
Inductive set_asked : item -> cset -> Prop :=
| sa_assign : forall a b t u, expr_asked t a -> expr_asked u b -> set_asked (Assign a b) (SAssign t u)
| sa_set : forall k a b t u, unaliased A k -> expr_asked t a -> expr_asked u b -> set_asked (Plain (EOperation k a SetProp b)) (SAssign t u)
| sa_mutate : forall k a b t u, unaliased A k -> expr_asked t a -> expr_asked u b -> set_asked (Plain (EOperation k a Mutate b)) (SMutate t u)
| sa_labels : forall x ls, set_asked (Labels x ls) (SLabels (XLabels (XVar x) ls)).
Inductive removal_asked : item -> cx -> Prop :=
| ra_property : forall c x e, expr_asked (XProp c x) e -> removal_asked (Plain e) (XProp c x)
| ra_labels : forall x ls, removal_asked (Labels x ls) (XLabels (XVar x) ls).
Definition action_asked (a : bool * list item) (b : bool * list cset) : Prop := fst b = fst a /\ Forall2 set_asked (snd a) (snd b).

(** An element at another address.  An expression that is given an alias is made
    as the others are, but the address it is at has an alias. *)
Definition at_address (k : key) (e : expr) : expr :=
  match e with
  | ESym _ x => ESym k x | EParam _ x => EParam k x | ENull _ => ENull k | EBool _ b => EBool k b | EStr _ s => EStr k s | ENum _ x => ENum k x
  | EListExpr _ l => EListExpr k l | EMap _ l => EMap k l | EProp _ c n => EProp k c n | EOperation _ l o r => EOperation k l o r
  | EComparison _ l o r => EComparison k l o r | EListOp _ t d lo b hi => EListOp k t d lo b hi | EFun _ n a l => EFun k n a l
  | EHasLabel _ x ls => EHasLabel k x ls | EListComp _ x l w d => EListComp k x l w d
  | _ => e
  end.
Inductive item_asked : citem -> expr -> Prop :=
| ia_plain : forall c e, expr_asked c e -> item_asked (CItem c None) e
| ia_alias : forall ks k c e a x i j, unaliased A (ks 0) -> expr_asked c e -> a <> "" -> A (Exprs.key_of (ks 1) (at_address k e)) a ->
    aliased_create ks (Elem (Good (at_address k e)) i) a = Elem (Good x) j -> item_asked (CItem c (Some a)) x.
Definition body_asked (d : bool) (es : list expr) (s : sorting) (b : cbody) : Prop :=
  exists its order, b = CBody d its order (option_map number (s_skip s)) (option_map number (s_limit s))
    /\ Forall2 item_asked its es /\ Forall2 (fun o i => expr_asked (fst o) (fst i) /\ snd o = snd i) order (s_items s).
Inductive clause_asked : phrase -> cclause -> Prop :=
| ca_match : forall o es cs w t, Forall2 pattern_asked cs es -> where_asked w t -> clause_asked (PMatch o es w) (CMatch o cs t)
| ca_create : forall es cs, Forall2 pattern_asked cs es -> clause_asked (PCreate es) (CCreate cs)
| ca_merge : forall es cs l m, Forall2 pattern_asked cs es -> Forall2 action_asked l m -> clause_asked (PMerge es l) (CMerge cs m)
| ca_delete : forall d es cs, Forall2 expr_asked cs es -> clause_asked (PDelete d es) (CDelete d cs)
| ca_set : forall l m, Forall2 set_asked l m -> clause_asked (PSet l) (CSet m)
| ca_remove : forall l m, Forall2 removal_asked l m -> clause_asked (PRemove l) (CRemove m)
| ca_unwind : forall c e x, expr_asked c e -> clause_asked (PUnwind e x) (CUnwind c x)
(* of an expression with an alias, the alias *)
| ca_unwind_alias : forall k dk e a x, clause_asked (PUnwind (EAlias k dk e a) x) (CUnwind (XVar a) x)
| ca_call : forall n es cs ys its w t, Forall2 expr_asked cs es -> Forall2 item_asked its ys -> where_asked w t ->
    clause_asked (PCall [n] es ys w) (CCall [n] (Some cs) (match its with [] => None | _ => Some its end) t)
| ca_with : forall d es s w b t, body_asked d es s b -> where_asked w t -> clause_asked (PWith d es s w) (CWith b t)
| ca_return : forall d es s b, body_asked d es s b -> clause_asked (PReturn d es s) (CReturn b).
End Clauses.

(** An element with an alias is written again. *)
Definition renamed (A : register) : Prop := exists k a, A k a /\ again A k.

(** The clause read and the clause asked for.  [R]: a named node of the clause is
    written again; [S]: an element with an alias is written again.  The alias may
    stand instead of such an element. *)
Section Near.
Context (R S : Prop).
Definition by_alias (t : cx) : Prop := S /\ exists a, t = XVar a.
Inductive near_condition : cx -> cx -> Prop :=
| nc_same : forall c, near_condition c c
| nc_alias : forall t c, by_alias t -> near_condition t c
| nc_join : forall b t c d, near_condition t c -> near_condition (XBin b t d) (XBin b c d).
Definition near_where (t c : option cx) : Prop :=
  match t, c with Some u, Some v => near_condition u v | None, None => True | _, _ => False end.
Definition near_item (t c : citem) : Prop :=
  t = c \/ exists a, ci_alias c = Some a /\ by_alias (ci_value t) /\ (ci_alias t = Some a \/ ci_alias t = None).
Definition near_labels (t c : cx) : Prop := t = c \/ exists u v ls, t = XLabels u ls /\ c = XLabels v ls /\ by_alias u.
Definition near_set (t c : cset) : Prop := t = c \/ exists u v, t = SLabels u /\ c = SLabels v /\ near_labels u v.
Definition near_body (t c : cbody) : Prop :=
  match t, c with CBody d its o s l, CBody d' its' o' s' l' => d = d' /\ Forall2 near_item its its' /\ o = o' /\ s = s' /\ l = l' end.
Definition near_clause (t c : cclause) : Prop :=
  match t, c with
  | CMatch o ps w, CMatch o' ps' w' => o = o' /\ Forall2 (near_part R) ps ps' /\ near_where w w'
  | CCreate ps, CCreate ps' => Forall2 (near_part R) ps ps'
  | CMerge ps l, CMerge ps' l' => Forall2 (near_part R) ps ps' /\ Forall2 (fun a b => fst a = fst b /\ Forall2 near_set (snd a) (snd b)) l l'
  | CSet l, CSet l' => Forall2 near_set l l'
  | CRemove l, CRemove l' => Forall2 near_labels l l'
  | CUnwind u x, CUnwind v y => x = y /\ (u = v \/ by_alias u)
  | CCall n a y w, CCall n' a' y' w' =>
      n = n' /\ a = a' /\ match y, y' with Some l, Some l' => Forall2 near_item l l' | None, None => True | _, _ => False end /\ near_where w w'
  | CWith b w, CWith b' w' => near_body b b' /\ near_where w w'
  | CReturn b, CReturn b' => near_body b b'
  | _, _ => t = c
  end.
End Near.

(** What the library writes so that it is read. *)
Section Readable.
Context (E : env).
Definition joins (b : binop) : bool := match b with OAnd | OOr | OXor => true | _ => false end.
Fixpoint drawable_condition (n : nat) (c : cx) : Prop :=
  match c with
  | XBin b l r => if joins b then drawable_condition (left_of b) l /\ drawable_condition (right_of b) r else writable E n c
  | XNot d => drawable_condition 0 d
  | _ => writable E n c
  end.
Definition drawable_where (w : option cx) : Prop := match w with Some c => drawable_condition 0 c | None => True end.
Definition drawable_labels (c : cx) : Prop :=
  match c with XLabels (XVar x) ls => variable x /\ ls <> [] /\ Forall (fun l => l <> "") ls | _ => False end.
Definition drawable_set (s : cset) : Prop :=
  match s with SAssign t u | SMutate t u => writable E 10 t /\ writable E 0 u | SLabels c => drawable_labels c end.
Definition drawable_removal (c : cx) : Prop := match c with XProp _ _ => writable E 10 c | _ => drawable_labels c end.
Definition drawable_item (i : citem) : Prop := writable E 0 (ci_value i) /\ match ci_alias i with Some a => variable a | None => True end.
Definition drawable_body (b : cbody) : Prop :=
  match b with CBody _ its order _ _ => its <> [] /\ Forall drawable_item its /\ Forall (fun o => writable E 0 (fst o)) order end.
Definition drawable_clause (c : cclause) : Prop :=
  match c with
  | CMatch _ ps w => ps <> [] /\ Forall (drawable E) ps /\ drawable_where w
  | CCreate ps => ps <> [] /\ Forall (drawable E) ps
  | CMerge ps l => ps <> [] /\ Forall (drawable E) ps /\ Forall (fun a : bool * list cset => snd a <> [] /\ Forall drawable_set (snd a)) l
  | CDelete _ cs => cs <> [] /\ Forall (writable E 0) cs
  | CSet l => l <> [] /\ Forall drawable_set l
  | CRemove l => l <> [] /\ Forall drawable_removal l
  | CUnwind c x => writable E 0 c /\ is_identifier E x = true
  | CCall n cs its w => Forall (fun x => is_identifier E x = true) n
      /\ match cs with Some l => Forall (writable E 0) l | None => False end
      /\ match its with Some l => Forall drawable_item l | None => True end /\ drawable_where w
  | CWith b w => drawable_body b /\ drawable_where w
  | CReturn b => drawable_body b
  | _ => False
  end.
End Readable.
