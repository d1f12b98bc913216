(** Specification: when a syntax tree of Cypher (SpecGrammar.v) is that of an
    element of the library, and which elements are written so that a Cypher
    reader gets them back. *)

From Coq Require Import Ascii String List ZArith Bool.
From Verif Require Import GoStr Escape Num VTree Ast SpecDoc SpecPrint SpecTokens SpecShape SpecOutline SpecGrammar.
Import ListNotations.
Open Scope string_scope.
Open Scope list_scope.

(** The operators of the library in Cypher. *)
Definition binop_of (o : op) : option binop :=
  match o with
  | Addition | Concat => Some OAdd | Subtraction => Some OSub | Multiplication => Some OMul | Division => Some ODiv
  | ModuloDivision => Some OMod | Exponentiation => Some OPow | Equality => Some OEq | Inequality => Some ONe
  | LessThan => Some OLt | GreaterThan => Some OGt | LessThanOrEqualTo => Some OLe | GreaterThanOrEqualTo => Some OGe
  | StartsWith => Some OStarts | EndsWith => Some OEnds | Contains => Some OContains
  | And => Some OAnd | Or => Some OOr | Xor => Some OXor | Matches => Some OLike | InList => Some OIn
  | _ => None
  end.

(** The key by which the renderer knows an element that may have been given an
    alias. *)
Definition key_of (e : expr) : option key :=
  match e with
  | ESym k _ | EParam k _ | EAsterisk k | EBool k _ | ENull k | ENum k _ | EStr k _ | EListLit k _ | EProp k _ _
  | EOperation k _ _ _ | EComparison k _ _ _ | ENested k _ | EConst k _ | ECompound k _ (_ :: _ :: _) | EFun k _ _ _
  | EMap k _ | EMapProj k _ _ | EListExpr k _ | EListOp k _ _ _ _ _ | EListComp k _ _ _ _ | EPatComp k _ _ _
  | EExcluded k _ | EHasLabel k _ _ | EExists k _ _ _ _ | ERelCond k _ | ERel k _ _ _ | EChain k _ _
  | ECase k _ _ _ _ => Some k
  | _ => None
  end.

Definition heading_of (d : direction) : option heading :=
  match d with LTR => Some ToRight | RTL => Some ToLeft | UNI => Some Undirected | NoDirection => None end.

(** The length of a relationship. *)
Definition length_as (len : option (key * bool * option Z * option Z)) : option (option string * bool * option string) :=
  match len with
  | None => None
  | Some (_, true, _, _) => Some (None, false, None)
  | Some (_, false, None, None) => None
  | Some (_, false, lo, hi) => Some (option_map itoa lo, true, option_map itoa hi)
  end.

(** A name with dots, as tokens. *)
Definition spelling (l : list string) : list token :=
  match l with [] => [] | w :: l => Word w :: flat_map (fun v => [Mark "."; Word v]) l end.

(** What is known of the elements of a statement: [A k a] if the element with
    key [k] is given the alias [a], and [again A k] if it is written more than
    once. *)
Record register := Register { aliases :> key -> string -> Prop; again : key -> Prop }.

Section Agrees.

Context (E : env) (A : register).

(** The name of an element of a pattern: its own, or the alias given to it. *)
Inductive named : option string -> option (key * string) -> Prop :=
| nm_none : named None None
| nm_own : forall k x, named (Some x) (Some (k, x))
| nm_alias : forall k x a, A k a -> again A k -> named (Some a) (Some (k, x)).

Inductive agrees : cx -> expr -> Prop :=
(* the alias of the expression, wherever it is written again *)
| ag_alias : forall e k a, key_of e = Some k -> A k a -> again A k -> agrees (XVar a) e
| ag_sym : forall k x, agrees (XVar x) (ESym k x)
| ag_param : forall k x, agrees (XParam x) (EParam k x)
| ag_star : forall k, agrees XStar (EAsterisk k)
| ag_bool : forall k b, agrees (XBool b) (EBool k b)
| ag_null : forall k, agrees XNull (ENull k)
| ag_num : forall k x, n_neg x = false -> agrees (XNum (number_text x)) (ENum k x)
| ag_num_neg : forall k x, n_neg x = true -> agrees (XNeg (XNum (text_g10 (n_mant x) (n_exp x)))) (ENum k x)
| ag_str : forall k s, agrees (XStr s) (EStr k s)
| ag_list : forall k es ts, Forall2 agrees ts es -> agrees (XList ts) (EListLit k es)
| ag_list_expr : forall k ke es ts, Forall2 agrees ts es -> agrees (XList ts) (EListExpr k (EExprs ke es))
| ag_map : forall k m l, agrees_map l (EMap k m) -> agrees (XMap l) (EMap k m)
| ag_prop : forall k c kl x t, agrees t c -> agrees (XProp t x) (EProp k c (ELookup kl x))
| ag_operation : forall k l o r b t u, binop_of o = Some b -> agrees t l -> agrees u r -> agrees (XBin b t u) (EOperation k l o r)
| ag_comparison : forall k l o r b t u, binop_of o = Some b -> agrees t l -> agrees u r ->
    agrees (XBin b t u) (EComparison k (Some l) o (Some r))
| ag_not : forall k r t, agrees t r -> agrees (XNot t) (EComparison k None Not (Some r))
| ag_is_null : forall k l t, agrees t l -> agrees (XIsNull true t) (EComparison k (Some l) IsNull None)
| ag_is_not_null : forall k l t, agrees t l -> agrees (XIsNull false t) (EComparison k (Some l) IsNotNull None)
| ag_nested : forall k e t, agrees t e -> agrees t (ENested k e)
| ag_const : forall k e t, agrees t e -> agrees t (EConst k e)
| ag_bool_fun : forall e t, agrees t e -> agrees t (EBoolFun e)
| ag_compound_one : forall k o c t, agrees t c -> agrees t (ECompound k o [c])
| ag_compound : forall k o b c cs t ts, binop_of o = Some b -> cs <> [] -> agrees t c -> Forall2 agrees ts cs ->
    agrees (fold_left (XBin b) ts t) (ECompound k o (c :: cs))
| ag_fun : forall k n l ka es ts, Forall2 agrees ts es -> tokens E n = Some (spelling l) -> agrees (XCall l false ts) (EFun k n ka es)
| ag_fun_distinct : forall k n l ka kd e t, agrees t e -> tokens E n = Some (spelling l) ->
    agrees (XCall l true [t]) (EFun k n ka [EDistinct kd e])
| ag_fun_filter : forall k n ka kp v l kw c x t u, agrees (XVar x) v -> agrees t l -> agrees u c ->
    agrees (XFilter n x t (Some u)) (EFun k n ka [EListPred kp v l (EWhere kw c)])
| ag_project : forall k n km es x ps, agrees (XVar x) n -> Forall2 agrees_proj ps es ->
    agrees (XProject x ps) (EMapProj k n (EMap km es))
| ag_index : forall k l kd i t u, agrees t l -> agrees u i -> agrees (XIndex t u) (EListOp k l kd (Some i) false None)
| ag_slice : forall k l kd lo hi t u v, agrees t l -> agrees_if u lo -> agrees_if v hi ->
    agrees (XSlice t u v) (EListOp k l kd lo true hi)
| ag_list_comp : forall k v l w d x t u z, agrees (XVar x) v -> agrees t l -> agrees_where u w -> agrees_if z d ->
    agrees (XListComp x t u z) (EListComp k v l w d)
| ag_pat_comp : forall k p w d n h u z, agrees_chain n h p -> agrees_where u w -> agrees z d ->
    agrees (XPatComp None n h u (Some z)) (EPatComp k p w d)
| ag_path_comp : forall k kp v p w d x n h u z, agrees (XVar x) v -> agrees_chain n h p -> agrees_where u w -> agrees z d ->
    agrees (XPatComp (Some x) n h u (Some z)) (EPatComp k (ENamedPath kp v p) w d)
| ag_excluded : forall k p t, agrees t p -> agrees (XNot t) (EExcluded k p)
| ag_has_label : forall k n ls t, agrees t n -> agrees (XLabels t (map snd ls)) (EHasLabel k n ls)
| ag_exists : forall k km o kp ps w ts u, Forall2 agrees_part ts ps -> agrees_where u w ->
    agrees (XExists o ts u) (EExists k km o (EPattern kp ps) w)
| ag_rel_cond : forall k p t, agrees t p -> agrees t (ERelCond k p)
| ag_pattern : forall e n h, agrees_chain n h e -> agrees (XPattern n h) e
| ag_case : forall k g s bs d t ts u, agrees_if t s ->
    Forall2 (fun x b => agrees (fst x) (snd (fst b)) /\ agrees (snd x) (snd b)) ts bs ->
    agrees_if u (option_map snd d) -> agrees (XCase t ts u) (ECase k g s bs d)
with agrees_if : option cx -> option expr -> Prop :=
| ag_none : agrees_if None None
| ag_some : forall t e, agrees t e -> agrees_if (Some t) (Some e)
with agrees_where : option cx -> option expr -> Prop :=
| ag_no_where : agrees_where None None
| ag_where : forall t k e, agrees t e -> agrees_where (Some t) (Some (EWhere k e))
with agrees_map : list (string * cx) -> expr -> Prop :=
| ag_entries : forall k es l, Forall2 (fun x e => exists ke v, e = EEntry ke (fst x) v /\ agrees (snd x) v) l es ->
    agrees_map l (EMap k es)
with agrees_proj : cproj -> expr -> Prop :=
| ag_all : forall k, agrees_proj PAll (ELookup k "*")
| ag_own_prop : forall k x, x <> "*" -> agrees_proj (PProp x) (ELookup k x)
| ag_entry : forall k x e t, agrees t e -> agrees_proj (PEntry x t) (EEntry k x e)
| ag_var : forall k x y, agrees (XVar y) (ESym k x) -> agrees_proj (PVar y) (ESym k x)
with agrees_props : option (list (string * cx)) -> option expr -> Prop :=
| ag_no_props : agrees_props None None
| ag_props : forall k m l, agrees_map l m -> agrees_props (Some l) (Some (EProps k m))
(* a node that is written again has its name only *)
with agrees_node : cnode -> expr -> Prop :=
| ag_node : forall k n ls ps x l, named x n -> agrees_props l ps -> agrees_node (CNode x (map snd ls) l) (ENode k n ls ps)
| ag_node_again : forall k kn x ls ps, again A k -> agrees_node (CNode (Some x) [] None) (ENode k (Some (kn, x)) ls ps)
with agrees_rel : crel -> expr -> Prop :=
| ag_rel : forall k d n ts len ps h x l, heading_of d = Some h -> agrees_if (option_map XVar x) n -> agrees_props l ps ->
    agrees_rel (CRel h x (match ts with Some (_, v) => v | None => [] end) (length_as len) l) (EDetails k d n ts len ps)
with agrees_chain : cnode -> list (crel * cnode) -> expr -> Prop :=
| ag_alone : forall e n, agrees_node n e -> agrees_chain n [] e
| ag_one : forall k l d r x y z, agrees_node x l -> agrees_rel y d -> agrees_node z r ->
    agrees_chain x [(y, z)] (ERel k l d r)
| ag_many : forall k rels last n h, agrees_hops n h rels last -> agrees_chain n h (EChain k rels (Some last))
with agrees_hops : cnode -> list (crel * cnode) -> list (expr * expr) -> expr -> Prop :=
| ag_last : forall e n, agrees_node n e -> agrees_hops n [] [] e
| ag_hop : forall n d l last x y z h, agrees_node x n -> agrees_rel y d -> agrees_hops z h l last ->
    agrees_hops x ((y, z) :: h) ((n, d) :: l) last
with agrees_part : cpart -> expr -> Prop :=
| ag_chain : forall n h e, agrees_chain n h e -> agrees_part (CPart None None n h) e
| ag_path : forall k v p x n h, agrees (XVar x) v -> agrees_chain n h p -> agrees_part (CPart (Some x) None n h) (ENamedPath k v p)
| ag_shortest : forall k v kf f ka p x n h, agrees (XVar x) v -> agrees_chain n h p ->
    agrees_part (CPart (Some x) (Some f) n h) (ENamedPath k v (EFun kf f ka [p])).
End Agrees.

(** ** What can be read *)

(** Where an element stands.  [At n]: an expression, as an operand that has to
    bind at least as tightly as operators of level [n] (SpecGrammar.v); [At 10]:
    also in front of a dot or a bracket. *)
Inductive place := At (n : nat) | MapP | EntryP | ProjectionP | PropsP | NodeP | DetailsP | ChainP | PartP | PartsP | WhereP.

(** Levels of operators. *)
Definition level_of (b : binop) : nat :=
  match b with
  | OOr => 0 | OXor => 1 | OAnd => 2
  | OEq | ONe | OLt | OGt | OLe | OGe => 4
  | OAdd | OSub => 5 | OMul | ODiv | OMod => 6 | OPow => 7
  | OStarts | OEnds | OContains | OLike | OIn => 9
  end.
(** Operands: to the left those of the same level, except for comparisons. *)
Definition left_of (b : binop) : nat := match level_of b with 4 => 5 | n => n end.
Definition right_of (b : binop) : nat := S (level_of b).

Definition connective (o : op) : bool := match o with And | Or | Xor => true | _ => false end.

Section Readable.
Context (E : env) (A : key -> string -> Prop).

Definition unaliased (k : key) : Prop := forall a, ~ A k a.

(** Names of variables. *)
Definition variable (x : string) : Prop := blank x = false /\ one_of keywords x = false.
Definition labels_ok (ls : list (key * string)) : Prop := Forall (fun l => unaliased (fst l) /\ snd l <> "") ls.

(** Names of functions. *)
Definition function_name (n : string) : Prop :=
  exists w l, tokens E n = Some (spelling (w :: l))
              /\ match l with
                 | [] => one_of ["CASE"; "DISTINCT"; "WHEN"; "NOT"; "ALL"; "ANY"; "NONE"; "SINGLE"] w = false
                 | _ => one_of keywords w = false
                 end.
Definition filtering (n : string) : bool := one_of ["ALL"; "ANY"; "NONE"; "SINGLE"] n.

(** The first element of a list: not a condition, see [C63_list_refuted]. *)
Definition first_place (e : expr) : place := match e with ENum _ _ => At 8 | _ => At 10 end.

(** Patterns with a relationship. *)
Definition hopping (e : expr) : bool := match e with ERel _ _ _ _ | EChain _ (_ :: _) _ => true | _ => false end.

Inductive readable : place -> expr -> Prop :=
| rd_sym : forall n k x, variable x -> readable (At n) (ESym k x)
| rd_param : forall n k x, is_identifier E x = true -> readable (At n) (EParam k x)
| rd_star : forall n k, readable (At n) (EAsterisk k)
| rd_bool : forall n k b, readable (At n) (EBool k b)
| rd_null : forall n k, readable (At n) (ENull k)
| rd_str : forall n k s, readable (At n) (EStr k s)
| rd_num : forall n k x, (0 <= n_mant x)%Z -> (n_neg x = true -> n <= 8) -> readable (At n) (ENum k x)
| rd_list : forall n k es, readable_list es -> readable (At n) (EListLit k es)
| rd_list_expr : forall n k ke es, unaliased ke -> readable_list es -> readable (At n) (EListExpr k (EExprs ke es))
| rd_map : forall n k es, Forall (readable EntryP) es -> readable (At n) (EMap k es)
| rd_prop : forall n k c kl x, readable (At 10) c -> unaliased kl -> blank x = false -> x <> "*" ->
    readable (At n) (EProp k c (ELookup kl x))
| rd_operation : forall n k l o r b, binop_of o = Some b -> (o = Exponentiation -> n <= 7) ->
    readable (At (left_of b)) l -> readable (At (right_of b)) r -> readable (At n) (EOperation k l o r)
| rd_comparison : forall n k l o r b, binop_of o = Some b -> n <= level_of b ->
    readable (At (left_of b)) l -> readable (At (right_of b)) r -> readable (At n) (EComparison k (Some l) o (Some r))
| rd_not : forall n k r, n <= 3 -> readable (At 3) r -> readable (At n) (EComparison k None Not (Some r))
| rd_is_null : forall n k l o, n <= 9 -> o = IsNull \/ o = IsNotNull -> readable (At 9) l ->
    readable (At n) (EComparison k (Some l) o None)
| rd_nested : forall n k e, n <= 4 -> readable (At 0) e -> readable (At n) (ENested k e)
(* what is inside the parentheses does not look like a node *)
| rd_nested_comparison : forall n k kc l o r b, binop_of o = Some b -> unaliased kc ->
    readable (At (left_of b)) l -> readable (At (right_of b)) r -> readable (At n) (ENested k (EComparison kc (Some l) o (Some r)))
| rd_nested_null : forall n k kc l o, o = IsNull \/ o = IsNotNull -> unaliased kc -> readable (At 9) l ->
    readable (At n) (ENested k (EComparison kc (Some l) o None))
| rd_nested_call : forall n k kf f ka es, is_identifier E f = true -> unaliased kf -> readable (At 0) (EFun kf f ka es) ->
    readable (At n) (ENested k (EBoolFun (EFun kf f ka es)))
| rd_const : forall n k e, readable (At n) e -> readable (At n) (EConst k e)
| rd_bool_fun : forall n e, readable (At n) e -> readable (At n) (EBoolFun e)
| rd_compound_one : forall n k o c, readable (At n) c -> readable (At n) (ECompound k o [c])
(* one and the same connective throughout, see [C63_mixed_refuted] *)
| rd_compound : forall n k o b c cs, binop_of o = Some b -> connective o = true -> cs <> [] ->
    readable (At (left_of b)) c -> Forall (readable (At (right_of b))) cs ->
    Forall (fun d => match d with ECompound _ o' _ => o' = o | _ => True end) cs ->
    readable (At n) (ECompound k o (c :: cs))
| rd_fun : forall n k f ka es, function_name f -> unaliased ka -> Forall (readable (At 0)) es ->
    readable (At n) (EFun k f ka es)
| rd_fun_distinct : forall n k f ka kd e, function_name f -> unaliased ka -> unaliased kd -> readable (At 0) e ->
    readable (At n) (EFun k f ka [EDistinct kd e])
| rd_fun_filter : forall n k f ka kp kv x l w, is_identifier E f = true -> filtering f = true -> unaliased ka -> unaliased kp ->
    variable x -> readable (At 0) l -> readable WhereP w -> readable (At n) (EFun k f ka [EListPred kp (ESym kv x) l w])
| rd_project : forall n k kx x km es, variable x -> unaliased km -> Forall (readable ProjectionP) es ->
    readable (At n) (EMapProj k (ESym kx x) (EMap km es))
| rd_index : forall n k t kd i, unaliased kd -> readable (At 10) t -> readable (At 0) i ->
    readable (At n) (EListOp k t kd (Some i) false None)
| rd_slice : forall n k t kd lo hi, unaliased kd -> readable (At 10) t -> Forall (readable (At 0)) (opt_list lo) ->
    Forall (readable (At 0)) (opt_list hi) -> readable (At n) (EListOp k t kd lo true hi)
| rd_list_comp : forall n k kv x l w d, variable x -> readable (At 0) l -> Forall (readable WhereP) (opt_list w) ->
    Forall (readable (At 0)) (opt_list d) -> readable (At n) (EListComp k (ESym kv x) l w d)
| rd_pat_comp : forall n k p w d, hopping p = true -> readable ChainP p -> Forall (readable WhereP) (opt_list w) ->
    readable (At 0) d -> readable (At n) (EPatComp k p w d)
| rd_path_comp : forall n k kp kv x p w d, unaliased kp -> variable x -> hopping p = true -> readable ChainP p ->
    Forall (readable WhereP) (opt_list w) -> readable (At 0) d -> readable (At n) (EPatComp k (ENamedPath kp (ESym kv x) p) w d)
| rd_excluded : forall n k p, n <= 3 -> readable (At 3) p -> readable (At n) (EExcluded k p)
| rd_rel_cond : forall n k p, readable (At n) p -> readable (At n) (ERelCond k p)
| rd_pattern : forall n p, n <= 4 -> hopping p = true -> readable ChainP p -> readable (At n) p
| rd_has_label : forall n k x ls, n <= 9 -> readable (At 10) x -> ls <> [] -> labels_ok ls -> readable (At n) (EHasLabel k x ls)
| rd_exists : forall n k km o p w, unaliased km -> readable PartsP p -> Forall (readable WhereP) (opt_list w) ->
    readable (At n) (EExists k km o p w)
| rd_case : forall n k g s bs d, (g = true -> s = None) -> bs <> [] -> Forall (readable (At 0)) (opt_list s) ->
    Forall (fun b => unaliased (fst (fst b)) /\ readable (At 0) (snd (fst b)) /\ readable (At 0) (snd b)) bs ->
    (forall kd x, d = Some (kd, x) -> unaliased kd /\ readable (At 0) x) ->
    readable (At n) (ECase k g s bs d)
| rd_entries : forall k es, unaliased k -> Forall (readable EntryP) es -> readable MapP (EMap k es)
| rd_entry : forall k x v, unaliased k -> blank x = false -> readable (At 0) v -> readable EntryP (EEntry k x v)
| rd_proj_prop : forall k x, unaliased k -> blank x = false -> readable ProjectionP (ELookup k x)
| rd_proj_entry : forall k x v, unaliased k -> blank x = false -> readable (At 0) v -> readable ProjectionP (EEntry k x v)
| rd_proj_var : forall k x, variable x -> readable ProjectionP (ESym k x)
| rd_props : forall k m, unaliased k -> readable MapP m -> readable PropsP (EProps k m)
| rd_node : forall k n ls ps, unaliased k -> (forall kx x, n = Some (kx, x) -> is_identifier E x = true) -> labels_ok ls ->
    Forall (readable PropsP) (opt_list ps) -> readable NodeP (ENode k n ls ps)
| rd_details : forall k d n ts len ps, unaliased k -> d <> NoDirection ->
    Forall (fun v => exists kv x, v = ESym kv x /\ variable x) (opt_list n) ->
    (forall kt v, ts = Some (kt, v) -> unaliased kt /\ Forall (fun t => t <> "") v) ->
    (forall kl u lo hi, len = Some (kl, u, lo, hi) -> unaliased kl) -> Forall (readable PropsP) (opt_list ps) ->
    readable DetailsP (EDetails k d n ts len ps)
| rd_alone : forall e, readable NodeP e -> readable ChainP e
| rd_rel : forall k l d r, unaliased k -> readable NodeP l -> readable DetailsP d -> readable NodeP r -> readable ChainP (ERel k l d r)
| rd_chain : forall k rels last, unaliased k -> Forall (fun p => readable NodeP (fst p) /\ readable DetailsP (snd p)) rels ->
    readable NodeP last -> readable ChainP (EChain k rels (Some last))
| rd_part : forall e, readable ChainP e -> readable PartP e
| rd_path : forall k kv x p, unaliased k -> variable x -> readable ChainP p -> readable PartP (ENamedPath k (ESym kv x) p)
| rd_shortest : forall k kv x kf f ka p, unaliased k -> unaliased kf -> unaliased ka -> variable x -> is_identifier E f = true ->
    one_of ["SHORTESTPATH"; "ALLSHORTESTPATHS"] f = true -> readable ChainP p ->
    readable PartP (ENamedPath k (ESym kv x) (EFun kf f ka [p]))
| rd_parts : forall k ps, unaliased k -> ps <> [] -> Forall (readable PartP) ps -> readable PartsP (EPattern k ps)
| rd_where : forall k c, unaliased k -> readable (At 0) c -> readable WhereP (EWhere k c)
with readable_list : list expr -> Prop :=
| rd_empty : readable_list []
| rd_items : forall e es, readable (first_place e) e -> Forall (readable (At 0)) es -> readable_list (e :: es).

End Readable.

(** ** Clauses and statements *)

(** The name of a procedure, behind its name space. *)
Definition procedure (E : env) (l : list string) (space : option (key * string)) (n : string) : Prop :=
  l <> [] /\ exists tx tn, tokens E (match space with Some (_, x) => x | None => "" end) = Some tx /\ tokens E n = Some tn /\ spelling l = tx ++ tn.
(** The operators of labels are written in the same way: whether the labels are
    set or removed is said by the clause. *)
Definition labelling (o : op) : Prop := o = SetLabel \/ o = RemoveLabel.

Section AgreesQ.
Context (E : env) (A : register).

(** Items of RETURN, WITH and YIELD.  An expression that has already been
    given this alias is written by it. *)
Inductive agrees_item : citem -> expr -> Prop :=
| ai_plain : forall e t, agrees E A t e -> agrees_item (CItem t None) e
| ai_alias : forall k dk e a t, agrees E A t e -> agrees_item (CItem t (Some a)) (EAlias k dk e a)
| ai_again : forall k dk e a, A dk a -> again A dk -> agrees_item (CItem (XVar a) None) (EAlias k dk e a).

Inductive agrees_sort : cx * option bool -> expr -> Prop :=
| ao_sort : forall k e d t, agrees E A t e -> agrees_sort (t, d) (ESort k e d).

Inductive agrees_order : list (cx * option bool) -> option expr -> Prop :=
| ao_none : agrees_order [] None
| ao_order : forall k es l, Forall2 agrees_sort l es -> agrees_order l (Some (EOrder k es)).

Inductive agrees_skip : option cx -> option expr -> Prop :=
| ak_none : agrees_skip None None
| ak_skip : forall k e t, agrees E A t e -> agrees_skip (Some t) (Some (ESkip k e)).
Inductive agrees_limit : option cx -> option expr -> Prop :=
| al_none : agrees_limit None None
| al_limit : forall k e t, agrees E A t e -> agrees_limit (Some t) (Some (ELimit k e)).

Inductive agrees_body : cbody -> bool -> body -> Prop :=
| ab : forall d k es o s n l ol sl nl, Forall2 agrees_item l es -> agrees_order ol o -> agrees_skip sl s -> agrees_limit nl n ->
    agrees_body (CBody d l ol sl nl) d (Body (EExprs k es) o s n).

Inductive agrees_set : cset -> expr -> Prop :=
| as_assign : forall k l r t u, agrees E A t l -> agrees E A u r -> agrees_set (SAssign t u) (EOperation k l SetProp r)
| as_mutate : forall k l r t u, agrees E A t l -> agrees E A u r -> agrees_set (SMutate t u) (EOperation k l Mutate r)
| as_labels : forall k l o kl ls t, labelling o -> agrees E A t l -> agrees_set (SLabels (XLabels t (map snd ls))) (EOperation k l o (ELabels kl ls)).

Inductive agrees_removal : cx -> expr -> Prop :=
| ar_plain : forall e t, agrees E A t e -> agrees_removal t e
| ar_labels : forall k l o kl ls t, labelling o -> agrees E A t l -> agrees_removal (XLabels t (map snd ls)) (EOperation k l o (ELabels kl ls)).

Inductive agrees_action : bool * list cset -> query -> Prop :=
| aa : forall k c ks ke es l, Forall2 agrees_set l es -> agrees_action (c, l) (QAction k c (QSet ks (EExprs ke es))).
Inductive agrees_actions : list (bool * list cset) -> list query -> Prop :=
| aa_none : agrees_actions [] []
| aa_some : forall k l qs, Forall2 agrees_action l qs -> agrees_actions l (QBlank k :: qs).

Inductive agrees_args : option (list cx) -> option expr -> Prop :=
| ag_no_args : agrees_args None None
| ag_args : forall k es l, Forall2 (agrees E A) l es -> agrees_args (Some l) (Some (EArgs k es)).
Inductive agrees_yield : option (list citem) -> option expr -> Prop :=
| ay_none : agrees_yield None None
| ay_some : forall k es l, Forall2 agrees_item l es -> agrees_yield (Some l) (Some (EYield k es)).

Inductive agrees_c : cclause -> query -> Prop :=
| ac_match : forall k o kp es w ps t, Forall2 (agrees_part E A) ps es -> agrees_where E A t w ->
    agrees_c (CMatch o ps t) (QMatch k o (EPattern kp es) w)
| ac_create : forall k kp es ps, Forall2 (agrees_part E A) ps es -> agrees_c (CCreate ps) (QCreate k (EPattern kp es))
| ac_merge : forall k kp es evs ps l, Forall2 (agrees_part E A) ps es -> agrees_actions l evs ->
    agrees_c (CMerge ps l) (QMerge k (EPattern kp es) evs)
| ac_delete : forall k d ke es l, Forall2 (agrees E A) l es -> agrees_c (CDelete d l) (QDelete k d (EExprs ke es))
| ac_set : forall k ke es l, Forall2 agrees_set l es -> agrees_c (CSet l) (QSet k (EExprs ke es))
| ac_remove : forall k ke es l, Forall2 agrees_removal l es -> agrees_c (CRemove l) (QRemove k (EExprs ke es))
| ac_unwind : forall k e v t, agrees E A t e -> agrees_c (CUnwind t v) (QUnwind k e v)
| ac_with : forall k d b w c t, agrees_body c d b -> agrees_where E A t w -> agrees_c (CWith c t) (QWith k d b w)
| ac_return : forall k d b c, agrees_body c d b -> agrees_c (CReturn c) (QReturn k d b)
| ac_call : forall k kn sp n a y w l al yl t, procedure E l sp n -> agrees_args al a -> agrees_yield yl y -> agrees_where E A t w ->
    agrees_c (CCall l al yl t) (QCall k kn sp n a y w)
| ac_sub : forall k q l us, agrees_q l us q -> agrees_c (CSub l us) (QSubquery k q)
(** Clauses one after the other. *)
with agrees_cs : list cclause -> query -> Prop :=
| at_single : forall cs r l, Forall2 agrees_c l (cs ++ match r with Some q => [q] | None => [] end) -> agrees_cs l (QSingle cs r)
| at_multi : forall ps r l1 l2, Forall2 agrees_c l1 (flat_map (fun p => snd (fst p) ++ [snd p]) ps) -> agrees_cs l2 r ->
    agrees_cs (l1 ++ l2) (QMulti ps r)
(* a procedure call is a statement of its own, too *)
| at_call : forall k kn sp n a y w c, agrees_c c (QCall k kn sp n a y w) -> agrees_cs [c] (QCall k kn sp n a y w)
with agrees_q : list cclause -> list (bool * list cclause) -> query -> Prop :=
| aq_one : forall q l, agrees_cs l q -> agrees_q l [] q
| aq_union : forall k q qs l us, agrees_cs l q -> Forall2 (fun x p => fst x = snd (fst p) /\ agrees_cs (snd x) (snd p)) us qs ->
    agrees_q l us (QUnion k q qs).

Definition agrees_statement (c : cquery) (q : query) : Prop := agrees_q (cq_first c) (cq_others c) q.

End AgreesQ.

Section ReadableQ.
Context (E : env) (A : key -> string -> Prop).

Notation unaliased := (unaliased A).
Notation readable := (readable E A).

Inductive readable_item : expr -> Prop :=
| ri_plain : forall e, readable (At 0) e -> readable_item e
| ri_alias : forall k dk e a, unaliased k -> variable a -> readable (At 0) e -> readable_item (EAlias k dk e a).

Inductive readable_sort : expr -> Prop :=
| ri_sort : forall k e d, unaliased k -> readable (At 0) e -> readable_sort (ESort k e d).

Definition readable_body (b : body) : Prop :=
  (exists k es, b_items b = EExprs k es /\ unaliased k /\ es <> [] /\ Forall readable_item es)
  /\ Forall (fun o => exists k es, o = EOrder k es /\ unaliased k /\ es <> [] /\ Forall readable_sort es) (opt_list (b_order b))
  /\ Forall (fun s => exists k e, s = ESkip k e /\ unaliased k /\ readable (At 0) e) (opt_list (b_skip b))
  /\ Forall (fun n => exists k e, n = ELimit k e /\ unaliased k /\ readable (At 0) e) (opt_list (b_limit b)).

Inductive readable_set : expr -> Prop :=
| rs_assign : forall k l r, unaliased k -> readable (At 10) l -> readable (At 0) r -> readable_set (EOperation k l SetProp r)
| rs_mutate : forall k l r, unaliased k -> readable (At 10) l -> readable (At 0) r -> readable_set (EOperation k l Mutate r)
| rs_labels : forall k l o kl ls, labelling o -> unaliased k -> unaliased kl -> readable (At 10) l -> ls <> [] -> labels_ok A ls ->
    readable_set (EOperation k l o (ELabels kl ls)).

Inductive readable_removal : expr -> Prop :=
| rr_plain : forall e, readable (At 10) e -> readable_removal e
| rr_labels : forall k l o kl ls, labelling o -> unaliased k -> unaliased kl -> readable (At 10) l -> ls <> [] -> labels_ok A ls ->
    readable_removal (EOperation k l o (ELabels kl ls)).

Definition readable_action (q : query) : Prop :=
  exists k c ks ke es, q = QAction k c (QSet ks (EExprs ke es)) /\ unaliased k /\ unaliased ks /\ unaliased ke /\ es <> [] /\ Forall readable_set es.

Inductive readable_c : query -> Prop :=
| rc_match : forall k o p w, unaliased k -> readable PartsP p -> Forall (readable WhereP) (opt_list w) -> readable_c (QMatch k o p w)
| rc_create : forall k p, unaliased k -> readable PartsP p -> readable_c (QCreate k p)
| rc_merge : forall k p, unaliased k -> readable PartsP p -> readable_c (QMerge k p [])
| rc_merge_on : forall k p kb evs, unaliased k -> unaliased kb -> readable PartsP p -> Forall readable_action evs ->
    readable_c (QMerge k p (QBlank kb :: evs))
| rc_delete : forall k d ke es, unaliased k -> unaliased ke -> es <> [] -> Forall (readable (At 0)) es -> readable_c (QDelete k d (EExprs ke es))
| rc_set : forall k ke es, unaliased k -> unaliased ke -> es <> [] -> Forall readable_set es -> readable_c (QSet k (EExprs ke es))
| rc_remove : forall k ke es, unaliased k -> unaliased ke -> es <> [] -> Forall readable_removal es -> readable_c (QRemove k (EExprs ke es))
| rc_unwind : forall k e v, unaliased k -> readable (At 0) e -> is_identifier E v = true -> readable_c (QUnwind k e v)
| rc_with : forall k d b w, unaliased k -> readable_body b -> Forall (readable WhereP) (opt_list w) -> readable_c (QWith k d b w)
| rc_return : forall k d b, unaliased k -> readable_body b -> readable_c (QReturn k d b)
| rc_call : forall k kn sp n a y w, unaliased k -> unaliased kn -> (forall ks x, sp = Some (ks, x) -> unaliased ks) ->
    (exists l, procedure E l sp n) -> Forall (fun e => exists ka es, e = EArgs ka es /\ unaliased ka /\ Forall (readable (At 0)) es) (opt_list a) ->
    Forall (fun e => exists ky es, e = EYield ky es /\ unaliased ky /\ es <> [] /\ Forall readable_item es) (opt_list y) ->
    Forall (readable WhereP) (opt_list w) -> readable_c (QCall k kn sp n a y w)
| rc_sub : forall k q, unaliased k -> readable_q q -> readable_c (QSubquery k q)
with readable_cs : query -> Prop :=
| rt_single : forall cs r, Forall readable_c (cs ++ match r with Some q => [q] | None => [] end) -> readable_cs (QSingle cs r)
| rt_multi : forall ps r, Forall (fun p => unaliased (fst (fst p)) /\ Forall readable_c (snd (fst p) ++ [snd p])) ps -> readable_cs r ->
    readable_cs (QMulti ps r)
| rt_call : forall k kn sp n a y w, readable_c (QCall k kn sp n a y w) -> readable_cs (QCall k kn sp n a y w)
with readable_q : query -> Prop :=
| rq_one : forall q, readable_cs q -> readable_q q
| rq_union : forall k q qs, unaliased k -> readable_cs q -> Forall (fun p => unaliased (fst (fst p)) /\ readable_cs (snd p)) qs ->
    readable_q (QUnion k q qs).

End ReadableQ.

(** ** Elements written more than once *)

(** The keys by which the elements of a document are known, and those of the
    named nodes, as often as they occur.  An aliased expression occurs once in
    its definition. *)
Fixpoint mentions (d : doc) : list key :=
  match d with
  | Txt _ => []
  | Cat l | Commas l => flat_map mentions l
  | Shared k d => k :: mentions d
  | Once _ _ d => mentions d
  | Aliased k _ d => match d with
                     | Shared k' _ => if String.eqb k k' then mentions d else k :: mentions d
                     | _ => k :: mentions d
                     end
  end.
Fixpoint node_mentions (d : doc) : list key :=
  match d with
  | Txt _ => []
  | Cat l | Commas l => flat_map node_mentions l
  | Once k _ d => k :: node_mentions d
  | Shared _ d | Aliased _ _ d => node_mentions d
  end.
Definition twice (k : key) (l : list key) : Prop := 2 <= count_occ string_dec l k.
Definition written_again (d : doc) (k : key) : Prop := twice k (mentions d) \/ twice k (node_mentions d).

(** ** The aliases a statement gives *)

Inductive gives_alias_in (k : key) (a : string) : expr -> Prop :=
| ge_here : forall ka e, gives_alias_in k a (EAlias ka k e a)
| ge_inside : forall e d, In d (children e) -> gives_alias_in k a d -> gives_alias_in k a e.

(** The expressions and the clauses a clause or a statement is made of. *)
Definition body_exprs (b : body) : list expr :=
  b_items b :: opt_list (b_order b) ++ opt_list (b_skip b) ++ opt_list (b_limit b).
Definition exprs_of (q : query) : list expr :=
  match q with
  | QMatch _ _ p w => p :: opt_list w
  | QCreate _ p | QMerge _ p _ => [p]
  | QDelete _ _ e | QSet _ e | QRemove _ e | QUnwind _ e _ => [e]
  | QWith _ _ b w => body_exprs b ++ opt_list w
  | QReturn _ _ b => body_exprs b
  | QCall _ _ _ _ a y w => opt_list a ++ opt_list y ++ opt_list w
  | QBlank _ | QAction _ _ _ | QSubquery _ _ | QSingle _ _ | QMulti _ _ | QUnion _ _ _ => []
  end.
Definition queries_of (q : query) : list query :=
  match q with
  | QMerge _ _ evs => evs
  | QAction _ _ s | QSubquery _ s => [s]
  | QSingle cs r => cs ++ opt_list r
  | QMulti ps r => flat_map (fun p => snd (fst p) ++ [snd p]) ps ++ [r]
  | QUnion _ q qs => q :: map snd qs
  | _ => []
  end.
Inductive gives_alias (k : key) (a : string) : query -> Prop :=
| gs_expr : forall q e, In e (exprs_of q) -> gives_alias_in k a e -> gives_alias k a q
| gs_query : forall q s, In s (queries_of q) -> gives_alias k a s -> gives_alias k a q.

(** Statements that can be read: their aliases are names of variables, and no
    element that every statement shares is given one. *)
Definition readable_statement (E : env) (q : query) : Prop :=
  shared_parts E (fun k => exists a, gives_alias k a q) /\ (forall k a, gives_alias k a q -> variable a)
  /\ shaped_q E (fun k => exists a, gives_alias k a q) q /\ readable_q E (fun k a => gives_alias k a q) q.

(** The syntax tree [c] says what [q] says. *)
Definition means (E : env) (c : cquery) (q : query) : Prop :=
  agrees_statement E (Register (fun k a => gives_alias k a q) (written_again (print_query E q))) c q.
