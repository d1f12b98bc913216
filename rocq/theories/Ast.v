(** The elements of /repo that are visited when a statement is rendered, one
    constructor per Go struct, and their [accept], [enter] and [leave] methods
    as visit trees.

    Every element carries the key its constructor stored ([getAddress(&x)]
    in most, "" in some).  Struct fields of interface or struct type whose
    [isNotNil] is false are [None]; an element that carries an error is never
    part of a visited statement and is modelled in GoVal.v. *)

From Coq Require Import Ascii String List ZArith Bool.
From Verif Require Import GoStr Escape Num VTree.
Import ListNotations.
Open Scope string_scope.

(** ** Operators: operator.go:64-94, in the order of declaration. *)
Inductive op :=
| Addition | Subtraction | Multiplication | Division | ModuloDivision | Exponentiation
| Equality | Inequality | LessThan | GreaterThan | LessThanOrEqualTo | GreaterThanOrEqualTo
| StartsWith | EndsWith | Contains | And | Or | Xor | Concat | Matches | InList | Assignment | Pipe
| IsNull | IsNotNull | Not | SetProp | GetProp | Mutate | SetLabel | RemoveLabel.

Definition op_index (o : op) : nat :=
  match o with
  | Addition => 0 | Subtraction => 1 | Multiplication => 2 | Division => 3 | ModuloDivision => 4
  | Exponentiation => 5 | Equality => 6 | Inequality => 7 | LessThan => 8 | GreaterThan => 9
  | LessThanOrEqualTo => 10 | GreaterThanOrEqualTo => 11 | StartsWith => 12 | EndsWith => 13
  | Contains => 14 | And => 15 | Or => 16 | Xor => 17 | Concat => 18 | Matches => 19 | InList => 20
  | Assignment => 21 | Pipe => 22 | IsNull => 23 | IsNotNull => 24 | Not => 25 | SetProp => 26
  | GetProp => 27 | Mutate => 28 | SetLabel => 29 | RemoveLabel => 30
  end.

(** operator.go:18, keys of the package variables. *)
Definition op_key (E : env) (o : op) : key := e_opkey E (op_index o).

(** operator.go:116-124. *)
Inductive op_type := Binary | Prefix | Postfix | PropertyType | LabelType.

(** operator.go:64-114. *)
Definition op_type_of (o : op) : op_type :=
  match o with
  | IsNull | IsNotNull => Postfix
  | Not => Prefix
  | SetProp | GetProp | Mutate => PropertyType
  | SetLabel | RemoveLabel => LabelType
  | _ => Binary
  end.

(** operator.go:64-94, the representations. *)
Definition op_repr (o : op) : string :=
  match o with
  | Addition => "+" | Subtraction => "-" | Multiplication => "*" | Division => "/"
  | ModuloDivision => "%" | Exponentiation => "^" | Equality => "=" | Inequality => "<>"
  | LessThan => "<" | GreaterThan => ">" | LessThanOrEqualTo => "<=" | GreaterThanOrEqualTo => ">="
  | StartsWith => "STARTS WITH" | EndsWith => "ENDS WITH" | Contains => "CONTAINS"
  | And => "AND" | Or => "OR" | Xor => "XOR" | Concat => "+" | Matches => "=~" | InList => "IN"
  | Assignment => "=" | Pipe => "|" | IsNull => "IS NULL" | IsNotNull => "IS NOT NULL" | Not => "NOT"
  | SetProp => "=" | GetProp => "." | Mutate => "+=" | SetLabel => "" | RemoveLabel => ""
  end.

Definition is_pow (o : op) : bool := match o with Exponentiation => true | _ => false end.

(** operator.go:39-51 [enter]. *)
Definition op_text (o : op) : string :=
  match op_type_of o with
  | LabelType => ""
  | t =>
      (match t with Prefix => "" | _ => if is_pow o then "" else " " end)
      ++ op_repr o
      ++ (match t with Postfix => "" | _ => if is_pow o then "" else " " end)
  end.

(** operation.go:152-155 [needsGrouping]: the operators and operator
    types that are written without parentheses. *)
Definition needs_grouping (o : op) : bool :=
  match op_type_of o with
  | PropertyType | LabelType => false
  | _ => match o with Exponentiation | Pipe => false | _ => true end
  end.

(** relationship_pattern.go:12-32, the three directions and their symbols, and
    the zero value, which has none. *)
Inductive direction := LTR | RTL | UNI | NoDirection.
Definition arrow_left (d : direction) : string := match d with LTR => "-" | RTL => "<-" | UNI => "-" | NoDirection => "" end.
Definition arrow_right (d : direction) : string := match d with LTR => "->" | RTL => "-" | UNI => "-" | NoDirection => "" end.

(** ** Expressions, conditions, patterns and the parts of clauses *)
Inductive expr :=
| ESym (k : key) (name : string)                               (* symbolic_name.go; "" is resolved *)
| EParam (k : key) (name : string)                             (* parameter.go *)
| EAsterisk (k : key)                                          (* asterisk.go *)
| EBool (k : key) (b : bool)                                   (* bool_literal.go *)
| ENull (k : key)                                              (* null_literal.go *)
| ENum (k : key) (n : num)                                     (* number_literal.go *)
| EStr (k : key) (s : string)                                  (* string_literal.go *)
| ERaw (k : key) (s : string)                                  (* raw_string_literal.go *)
| EListLit (k : key) (items : list expr)                       (* list_literal.go *)
| ELookup (k : key) (name : string)                            (* property_lookup.go *)
| EProp (k : key) (container lookup : expr)                    (* property.go *)
| EOperation (k : key) (l : expr) (o : op) (r : expr)          (* operation.go *)
| EComparison (k : key) (l : option expr) (o : op) (r : option expr)  (* comparison.go *)
| ENested (k : key) (e : expr)                                 (* nested_expression.go *)
| EConst (k : key) (e : expr)                                  (* constant_condition.go *)
| ECompound (k : key) (o : op) (cs : list expr)                (* compound_condition.go *)
| EBoolFun (e : expr)                                          (* boolean_function_condition.go *)
| EFun (k : key) (name : string) (ka : key) (args : list expr) (* function_invocation.go, visitable_list.go *)
| EArgs (k : key) (args : list expr)                           (* arguments.go *)
| EDistinct (k : key) (e : expr)                               (* distinct_expression.go *)
| EAlias (k : key) (dk : key) (e : expr) (alias : string)      (* alias_expression.go; dk = delegate.getKey() *)
| EEntry (k : key) (name : string) (e : expr)                  (* entry_expression.go, key_value_map_entry.go *)
| EMap (k : key) (entries : list expr)                         (* map_expression.go *)
| EProps (k : key) (m : expr)                                  (* properties.go *)
| EMapProj (k : key) (name m : expr)                           (* map_projection.go *)
| EExprs (k : key) (items : list expr)                         (* expression_list.go *)
| EListExpr (k : key) (content : expr)                         (* list_expression.go *)
| EListOp (k : key) (target : expr) (kd : key) (start : option expr) (dots : bool) (stop : option expr)
                                                               (* list_operator.go *)
| EListPred (k : key) (var list_ where_ : expr)                (* list_predicate.go *)
| EListComp (k : key) (var list_ : expr) (where_ def : option expr)   (* list_comprehension.go *)
| EPatComp (k : key) (pattern : expr) (where_ : option expr) (def : expr)   (* pattern_comprehension.go *)
| EExcluded (k : key) (pattern : expr)                         (* excluded_pattern.go *)
| EHasLabel (k : key) (name : expr) (labels : list (key * string))    (* has_label_condition.go *)
| EExists (k : key) (km : key) (optional : bool) (pattern : expr) (where_ : option expr)
                                                               (* existential_subquery.go, match.go *)
| ERelCond (k : key) (pattern : expr)                          (* relationship_pattern_condition.go *)
| ENamedPath (k : key) (name pattern : expr)                   (* name_path.go *)
| ELabels (k : key) (labels : list (key * string))             (* node_labels.go *)
| ENode (k : key) (name : option (key * string)) (labels : list (key * string)) (props : option expr)
                                                               (* node.go *)
| EDetails (k : key) (d : direction) (name : option expr) (types : option (key * list string))
           (len : option (key * bool * option Z * option Z)) (props : option expr)
                                                               (* relationship_details.go *)
| ERel (k : key) (l d r : expr)                                (* relationship.go *)
| EChain (k : key) (rels : list (expr * expr)) (last : option expr)   (* relationship_chain.go *)
| ECase (k : key) (generic : bool) (subject : option expr) (branches : list (key * expr * expr))
        (default : option (key * expr))                        (* case.go *)
| EPattern (k : key) (items : list expr)                       (* pattern.go *)
| EWhere (k : key) (c : expr)                                  (* where.go *)
| EOrder (k : key) (items : list expr)                         (* order.go *)
| ESort (k : key) (e : expr) (desc : option bool)              (* sort_item.go *)
| ESkip (k : key) (e : expr)                                   (* skip.go *)
| ELimit (k : key) (e : expr)                                  (* limit.go *)
| EYield (k : key) (items : list expr).                        (* yield_items.go *)

(** The expressions an expression is made of. *)
Definition opt_list {A} (o : option A) : list A := match o with Some x => [x] | None => [] end.

Definition children (e : expr) : list expr :=
  match e with
  | ESym _ _ | EParam _ _ | EAsterisk _ | EBool _ _ | ENull _ | ENum _ _ | EStr _ _ | ERaw _ _ | ELookup _ _
  | ELabels _ _ => []
  | EListLit _ l | ECompound _ _ l | EFun _ _ _ l | EArgs _ l | EMap _ l | EExprs _ l | EPattern _ l
  | EOrder _ l | EYield _ l => l
  | EProp _ a b | EOperation _ a _ b | EMapProj _ a b | ENamedPath _ a b => [a; b]
  | EComparison _ a _ b => opt_list a ++ opt_list b
  | ENested _ a | EConst _ a | EBoolFun a | EDistinct _ a | EAlias _ _ a _ | EEntry _ _ a | EProps _ a
  | EListExpr _ a | EExcluded _ a | EHasLabel _ a _ | ERelCond _ a | EWhere _ a | ESort _ a _ | ESkip _ a
  | ELimit _ a => [a]
  | EListOp _ a _ b _ c => a :: opt_list b ++ opt_list c
  | EListPred _ a b c | ERel _ a b c => [a; b; c]
  | EListComp _ a b c d => a :: b :: opt_list c ++ opt_list d
  | EPatComp _ a b c => a :: c :: opt_list b
  | EExists _ _ _ a b => a :: opt_list b
  | ENode _ _ _ a => opt_list a
  | EDetails _ _ a _ _ b => opt_list a ++ opt_list b
  | EChain _ l a => flat_map (fun p => [fst p; snd p]) l ++ opt_list a
  | ECase _ _ a l b => opt_list a ++ flat_map (fun p => [snd (fst p); snd p]) l
                       ++ match b with Some x => [snd x] | None => [] end
  end.

(** Visit trees of elements that write fixed texts and have no parts, that
    have parts, and that are SubVisitable. *)
Definition leaf (k : key) (s : string) : vt := V (Head k false (KText s "")) [].
Definition el (k : key) (b a : string) (kids : list vt) : vt := V (Head k false (KText b a)) kids.
Definition sub (k : key) (b a : string) (kids : list vt) : vt := V (Head k true (KText b a)) kids.

(** visitable.go:3-8 [VisitIfNotNull]. *)
Definition opt {A} (f : A -> vt) (o : option A) : list vt := match o with Some x => [f x] | None => [] end.

Definition op_vt (E : env) (o : op) : vt := leaf (op_key E o) (op_text o).
Definition label_vt (l : key * string) : vt := leaf (fst l) (label_text (snd l)).

(** list_literal.go:40-45: [visitor.append(", ")] before every element but the first. *)
Definition literal_items (l : list vt) : list vt :=
  match l with [] => [] | x :: l' => x :: flat_map (fun y => [T ", "; y]) l' end.

Definition has_content {A B C D} (a : option A) (b : option B) (c : option C) (d : option D) : bool :=
  is_some a || is_some b || is_some c || is_some d.

Fixpoint to_vt (E : env) (e : expr) : vt :=
  match e with
  | ESym k n => leaf k (resolve E n)                                     (* symbolic_name.go:60-70 *)
  | EParam k n => leaf k (param_text n)                                  (* parameter.go:42-52 *)
  | EAsterisk k => leaf k "*"                                            (* asterisk.go:51-61 *)
  | EBool k b => leaf k (if b then "true" else "false")                  (* bool_literal.go:51-61 *)
  | ENull k => leaf k "NULL"                                             (* null_literal.go:25-35 *)
  | ENum k n => leaf k (number_text n)                                   (* number_literal.go:69-79 *)
  | EStr k s => leaf k (string_literal s)                                (* string_literal.go:71-81 *)
  | ERaw k s => leaf k s                                                 (* raw_string_literal.go:49-59 *)
  | EListLit k items => el k "[" "]" (literal_items (map (to_vt E) items))     (* list_literal.go:38-55 *)
  | ELookup k n => leaf k (lookup_text E n)                              (* property_lookup.go:28-43 *)
  | EProp k c n => el k "" "" [to_vt E c; to_vt E n]                     (* property.go:79-90 *)
  | EOperation k l o r =>                                                (* operation.go:120-138 *)
      el k (if needs_grouping o then "(" else "") (if needs_grouping o then ")" else "")
         [to_vt E l; op_vt E o; to_vt E r]
  | EComparison k l o r =>                                               (* comparison.go:97-113 *)
      el k "" "" (opt (to_vt E) l ++ [op_vt E o] ++ opt (to_vt E) r)%list
  | ENested k e => el k "(" ")" [to_vt E e]                              (* nested_expression.go:34-46 *)
  | EConst k e => el k "" "" [to_vt E e]                                 (* constant_condition.go:35-47 *)
  | ECompound k o cs =>                                                  (* compound_condition.go:83-114, 192-195 *)
      match cs with
      | [] => B []
      | [c] => B [to_vt E c]
      | c :: rest =>
          el k "(" ")"
             (to_vt E c :: flat_map (fun d => [op_vt E (match d with ECompound _ o' _ => o' | _ => o end); to_vt E d]) rest)
      end
  | EBoolFun e => B [to_vt E e]                                          (* boolean_function_condition.go:32-40 *)
  | EFun k n ka args =>                                                  (* function_invocation.go:152-165, *)
      el k (n ++ "(") ")" [sub ka "" "" (map (to_vt E) args)]            (* visitable_list.go:36-48 *)
  | EArgs k args => sub k "(" ")" (map (to_vt E) args)                   (* arguments.go:44-58 *)
  | EDistinct k e => el k "" "" [leaf "" "DISTINCT "; to_vt E e]         (* distinct_expression.go:36-50, distinct.go:28-38 *)
  | EAlias k dk e a =>                                                   (* alias_expression.go:61-82 *)
      V (Head k false (KAlias dk (escape_if_necessary E a))) [to_vt E e]
  | EEntry k n e => el k (escape_if_necessary E n ++ ": ") "" [to_vt E e]      (* entry_expression.go:44-56 *)
  | EMap k es => sub k "{" "}" (map (to_vt E) es)                        (* map_expression.go:76-90 *)
  | EProps k m => el k " " "" [to_vt E m]                                (* properties.go:37-48 *)
  | EMapProj k n m => el k "" "" [to_vt E n; to_vt E m]                  (* map_projection.go:60-71 *)
  | EExprs k es => sub k "" "" (map (to_vt E) es)                        (* expression_list.go:56-68 *)
  | EListExpr k c => el k "[" "]" [to_vt E c]                            (* list_expression.go:51-63 *)
  | EListOp k t kd s dots x =>                                           (* list_operator.go:132-143, 246-260 *)
      el k "" "" [to_vt E t; el kd "[" "]" (opt (to_vt E) s ++ (if dots then [leaf (e_dotkey E) ".."] else [])
                                              ++ opt (to_vt E) x)%list]
  | EListPred k v l w => el k "" "" [to_vt E v; op_vt E InList; to_vt E l; to_vt E w]   (* list_predicate.go:42-55 *)
  | EListComp k v l w d =>                                               (* list_comprehension.go:49-68 *)
      el k "[" "]" ([to_vt E v; op_vt E InList; to_vt E l] ++ opt (to_vt E) w
                      ++ match d with Some d => [op_vt E Pipe; to_vt E d] | None => [] end)%list
  | EPatComp k p w d =>                                                  (* pattern_comprehension.go:49-64 *)
      el k "[" "]" ([to_vt E p] ++ opt (to_vt E) w ++ [op_vt E Pipe; to_vt E d])%list
  | EExcluded k p => el k "" "" [op_vt E Not; to_vt E p]                 (* excluded_pattern.go:34-45 *)
  | EHasLabel k n ls => el k "" "" (to_vt E n :: map label_vt ls)        (* has_label_condition.go:68-81 *)
  | EExists k km o p w =>                                                (* existential_subquery.go:38-50, match.go:45-65 *)
      el k "EXISTS {" "}" [el km ((if o then "OPTIONAL " else "") ++ "MATCH ") " " (to_vt E p :: opt (to_vt E) w)]
  | ERelCond k p => el k "" "" [to_vt E p]                               (* relationship_pattern_condition.go:42-52 *)
  | ENamedPath k n p => el k "" "" [to_vt E n; op_vt E Assignment; to_vt E p]   (* name_path.go:99-111 *)
  | ELabels k ls => el k "" "" (map label_vt ls)                         (* node_labels.go:32-44 *)
  | ENode k n ls ps =>                                                   (* node.go:132-157, 262-276 *)
      V (Head k false (KNode (option_map snd n)))
        (opt (fun x => leaf (fst x) (resolve E (snd x))) n ++ map label_vt ls ++ opt (to_vt E) ps)%list
  | EDetails k d n ts len ps =>                                          (* relationship_details.go:135-158, *)
      let c := has_content n ts len ps in                                (* relationship_type.go:39-58, *)
      el k (arrow_left d ++ (if c then "[" else "")) ((if c then "]" else "") ++ arrow_right d)   (* relationship_length.go:38-64 *)
         (opt (to_vt E) n ++ opt (fun x => leaf (fst x) (rel_types_text (snd x))) ts
            ++ opt (fun x => let '(kl, u, lo, hi) := x in leaf kl (rel_length_text u lo hi)) len
            ++ opt (to_vt E) ps)%list
  | ERel k l d r => el k "" "" [to_vt E l; to_vt E d; to_vt E r]         (* relationship.go:100-112 *)
  | EChain k rels last =>                                                (* relationship_chain.go:98-114 *)
      el k "" "" (flat_map (fun p => [to_vt E (fst p); to_vt E (snd p)]) rels ++ opt (to_vt E) last)%list
  | ECase k g s bs d =>                                                  (* case.go:125-149, 253-266, 297-308 *)
      el k (if g then "CASE" else "CASE ") " END"
         (opt (to_vt E) s
            ++ flat_map (fun b => [el (fst (fst b)) " WHEN " " THEN " [to_vt E (snd (fst b))]; to_vt E (snd b)]) bs
            ++ opt (fun x => el (fst x) " ELSE " "" [to_vt E (snd x)]) d)%list
  | EPattern k ps => sub k "" "" (map (to_vt E) ps)                      (* pattern.go:40-52 *)
  | EWhere k c => el k " WHERE " "" [to_vt E c]                          (* where.go:40-51 *)
  | EOrder k items => sub k " ORDER BY " "" (map (to_vt E) items)        (* order.go:33-50 *)
  | ESort k e d =>                                                       (* sort_item.go:51-64, 99-113 *)
      el k "" "" (to_vt E e :: match d with Some b => [leaf "" (if b then " DESC" else " ASC")] | None => [] end)
  | ESkip k e => el k " SKIP " "" [to_vt E e]                            (* skip.go:29-40 *)
  | ELimit k e => el k " LIMIT " "" [to_vt E e]                          (* limit.go:40-51 *)
  | EYield k items => sub k " YIELD " "" (map (to_vt E) items)           (* yield_items.go:51-64 *)
  end.

(** ** Clauses and statements *)

(** return_body.go:3-11. *)
Record body := Body { b_items : expr; b_order : option expr; b_skip : option expr; b_limit : option expr }.

Inductive query :=
| QMatch (k : key) (optional : bool) (pattern : expr) (where_ : option expr)   (* match.go *)
| QCreate (k : key) (pattern : expr)                                           (* create.go *)
| QMerge (k : key) (pattern : expr) (events : list query)                      (* merge.go *)
| QBlank (k : key)                                                             (* merge.go:11, the literal BLANK *)
| QAction (k : key) (on_create : bool) (set : query)                           (* merge_action.go *)
| QDelete (k : key) (detach : bool) (items : expr)                             (* delete.go *)
| QSet (k : key) (items : expr)                                                (* set.go *)
| QRemove (k : key) (items : expr)                                             (* remove.go *)
| QUnwind (k : key) (e : expr) (variable : string)                             (* unwind.go *)
| QWith (k : key) (distinct : bool) (b : body) (where_ : option expr)          (* with.go *)
| QReturn (k : key) (distinct : bool) (b : body)                               (* return.go *)
| QCall (k : key) (kn : key) (space : option (key * string)) (name : string)
        (args yield where_ : option expr)                                      (* procedure_call.go, procedure_name.go *)
| QSubquery (k : key) (q : query)                                              (* subquery.go *)
| QSingle (clauses : list query) (ret : option query)                          (* single_part_query.go *)
| QMulti (parts : list (key * list query * query)) (remainder : query)         (* multi_part_query.go, multipart_element.go *)
| QUnion (k : key) (first : query) (more : list (key * bool * query)).         (* union_query.go, union_part.go *)

(** distinct.go:10-14. *)
Definition distinct_vt (d : bool) : list vt := if d then [leaf "DISTINCT_INSTANCE" "DISTINCT "] else [].

(** return_body.go:61-66. *)
Definition body_vt (E : env) (b : body) : vt :=
  B (to_vt E (b_items b) :: opt (to_vt E) (b_order b) ++ opt (to_vt E) (b_skip b) ++ opt (to_vt E) (b_limit b))%list.

Fixpoint to_vtq (E : env) (q : query) : vt :=
  match q with
  | QMatch k o p w =>                                                    (* match.go:45-65 *)
      el k ((if o then "OPTIONAL " else "") ++ "MATCH ") " " (to_vt E p :: opt (to_vt E) w)
  | QCreate k p => el k "CREATE " " " [to_vt E p]                        (* create.go:32-44 *)
  | QMerge k p evs =>                                                    (* merge.go:61-78 *)
      el k "MERGE " (match evs with [] => " " | _ => "" end) (to_vt E p :: map (to_vtq E) evs)
  | QBlank k => leaf k " "                                               (* raw_string_literal.go:49-59 *)
  | QAction k c s => el k (if c then "ON CREATE " else "ON MATCH ") "" [to_vtq E s]   (* merge_action.go:25-42 *)
  | QDelete k d e => el k ((if d then "DETACH " else "") ++ "DELETE ") " " [to_vt E e]   (* delete.go:38-53 *)
  | QSet k e => el k "SET " " " [to_vt E e]                              (* set.go:36-48 *)
  | QRemove k e => el k "REMOVE " " " [to_vt E e]                        (* remove.go:32-44 *)
  | QUnwind k e v => el k "UNWIND " (" AS " ++ v ++ " ") [to_vt E e]     (* unwind.go:38-52 *)
  | QWith k d b w => el k "WITH " " " (distinct_vt d ++ [body_vt E b] ++ opt (to_vt E) w)%list   (* with.go:52-66 *)
  | QReturn k d b => el k "RETURN " "" (distinct_vt d ++ [body_vt E b])%list   (* return.go:51-63 *)
  | QCall k kn sp n a y w =>                                             (* procedure_call.go:45-60, procedure_name.go:61-72, *)
      el k "CALL " " " (el kn "" n (opt (fun x : key * string => leaf (fst x) (snd x)) sp)   (* name_space.go:29-39 *)
                          :: opt (to_vt E) a ++ opt (to_vt E) y ++ opt (to_vt E) w)%list
  | QSubquery k q => el k "CALL {" "} " [to_vtq E q]                     (* subquery.go:56-68 *)
  | QSingle cs r => B (map (to_vtq E) cs ++ opt (to_vtq E) r)%list       (* single_part_query.go:59-64 *)
  | QMulti ps r =>                                                       (* multi_part_query.go:36-41, multipart_element.go:40-53 *)
      B (map (fun p : key * list query * query => el (fst (fst p)) "" "" (map (to_vtq E) (snd (fst p)) ++ [to_vtq E (snd p)])%list) ps
           ++ [to_vtq E r])%list
  | QUnion k q qs =>                                                     (* union_query.go:64-77, union_part.go:38-52 *)
      el k "" "" (to_vtq E q :: map (fun p : key * bool * query => el (fst (fst p)) (if snd (fst p) then " UNION ALL " else " UNION ") ""
                                                 [to_vtq E (snd p)]) qs)
  end.
