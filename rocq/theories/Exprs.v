(** Expressions and the calls that make them: expression_container.go,
    operations.go, operation.go, comparison.go, alias_expression.go,
    nested_expression.go, property.go, sort_item.go, expression_list.go,
    list_expression.go, list_operator.go and the
    corresponding functions of cypher.go.

    Arguments of interface type may be nil here.  Each call takes the keys of
    the elements it makes ([ks], arbitrary). *)

From Coq Require Import Ascii String List ZArith Bool.
From Verif Require Import GoStr Escape Num VTree Ast GoVal Maps Patterns.
Import ListNotations.
Open Scope string_scope.
Open Scope list_scope.

(** ** Values of the interface type Expression *)

(** An element, by its fields notNil and err.  Visiting an element whose
    interface fields are nil panics: such an element is written as [None]. *)
Inductive status :=
| Good (e : expr)                              (* notNil, no error *)
| Unset (e : expr)                             (* notNil is false, no error *)
| Failed (msg : string) (zero : option expr)   (* an error; what visiting it writes *)
| Hollow.                                      (* notNil, no error, visiting it panics *)

(** An element embeds a container (expression_container.go:3-11), which holds an
    expression: [inner]. *)
Inductive value := NilValue | Elem (c : status) (inner : value).

(** [GetError], [isNotNil]; a call on a nil interface panics, so both are only
    used on other values. *)
Definition value_err (v : value) : option string := match v with Elem (Failed m _) _ => Some m | _ => None end.
Definition value_ok (v : value) : bool := match v with Elem (Good _) _ | Elem Hollow _ => true | _ => false end.
Definition is_nil (v : value) : bool := match v with NilValue => true | _ => false end.

(** What visiting the value writes; [None]: it panics. *)
Definition shown (v : value) : option expr :=
  match v with
  | Elem (Good e) _ | Elem (Unset e) _ => Some e
  | Elem (Failed _ z) _ => z
  | NilValue | Elem Hollow _ => None
  end.

(** [x.ExpressionContainer = ExpressionWrap(x)], the last statement of most
    constructors: the container holds a copy of x, whose container is empty. *)
Definition made (c : status) : value := Elem c (Elem c NilValue).

(** The [...Error] constructors: an empty container.  [z]: the zero value. *)
Definition failed (m : string) (z : option expr) : value := Elem (Failed m z) NilValue.

(** An element made from parts that are visited. *)
Definition of_parts (f : list expr -> expr) (vs : list value) : status :=
  match fold_right (fun v acc => match shown v, acc with Some e, Some l => Some (e :: l) | _, _ => None end) (Some []) vs with
  | Some l => Good (f l)
  | None => Hollow
  end.
Definition of_part (f : expr -> expr) (v : value) : status :=
  match shown v with Some e => Good (f e) | None => Hollow end.
Definition of_two (f : expr -> expr -> expr) (v w : value) : status :=
  match shown v, shown w with Some a, Some b => Good (f a b) | _, _ => Hollow end.

(** symbolic_name.go:15-26, 38-42; [NoSym]: the zero SymbolicName. *)
Definition sym_value (s : sym) : value :=
  match s with
  | Sym k n => made (Good (ESym k n))
  | NoSym => Elem (Unset (ESym "" "")) NilValue
  | BadSym m => failed m (Some (ESym "" ""))
  end.

(** Literals: bool_literal.go:14-22, number_literal.go:15-43,
    string_literal.go:24-32, map_expression.go:15-34. *)
Definition bool_value (k : key) (b : bool) : value := made (Good (EBool k b)).
Definition int_value (k : key) (z : Z) : value := made (Good (ENum k (num_of_Z z))).
Definition float_value (k : key) (n : num) : value := made (Good (ENum k n)).
Definition string_value (k : key) (s : string) : value := made (Good (EStr k s)).
Definition map_value (m : gmap) : value :=
  match m with
  | MapOk k es => made (Good (EMap k es))
  | NoMap => Elem (Unset (EMap "" [])) NilValue
  | BadMap m => failed m (Some (EMap "" []))
  end.

(** list_literal.go:13-26: the container is filled before notNil is set. *)
Definition list_literal_value (k : key) (l : list gval) : value :=
  match first_error l with
  | Some m => failed m (Some (EListLit "" []))
  | None => Elem (Good (EListLit k (sound_exprs l))) (Elem (Unset (EListLit k (sound_exprs l))) NilValue)
  end.

(** parameter.go:16-36; cypher.go:149-151 [AParam]: the name without its dollar signs. *)
Fixpoint drop_dollars (s : string) : string :=
  match s with String "$" s' => drop_dollars s' | _ => s end.
Definition parameter_value (k : key) (name : string) : value :=
  let n := drop_dollars name in
  if String.eqb n "" then failed "the name of the parameter is required" (Some (EParam "" ""))
  else made (Good (EParam k n)).

(** ** Operations and comparisons *)

(** condition.go:3-12: the types that implement Condition, those with a method
    [getConditionType]. *)
Definition is_condition (e : expr) : bool :=
  match e with
  | EComparison _ _ _ _ | EConst _ _ | ECompound _ _ _ | EBoolFun _ | EExcluded _ _ | EHasLabel _ _ _
  | EExists _ _ _ _ _ | ERelCond _ _ | ECase _ _ _ _ _ => true
  | _ => false
  end.

(** operation.go:112-114. *)
Definition operation_error (m : string) : value := failed m None.

(** operation.go:18-46 [OperationCreate]; the operator is one of the package
    variables, so it is set and has no error. *)
Definition operation_create (k : key) (l : value) (o : op) (r : value) : value :=
  match value_err l, value_err r with
  | Some m, _ => operation_error m
  | None, Some m => operation_error m
  | None, None =>
      if negb (value_ok l) then operation_error "operation: left can not be nil"
      else if negb (value_ok r) then operation_error "operation: right can not be nil"
      else made (of_two (fun a b => EOperation k a o b) l r)
  end.

(** comparison.go:83-87: the zero Comparison.  It has no operands and the zero
    operator, which is written as two spaces (operator.go:39-51); no [op] is the
    zero operator, so the text is given. *)
Definition comparison_error (m : string) : value := failed m (Some (ERaw "" "  ")).

(** nested_expression.go:11-22, on a value that is neither nil nor an error. *)
Definition nested_create (k : key) (v : value) : value := made (of_part (ENested k) v).

(** comparison.go:127-133 [nestedIfCondition]. *)
Definition nested_if_condition (k : key) (v : value) : value :=
  match v with
  | Elem (Good e) _ | Elem (Unset e) _ => if is_condition e then nested_create k v else v
  | _ => v
  end.

(** comparison.go:97-107 [accept]: an operand that is nil or not set is not visited. *)
Definition operand (v : value) : option (option expr) :=
  if value_ok v then match shown v with Some e => Some (Some e) | None => None end else Some None.

(** comparison.go:17-45 [ComparisonCreate]: the last check looks at the left
    operand where it should look at the right one. *)
Definition comparison_create (ks : nat -> key) (l : value) (o : op) (r : value) : value :=
  match value_err l, value_err r with
  | Some m, _ => comparison_error m
  | None, Some m => comparison_error m
  | None, None =>
      if negb (value_ok l) then comparison_error "left expression must be not nil"
      else if (is_nil r || negb (value_ok l))%bool then comparison_error "right expression must be not nil"
      else made (match operand (nested_if_condition (ks 1) l), operand (nested_if_condition (ks 2) r) with
                 | Some a, Some b => Good (EComparison (ks 0) a o b)
                 | _, _ => Hollow
                 end)
  end.

(** comparison.go:47-81 [ComparisonCreate1] with a postfix operator (IS NULL,
    IS NOT NULL); NOT is in Cond.v. *)
Definition postfix_create (ks : nat -> key) (o : op) (v : value) : value :=
  match value_err v with
  | Some m => comparison_error m
  | None =>
      if negb (value_ok v) then comparison_error "comparison: expression must be not nil"
      else made (match operand (nested_if_condition (ks 1) v) with
                 | Some a => Good (EComparison (ks 0) a o None)
                 | None => Hollow
                 end)
  end.

(** [getKey]; [d] for elements whose key is not part of the model. *)
Definition key_of (d : key) (e : expr) : key :=
  match e with
  | ESym k _ | EParam k _ | EAsterisk k | EBool k _ | ENull k | ENum k _ | EStr k _ | ERaw k _ | EListLit k _ | ELookup k _
  | EProp k _ _ | EOperation k _ _ _ | EComparison k _ _ _ | ENested k _ | EConst k _ | ECompound k _ _ | EFun k _ _ _
  | EArgs k _ | EDistinct k _ | EAlias k _ _ _ | EEntry k _ _ | EMap k _ | EProps k _ | EMapProj k _ _ | EExprs k _
  | EListExpr k _ | EListOp k _ _ _ _ _ | EListPred k _ _ _ | EListComp k _ _ _ _ | EPatComp k _ _ _ | EExcluded k _
  | EHasLabel k _ _ | EExists k _ _ _ _ | ERelCond k _ | ENamedPath k _ _ | ELabels k _ | ENode k _ _ _ | EDetails k _ _ _ _ _
  | ERel k _ _ _ | EChain k _ _ | ECase k _ _ _ _ | EPattern k _ | EWhere k _ | EOrder k _ | ESort k _ _ | ESkip k _
  | ELimit k _ | EYield k _ => k
  | EBoolFun _ => d
  end.

(** alias_expression.go:16-40 [AliasedExpressionCreate]; visiting the zero value panics. *)
Definition aliased_create (ks : nat -> key) (v : value) (alias : string) : value :=
  if negb (value_ok v) then failed "expression to alias can't be nil" None
  else if String.eqb alias "" then failed "the alias may not be empty" None
  else made (of_part (fun e => EAlias (ks 0) (key_of (ks 1) e) e alias) v).

(** ** Methods of expressions: expression_container.go *)

(** Comparisons with an argument: expression_container.go:22-50, 60-63, 70-83, 130-133. *)
Inductive comparing := IsEqualTo | IsNotEqualTo | Lt | Lte | Gt | Gte | MatchesWith | StartWiths | ContainsIn | EndsWithIn | In.
Definition comparing_op (c : comparing) : op :=
  match c with
  | IsEqualTo => Equality | IsNotEqualTo => Inequality | Lt => LessThan | Lte => LessThanOrEqualTo
  | Gt => GreaterThan | Gte => GreaterThanOrEqualTo | MatchesWith => Matches | StartWiths => StartsWith
  | ContainsIn => Contains | EndsWithIn => EndsWith | In => InList
  end.

(** Operations: expression_container.go:85-118; operations.go:3-29. *)
Inductive computing := ConcatWith | Add | Subtract | Multiply | Divide | Remainder | Pow.
Definition computing_op (c : computing) : op :=
  match c with
  | ConcatWith => Concat | Add => Addition | Subtract => Subtraction | Multiply => Multiplication
  | Divide => Division | Remainder => ModuloDivision | Pow => Exponentiation
  end.

(** list_operator.go:14-23, 225-240 [listOperatorCreate] on arguments without errors. *)
Definition list_operator_error (m : string) : value := failed m None.
Definition list_operator_create (ks : nat -> key) (target : value) (start : option value) (dots : bool) (stop : option value) : value :=
  made (match shown target, option_map shown start, option_map shown stop with
        | Some t, None, None => Good (EListOp (ks 0) t (ks 1) None dots None)
        | Some t, Some (Some a), None => Good (EListOp (ks 0) t (ks 1) (Some a) dots None)
        | Some t, None, Some (Some b) => Good (EListOp (ks 0) t (ks 1) None dots (Some b))
        | Some t, Some (Some a), Some (Some b) => Good (EListOp (ks 0) t (ks 1) (Some a) dots (Some b))
        | _, _, _ => Hollow
        end).

Definition no_target := "the range's target expression must not be nil".
Definition no_start := "the range's start expression must not be nil".
Definition no_end := "the range's end expression must not be nil".
Definition no_index := "the index of the range must not be nil".

(** list_operator.go:37-57 [SubList]; cypher.go:469-471 [ASubList]. *)
Definition sub_list (ks : nat -> key) (t a b : value) : value :=
  match value_err t, value_err a, value_err b with
  | Some m, _, _ => list_operator_error m
  | None, Some m, _ => list_operator_error m
  | None, None, Some m => list_operator_error m
  | None, None, None =>
      if negb (value_ok t) then list_operator_error no_target
      else if negb (value_ok a) then list_operator_error no_start
      else if negb (value_ok b) then list_operator_error no_end
      else list_operator_create ks t (Some a) true (Some b)
  end.

(** list_operator.go:66-80 [SubListFrom]; cypher.go:481-495. *)
Definition sub_list_from (ks : nat -> key) (t a : value) : value :=
  match value_err t, value_err a with
  | Some m, _ => list_operator_error m
  | None, Some m => list_operator_error m
  | None, None =>
      if negb (value_ok t) then list_operator_error no_target
      else if negb (value_ok a) then list_operator_error no_start
      else list_operator_create ks t (Some a) true None
  end.

(** list_operator.go:89-103 [SubListUntil]; cypher.go:505-519. *)
Definition sub_list_until (ks : nat -> key) (t b : value) : value :=
  match value_err t, value_err b with
  | Some m, _ => list_operator_error m
  | None, Some m => list_operator_error m
  | None, None =>
      if negb (value_ok t) then list_operator_error no_target
      else if negb (value_ok b) then list_operator_error no_end
      else list_operator_create ks t None true (Some b)
  end.

(** list_operator.go:112-126 [ValueAt]; cypher.go:529-543. *)
Definition value_at (ks : nat -> key) (t i : value) : value :=
  match value_err t, value_err i with
  | Some m, _ => list_operator_error m
  | None, Some m => list_operator_error m
  | None, None =>
      if negb (value_ok t) then list_operator_error no_target
      else if negb (value_ok i) then list_operator_error no_index
      else list_operator_create ks t (Some i) false None
  end.

(** ** Lists of expressions *)

(** expression_list.go:11-24, list_expression.go:13-34 [ListExpressionCreate1];
    cypher.go:295-297 [ListOf].  [GetError] of a nil argument panics. *)
Fixpoint first_err (vs : list value) : outcome (option string) :=
  match vs with
  | [] => Returns None
  | NilValue :: _ => Panics
  | v :: vs' => match value_err v with Some m => Returns (Some m) | None => first_err vs' end
  end.

Definition list_of (ks : nat -> key) (vs : list value) : outcome value :=
  match first_err vs with
  | Returns (Some m) => Returns (failed m (Some (EListExpr "" (EExprs "" []))))
  | Returns None => Returns (made (of_parts (fun l => EListExpr (ks 0) (EExprs (ks 1) l)) vs))
  | Panics => Panics
  | Diverges => Diverges
  end.

(** list_expression.go:36-45 [ListOrSingleExpression]: the error for an empty
    list is not returned. *)
Definition list_or_single (ks : nat -> key) (vs : list value) : outcome value :=
  match vs with [v] => Returns v | _ => list_of ks vs end.

(** ** Properties: property.go *)

(** property.go:61-65 [PropertyError]: the container holds a copy. *)
Definition property_error (m : string) : value := made (Failed m None).

(** property.go:44-59 [PropertyCreate1], 31-42 [PropertyCreate2];
    cypher.go:85-87 [APropertyByExpression].  The container may be unset. *)
Definition property_by_expression (ks : nat -> key) (v : value) (name : string) : value :=
  match value_err v with
  | Some m => property_error m
  | None =>
      if is_nil v then property_error "container is nil"
      else if String.eqb name "" then property_error "property name is required"
      else made (of_part (fun c => EProp (ks 0) c (ELookup (ks 1) name)) v)
  end.

(** cypher.go:74-76 [AProperty]. *)
Definition a_property (ks : nat -> key) (container name : string) : value :=
  property_by_expression ks (sym_value (symbolic_name_create (ks 2) container)) name.

(** A value of the interface type Named: a Node, a Relationship or a NamedPath
    ([n_missing]: the error of GetRequiredSymbolicName, node.go:101-106,
    relationship.go:65-70, name_path.go:84-89). *)
Record named := Named { n_sym : sym; n_ok : bool; n_err : option string; n_missing : string }.

Definition node_as_named (n : node) : named := Named (nd_sym n) (nd_not_nil n) (nd_err n) "node get symbolic name:  no name present".
Definition rel_as_named (r : rel) : named :=
  Named (dt_sym (r_details r)) (r_not_nil r) (r_err r) "relationship get symbolic name:  no name present".

Definition required_name (n : named) : sym := match n_sym n with Sym k x => Sym k x | _ => BadSym (n_missing n) end.

(** property.go:14-29 [PropertyCreate], on a value that is not nil; node.go:186-188, relationship.go:138-140 [Property]. *)
Definition property_of (ks : nat -> key) (n : named) (name : string) : value :=
  match n_err n with
  | Some m => property_error m
  | None =>
      match required_name n with
      | BadSym m => property_error m
      | s => if String.eqb name "" then property_error "property name is required"
             else property_by_expression ks (sym_value s) name
      end
  end.

(** property.go:67-69 [To]; operations.go:31-33. *)
Definition property_to (k : key) (p v : value) : value := operation_create k p SetProp v.

(** ** Sort items: sort_item.go *)

(** [si_expr]: the field expression, maybe nil. *)
Record sort_item := SortItem { si_expr : value; si_desc : option bool; si_key : key; si_ok : bool; si_err : option string }.

(** sort_item.go:24-26. *)
Definition sort_item_error (m : string) : sort_item := SortItem NilValue None "" false (Some m).

(** sort_item.go:11-22 [SortItemCreate]: nil is accepted; cypher.go:275-277 [Sort]. *)
Definition sort_item_create (k : key) (v : value) (d : option bool) : sort_item :=
  match value_err v with Some m => sort_item_error m | None => SortItem v d k true None end.

(** sort_item.go:40-49: methods of a sort item; [Descending] makes a struct
    literal. *)
Definition sort_item_ascending (k : key) (s : sort_item) : sort_item := sort_item_create k (si_expr s) (Some false).
Definition sort_item_descending (s : sort_item) : sort_item := SortItem (si_expr s) (Some true) "" false None.

(** sort_item.go:51-58 [accept]; [None]: it panics. *)
Definition sort_item_shown (s : sort_item) : option expr :=
  match shown (si_expr s) with Some e => Some (ESort (si_key s) e (si_desc s)) | None => None end.
