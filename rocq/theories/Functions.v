(** Functions, predicates, comprehensions and named paths: function_invocation.go,
    built_in_function.go, functions.go, predicates.go, list_predicate.go,
    boolean_function_condition.go, list_comprehension.go,
    pattern_comprehension.go, name_path.go, has_label_condition.go and the
    methods of expression_container.go.

    Each call takes the keys of the elements it makes ([ks], arbitrary). *)

From Coq Require Import Ascii String List ZArith Bool.
From Verif Require Import GoStr Escape Num VTree Ast GoVal Maps Patterns Cond Queries Builder Exprs.
Import ListNotations.
Open Scope string_scope.
Open Scope list_scope.

(** ** Function invocations *)

(** built_in_function.go:15-19, 33-42, 56, 70-71, 85-94, 108-111, 125-130. *)
Inductive builtin :=
| FAll | FAny | FExists | FNone | FSingle
| FCoalesce | FEndNode | FHead | FId | FLast | FProperties | FShortestPath | FSize | FStartNode | FType
| FToLower
| FPoint | FDistance
| FAvg | FCollect | FCount | FMax | FMin | FPercentileCont | FPercentileDisc | FStDev | FStDevP | FSum
| FLabels | FNodes | FRange | FRelationships
| FDate | FDatetime | FLocaldatetime | FLocaltime | FTime | FDuration.

Definition impl_name (f : builtin) : string :=
  match f with
  | FAll => "all" | FAny => "any" | FExists => "exists" | FNone => "none" | FSingle => "single"
  | FCoalesce => "coalesce" | FEndNode => "endNode" | FHead => "head" | FId => "id" | FLast => "last"
  | FProperties => "properties" | FShortestPath => "shortestPath" | FSize => "size" | FStartNode => "startNode"
  | FType => "type" | FToLower => "toLower" | FPoint => "point" | FDistance => "distance"
  | FAvg => "avg" | FCollect => "collect" | FCount => "count" | FMax => "max" | FMin => "min"
  | FPercentileCont => "percentileCont" | FPercentileDisc => "percentileDisc" | FStDev => "stDev"
  | FStDevP => "stDevP" | FSum => "sum" | FLabels => "labels" | FNodes => "nodes" | FRange => "range"
  | FRelationships => "relationships" | FDate => "date" | FDatetime => "datetime"
  | FLocaldatetime => "localdatetime" | FLocaltime => "localtime" | FTime => "time" | FDuration => "duration"
  end.

(** built_in_function.go:11-13, 29-31, 52-54, 66-68, 81-83, 104-106, 121-123 [isAggregate]. *)
Definition is_aggregate (f : builtin) : bool :=
  match f with
  | FAvg | FCollect | FCount | FMax | FMin | FPercentileCont | FPercentileDisc | FStDev | FStDevP | FSum => true
  | _ => false
  end.

(** function_invocation.go:138-142: the zero value is written as "()". *)
Definition no_function : expr := EFun "" "" "" [].
Definition function_error (m : string) : value := failed m (Some no_function).

(** The element made at the end of every constructor. *)
Definition invocation (ks : nat -> key) (name : string) (args : list value) : value :=
  made (of_parts (EFun (ks 0) name (ks 1)) args).

Definition first_missing (args : list value) : bool := match args with [] => true | v :: _ => negb (value_ok v) end.

(** function_invocation.go:42-65 [FunctionInvocationCreate], with a name. *)
Definition named_function_create (ks : nat -> key) (name : string) (args : list value) : outcome value :=
  match first_err args with
  | Returns (Some m) => Returns (function_error m)
  | Returns None =>
      Returns (if first_missing args
               then function_error ("function invocation create: expression for " ++ name ++ " is required")%string
               else invocation ks name args)
  | Panics => Panics
  | Diverges => Diverges
  end.
Definition function_create (ks : nat -> key) (f : builtin) (args : list value) : outcome value :=
  named_function_create ks (impl_name f) args.

(** function_invocation.go:20-40 [FunctionInvocationCreateWithFunctionName]. *)
Definition create_with_name (ks : nat -> key) (name : string) (args : list value) : outcome value :=
  match first_err args with
  | Returns (Some m) => Returns (function_error m)
  | Returns None => Returns (invocation ks name args)
  | Panics => Panics
  | Diverges => Diverges
  end.

(** function_invocation.go:16-18 [FunctionInvocationCreate1]: the argument list has one
    element, nil. *)
Definition create_without_arguments (ks : nat -> key) (f : builtin) : outcome value :=
  create_with_name ks (impl_name f) [NilValue].

(** function_invocation.go:107-136 [FunctionInvocationCreateDistinct]; the first
    argument is wrapped by a struct literal, without key. *)
Definition distinct_of (v : value) : value := Elem (of_part (EDistinct "") v) NilValue.

Definition create_distinct (ks : nat -> key) (f : builtin) (args : list value) : outcome value :=
  match first_err args with
  | Returns (Some m) => Returns (function_error m)
  | Returns None =>
      Returns (if negb (is_aggregate f)
               then function_error "the distinct operator can only be applied within aggregate functions"
               else if first_missing args then function_error ("expression for " ++ impl_name f ++ " is required")%string
               else match args with
                    | v :: vs => invocation ks (impl_name f) (distinct_of v :: vs)
                    | [] => invocation ks (impl_name f) []
                    end)
  | Panics => Panics
  | Diverges => Diverges
  end.

(** function_invocation.go:67-84 [FunctionInvocationCreateWithPatternElement]. *)
Definition create_with_element (ks : nat -> key) (f : builtin) (p : value) : value :=
  match value_err p with
  | Some m => function_error m
  | None => if value_ok p then invocation ks (impl_name f) [p]
            else function_error ("the pattern for " ++ impl_name f ++ " is required")%string
  end.

(** Relationships and chains as pattern elements. *)
Definition rel_as_value (r : rel) : value :=
  Elem (match Patterns.r_err r with
        | Some m => Failed m (Some (rel_expr r))
        | None => if r_not_nil r then Good (rel_expr r) else Unset (rel_expr r)
        end) NilValue.

(** ** functions.go *)

(** The functions of one expression.  Those that look at the error of the
    argument first return what function_invocation.go:43-49 returns. *)
Inductive fn1 :=
| CountByExpression | CountDistinctByExpression | ToLower | Size | Exists_
| Avg | AvgDistinct | Collect | CollectDistinct | Max | MaxDistinct | Min | MinDistinct
| StDev | StDevDistinct | StDevP | StDevPDistinct | Sum | SumDistinct | Head_ | Last.

(** functions.go:52-54, 60-62, 92-98, 104-106, 138-150, 179-254, 347-422, 497-516:
    the definition and whether DISTINCT is asked for.  [CollectDistinct] (193-198)
    uses AVG. *)
Definition fn1_builtin (f : fn1) : builtin :=
  match f with
  | CountByExpression | CountDistinctByExpression => FCount
  | ToLower => FToLower | Size => FSize | Exists_ => FExists
  | Avg | AvgDistinct => FAvg
  | Collect => FCollect | CollectDistinct => FAvg
  | Max | MaxDistinct => FMax | Min | MinDistinct => FMin
  | StDev | StDevDistinct => FStDev | StDevP | StDevPDistinct => FStDevP
  | Sum | SumDistinct => FSum
  | Head_ => FHead | Last => FLast
  end.
Definition fn1_distinct (f : fn1) : bool :=
  match f with
  | CountDistinctByExpression | AvgDistinct | CollectDistinct | MaxDistinct | MinDistinct | StDevDistinct
  | StDevPDistinct | SumDistinct => true
  | _ => false
  end.
Definition fn1_call (ks : nat -> key) (f : fn1) (v : value) : outcome value :=
  (if fn1_distinct f then create_distinct else function_create) ks (fn1_builtin f) [v].

(** functions.go:88-90 [Coalesce]. *)
Definition coalesce (ks : nat -> key) (vs : list value) : outcome value := function_create ks FCoalesce vs.

(** functions.go:108-122 [Distance]. *)
Definition distance (ks : nat -> key) (a b : value) : outcome value :=
  match value_err a, value_err b with
  | Some m, _ => Returns (function_error m)
  | None, Some m => Returns (function_error m)
  | None, None => if (value_ok a && value_ok b)%bool then function_create ks FDistance [a; b]
                  else Returns (function_error "two points is required")
  end.

(** float64 arguments. *)
Inductive float := Finite (n : num) | Infinite (neg : bool) | NotANumber.

Definition below_zero (x : float) : bool :=
  match x with Finite n => (n_neg n && Z.ltb 0 (n_mant n))%bool | Infinite neg => neg | NotANumber => false end.
Definition above_one (x : float) : bool :=
  match x with
  | Finite n => (negb (n_neg n) && (if Z.leb 0 (n_exp n) then Z.ltb 1 (n_mant n * 10 ^ n_exp n)
                                    else Z.ltb (10 ^ (- n_exp n)) (n_mant n)))%bool
  | Infinite neg => negb neg
  | NotANumber => false
  end.

(** functions.go:264-338 [PercentileCont], [PercentileDisc] and their DISTINCT
    forms.  number_literal.go:25-33: big.NewFloat panics on NaN, which both
    comparisons let pass. *)
Definition percentile (ks : nat -> key) (disc distinct : bool) (v : value) (p : float) : outcome value :=
  let f := if disc then FPercentileDisc else FPercentileCont in
  match value_err v with
  | Some m => Returns (function_error m)
  | None =>
      if negb (value_ok v)
      then Returns (function_error ("functions percentile cont: numeric expression for " ++ impl_name f ++ " is required.")%string)
      else if (below_zero p || above_one p)%bool
      then Returns (function_error ("functions percentile cont: the percentile for " ++ impl_name f ++ " must be between 0.0 and 1.0.")%string)
      else match p with
           | Finite n => (if distinct then create_distinct else function_create) ks f [v; float_value (ks 2) n]
           | _ => Panics
           end
  end.

(** functions.go:467-488 [RangeWithStep]; 440-442 [Range]: the step is nil. *)
Definition range_with_step (ks : nat -> key) (a b s : value) : outcome value :=
  match value_err a, value_err b, value_err s with
  | Some m, _, _ => Returns (function_error m)
  | None, Some m, _ => Returns (function_error m)
  | None, None, Some m => Returns (function_error m)
  | None, None, None =>
      if negb (value_ok a) then Returns (function_error "functions range: start for range is required")
      else if negb (value_ok b) then Returns (function_error "functions range: end for range is required")
      else function_create ks FRange (if value_ok s then [a; b; s] else [a; b])
  end.
Definition range (ks : nat -> key) (a b : value) : outcome value := range_with_step ks a b NilValue.

(** Functions of a Node, a Relationship or a NamedPath. *)
Inductive named_fn := IdOf | LabelsOf | TypeOf | PropertiesOf | CountOf | CountDistinctOf
                    | NodesOf | RelationshipsOf | StartNodeOf | EndNodeOf | CollectOf | CollectDistinctOf.

Definition with_required (n : named) (m1 m2 : string) (k : sym -> outcome value) : outcome value :=
  match n_err n with
  | Some m => Returns (function_error m)
  | None => if negb (n_ok n) then Returns (function_error m1)
            else match required_name n with BadSym _ => Returns (function_error m2) | s => k s end
  end.

(** [what]: "node" or "relationship", in the messages. *)
Definition named_call (ks : nat -> key) (what : string) (f : named_fn) (n : named) : outcome value :=
  let by_name b :=
    match n_err n with
    | Some m => Returns (function_error m)
    | None => if n_ok n then function_create ks b [sym_value (n_sym n)]
              else Returns (function_error (what ++ " is required")%string)
    end in
  let collected (create : (nat -> key) -> builtin -> list value -> outcome value) :=
    match n_err n with
    | Some m => Returns (function_error m)
    | None => if n_ok n then create ks FCollect [sym_value (required_name n)]
              else Returns (function_error "function collect by named: the variable parameter is required")
    end in
  match f with
  | IdOf => by_name FId                      (* functions.go:8-26 *)
  | LabelsOf => by_name FLabels              (* 28-36 *)
  | TypeOf => by_name FType                  (* 38-46 *)
  | PropertiesOf => by_name FProperties      (* 64-82 *)
  | CountOf => function_create ks FCount [sym_value (n_sym n)]              (* 48-50: no check *)
  | CountDistinctOf => create_distinct ks FCount [sym_value (n_sym n)]      (* 56-58: no check *)
  | NodesOf =>                               (* 526-538 *)
      with_required n "functions nodes : path for nodes is required" "functions nodes : path need to be named"
        (fun s => function_create ks FNodes [sym_value s])
  | RelationshipsOf =>                       (* 548-560 *)
      with_required n "functions relationships : path for relationships is required"
        "functions relationships : path need to be named" (fun s => function_create ks FRelationships [sym_value s])
  | StartNodeOf =>                           (* 570-582 *)
      with_required n "functions start node : relationship for start node is required"
        "functions start node : relationship need to be named" (fun s => function_create ks FStartNode [sym_value s])
  | EndNodeOf =>                             (* 592-604 *)
      with_required n "functions start node : relationship for end node is required"
        "functions start node : relationship need to be named" (fun s => function_create ks FEndNode [sym_value s])
  | CollectOf => collected function_create          (* 152-160 *)
  | CollectDistinctOf => collected create_distinct  (* 162-170 *)
  end.

(** functions.go:84-86 [PropertiesByMapExpression], 124-129 [Point]. *)
Definition properties_of_map (ks : nat -> key) (m : gmap) : outcome value := function_create ks FProperties [map_value m].
Definition point (ks : nat -> key) (m : gmap) : outcome value := function_create ks FPoint [map_value m].
(** functions.go:131-136. *)
Definition point_by_param (ks : nat -> key) (v : value) : outcome value := function_create ks FPoint [v].

(** functions.go:100-102 [SizeByPattern], 1092-1097 [ShortestPath]. *)
Definition size_by_pattern (ks : nat -> key) (p : value) : value := create_with_element ks FSize p.
Definition shortest_path (ks : nat -> key) (r : rel) : value := create_with_element ks FShortestPath (rel_as_value r).

(** Temporal functions. *)
Inductive temporal := TDate | TDatetime | TLocaldatetime | TLocaltime | TTime | TDuration.
Definition temporal_builtin (t : temporal) : builtin :=
  match t with
  | TDate => FDate | TDatetime => FDatetime | TLocaldatetime => FLocaldatetime | TLocaltime => FLocaltime
  | TTime => FTime | TDuration => FDuration
  end.

(** functions.go:614-616 [Date], 734-736 [Datetime], 799-801, 879-881, 958-960;
    there is none for durations, whose line here stands for no function. *)
Definition temporal_now (ks : nat -> key) (t : temporal) : outcome value :=
  match t with TDate => create_without_arguments ks FDate | _ => function_create ks (temporal_builtin t) [] end.

(** functions.go:682-690, 747-755, 827-835, 906-914, 986-994, 1040-1048. *)
Definition temporal_components (ks : nat -> key) (t : temporal) (m : gmap) : outcome value :=
  match m with
  | BadMap e => Returns (function_error e)
  | NoMap => Returns (function_error ("functions " ++ impl_name (temporal_builtin t) ++ " with components :components is required")%string)
  | MapOk _ _ => function_create ks (temporal_builtin t) [map_value m]
  end.

(** functions.go:701-706, 766-771, 846-851, 925-930, 1005-1010, 1059-1064. *)
Definition temporal_text (ks : nat -> key) (t : temporal) (s : string) : outcome value :=
  if String.eqb s "" then Returns (function_error ("functions " ++ impl_name (temporal_builtin t) ++ " with temporal :temporal is required")%string)
  else function_create ks (temporal_builtin t) [string_value (ks 2) s].

(** functions.go:717-725, 782-790, 862-870, 941-949, 1021-1029, 1075-1083: a nil
    argument panics. *)
Definition temporal_expression (ks : nat -> key) (t : temporal) (v : value) : outcome value :=
  match v with
  | NilValue => Panics
  | _ => match value_err v with
         | Some m => Returns (function_error m)
         | None => if value_ok v then function_create ks (temporal_builtin t) [v]
                   else let what := match t with TDuration => "temporalAmount" | _ => "temporalValue" end in
                        Returns (function_error ("functions " ++ impl_name (temporal_builtin t) ++ " with " ++ what ++ " :" ++ what ++ " is required")%string)
         end
  end.

(** A map of literals, as the functions below make it: cypher.go:285-287 [MapOf]
    with pairs of a name and a literal. *)
Definition literal_map (K : keys) (fields : list (string * expr)) : outcome gmap :=
  match new_map K (flat_map (fun f => [AString (fst f); AExpr (GOk (snd f))]) fields) with
  | Returns g => Returns (gmap_of g)
  | Panics => Panics
  | Diverges => Diverges
  end.
Definition function_of_map (ks : nat -> key) (K : keys) (f : builtin) (fields : list (string * expr)) : outcome value :=
  match literal_map K fields with
  | Returns m => function_create ks f [map_value m]
  | Panics => Panics
  | Diverges => Diverges
  end.
Definition int_literal (k : key) (z : Z) : expr := ENum k (num_of_Z z).

(** functions.go:628-630 [CalendarDate], 642-644 [WeekDate], 656-658 [QuarterDate], 669-671 [OrdinalDate]. *)
Definition calendar_date (ks : nat -> key) (K : keys) (year month day : Z) : outcome value :=
  function_of_map ks K FDate [("year", int_literal (ks 2) year); ("month", int_literal (ks 3) month); ("day", int_literal (ks 4) day)].
Definition week_date (ks : nat -> key) (K : keys) (year week day : Z) : outcome value :=
  function_of_map ks K FDate [("year", int_literal (ks 2) year); ("week", int_literal (ks 3) week); ("dayOfWeek", int_literal (ks 4) day)].
Definition quarter_date (ks : nat -> key) (K : keys) (year quarter day : Z) : outcome value :=
  function_of_map ks K FDate [("year", int_literal (ks 2) year); ("quarter", int_literal (ks 3) quarter); ("dayOfQuarter", int_literal (ks 4) day)].
Definition ordinal_date (ks : nat -> key) (K : keys) (year day : Z) : outcome value :=
  function_of_map ks K FDate [("year", int_literal (ks 2) year); ("ordinalDay", int_literal (ks 3) day)].

(** functions.go:811-816, 890-895, 970-975, 1099-1101; the location by its name,
    [None]: nil.  Only for localdatetime, localtime and time. *)
Definition temporal_timezone (ks : nat -> key) (K : keys) (t : temporal) (zone : option string) : outcome value :=
  match zone with
  | None => Returns (function_error ("functions " ++ impl_name (temporal_builtin t) ++ " with timezone :timezone is required")%string)
  | Some z => function_of_map ks K (temporal_builtin t) [("timezone", EStr (ks 2) z)]
  end.

(** ** Methods of expressions: expression_container.go

    They work on the expression that the container holds: for an element, the
    copy in its embedded container. *)
Definition held (v : value) : value := match v with NilValue => NilValue | Elem _ i => i end.

(** expression_container.go:13-15 [Get] of an element. *)
Definition get (v : value) : value := held v.

(** expression_container.go:17-20, 22-50, 60-83, 85-118, 120-133. *)
Definition as_ (ks : nat -> key) (x : value) (alias : string) : value := aliased_create ks x alias.
Definition compare (ks : nat -> key) (c : comparing) (x y : value) : value := comparison_create ks x (comparing_op c) y.
Definition compute (ks : nat -> key) (c : computing) (x y : value) : value := operation_create (ks 0) x (computing_op c) y.
Definition is_null (ks : nat -> key) (x : value) : value := postfix_create ks IsNull x.
Definition is_not_null (ks : nat -> key) (x : value) : value := postfix_create ks IsNotNull x.
(** expression_container.go:52-54 [IsTrue], 56-58 [IsFalse], 65-68 [MatchesPattern]. *)
Definition is_bool (ks : nat -> key) (b : bool) (x : value) : value := compare ks IsEqualTo x (bool_value (ks 3) b).
Definition matches_pattern (ks : nat -> key) (x : value) (s : string) : value := compare ks MatchesWith x (string_value (ks 3) s).
(** expression_container.go:135-138 [IsEmpty]. *)
Definition is_empty (ks : nat -> key) (x : value) : outcome value :=
  match fn1_call (fun n => ks (4 + n)) Size x with
  | Returns s => Returns (compare ks IsEqualTo s (int_value (ks 3) 0))
  | Panics => Panics
  | Diverges => Diverges
  end.
(** expression_container.go:140-146. *)
Definition descending (k : key) (x : value) : sort_item := sort_item_create k x (Some true).
Definition ascending (k : key) (x : value) : sort_item := sort_item_create k x (Some false).

(** node.go:206-212 [As]. *)
Definition node_as (ks : nat -> key) (n : node) (alias : string) : value :=
  match required_name (node_as_named n) with
  | BadSym m => failed m None
  | s => aliased_create ks (sym_value s) alias
  end.

(** has_label_condition.go:14-36 [HasLabelConditionCreate]; node.go:218-220 [HasLabels]. *)
Definition has_labels (ks : nat -> key) (n : node) (labels : list string) : value :=
  let zero := Some (EHasLabel "" (ESym "" "") []) in
  match required_name (node_as_named n) with
  | BadSym m => failed m zero
  | NoSym => failed "symbolic name is required" zero
  | Sym k x => match labels with
               | [] => failed "labels is required" zero
               | _ => made (Good (EHasLabel (ks 0) (ESym k x) (combine (map (fun i => ks (1 + i)) (seq 0 (length labels))) labels)))
               end
  end.

(** ** Comprehensions *)

(** where.go:10-26 [WhereCreate] of a condition that may be nil. *)
Inductive where_value := WhereUnset | WhereOf (k : key) (c : value).
Definition where_create (k : key) (c : value) : where_value := match value_err c with Some _ => WhereUnset | None => WhereOf k c end.
(** Whether and what it writes; the outer [None]: visiting it panics. *)
Definition where_shown (w : where_value) : option (option expr) :=
  match w with
  | WhereUnset => Some None
  | WhereOf k c => match shown c with Some e => Some (Some (EWhere k e)) | None => None end
  end.

(** list_comprehension.go:97-131: the variable, list and WHERE of the builder. *)
Record comprehension := Comprehension { lc_var : sym; lc_list : value; lc_where : where_value }.

(** list_comprehension.go:104-108; cypher.go:401-403 [CypherListWith]. *)
Definition list_with (s : sym) : comprehension := Comprehension s NilValue WhereUnset.
(** list_comprehension.go:38-43 [ListComprehensionWith]: the error it notes in the
    builder is never read. *)
Definition list_comprehension_with (s : sym) : comprehension := list_with (if sym_not_nil s then s else NoSym).
(** list_comprehension.go:110-113 [In]. *)
Definition list_in (b : comprehension) (l : value) : comprehension := Comprehension (lc_var b) l (lc_where b).
(** list_comprehension.go:128-131 [Where]. *)
Definition list_where (k : key) (b : comprehension) (c : value) : comprehension :=
  Comprehension (lc_var b) (lc_list b) (where_create k c).

(** list_comprehension.go:16-36 [ListComprehensionCreate], 49-60: a definition that
    is nil is not written; visiting the zero value panics. *)
Definition list_comprehension_create (k : key) (b : comprehension) (d : value) : value :=
  match sym_err (lc_var b) with
  | Some m => failed m None
  | None =>
      made (match shown (sym_value (lc_var b)), shown (lc_list b), where_shown (lc_where b),
                  (if is_nil d then Some None else option_map Some (shown d)) with
            | Some x, Some l, Some w, Some d' => Good (EListComp k x l w d')
            | _, _, _, _ => Hollow
            end)
  end.
(** list_comprehension.go:119-122 [Returning], 124-126 [ReturningDefault]. *)
Definition list_returning (ks : nat -> key) (b : comprehension) (ds : list value) : outcome value :=
  match list_or_single (fun n => ks (Datatypes.S n)) ds with
  | Returns d => Returns (list_comprehension_create (ks 0) b d)
  | Panics => Panics
  | Diverges => Diverges
  end.
Definition list_returning_default (ks : nat -> key) (b : comprehension) : value := list_comprehension_create (ks 0) b NilValue.

(** pattern_comprehension.go:15-43, 124-131 on the conditions collected by the
    builder.  An unset pattern is lost, its error and errors of conditions are
    not looked at; a nil pattern panics.  Simplified: a compound condition with a
    part that is nil or an error counts as one whose visit panics.  [WherePattern]
    of an unset pattern (138-143), which forgets the builder, is left out. *)
Definition pattern_comprehension (ks : nat -> key) (p : value) (c : cnd) (ds : list value) : outcome value :=
  if is_nil p then Panics else
  match list_or_single (fun n => ks (2 + n)) ds with
  | Returns d =>
      Returns (made (match (if value_ok p then shown p else None), build_where (ks 1) c, shown d with
                     | Some x, NoWhere, Some d' => Good (EPatComp (ks 0) x None d')
                     | Some x, WhereOk w, Some d' => Good (EPatComp (ks 0) x (Some w) d')
                     | _, _, _ => Hollow
                     end))
  | Panics => Panics
  | Diverges => Diverges
  end.

(** ** Predicates *)

(** boolean_function_condition.go:11-26: the error of the function is not looked at. *)
Definition boolean_function (v : value) : value := made (of_part EBoolFun v).
Definition boolean_function_error (m : string) : value := failed m (Some (EBoolFun no_function)).

(** predicates.go:5-11. *)
Definition predicate_exists (ks : nat -> key) (property : value) : outcome value :=
  match function_create ks FExists [property] with
  | Returns f => Returns (boolean_function f)
  | Panics => Panics
  | Diverges => Diverges
  end.
Definition predicate_exists_pattern (ks : nat -> key) (p : value) : value := boolean_function (create_with_element ks FExists p).

(** predicates.go:55-60; [None]: the zero Predicate, whose name is empty.  The
    field err is never read. *)
Record predicate_builder := PredicateB { pb_predicate : option builtin; pb_name : sym; pb_list : value }.
Definition lost_predicate : predicate_builder := PredicateB None NoSym NilValue.
(** predicates.go:62-70. *)
Definition predicate_create (p : builtin) (s : sym) : predicate_builder :=
  if sym_not_nil s then PredicateB (Some p) s NilValue else lost_predicate.
(** predicates.go:72-78 [In]. *)
Definition predicate_in (b : predicate_builder) (l : value) : predicate_builder :=
  if value_ok l then PredicateB (pb_predicate b) (pb_name b) l else lost_predicate.
(** predicates.go:80-85 [Where]; list_predicate.go:13-32 on a name, a list and a
    condition without errors. *)
Definition predicate_where (ks : nat -> key) (b : predicate_builder) (c : value) : outcome value :=
  if negb (value_ok c) then Returns (boolean_function_error "predicate builder where: the condition is required")
  else
    let predicate :=
      made (match shown (sym_value (pb_name b)), shown (pb_list b), where_shown (where_create (ks 3) c) with
            | Some x, Some l, Some (Some w) => Good (EListPred (ks 2) x l w)
            | _, _, _ => Hollow
            end) in
    match named_function_create ks (match pb_predicate b with Some f => impl_name f | None => "" end) [predicate] with
    | Returns f => Returns (boolean_function f)
    | Panics => Panics
    | Diverges => Diverges
    end.

(** ** Named paths: name_path.go *)

(** The zero name, name_path.go:41-57; cypher.go:96-98 [APath]: the error of the
    builder is not looked at by [DefinedBy]. *)
Definition a_path (k : key) (name : string) : sym := if String.eqb name "" then NoSym else Sym k name.
(** cypher.go:107-109 [APathBySymbolic]. *)
Definition a_path_of (s : sym) : sym := if sym_not_nil s then s else NoSym.

Record path := Path { pt_name : sym; pt_pattern : value; pt_key : key; pt_ok : bool; pt_err : option string }.
Definition path_error (m : string) : path := Path NoSym NilValue "" false (Some m).

(** name_path.go:13-35 [NamedPathCreate], [NamedPathCreate1]; 141-143 [DefinedBy]. *)
Definition path_create (k : key) (s : sym) (p : value) : path :=
  match sym_err s, value_err p with
  | Some m, _ => path_error m
  | None, Some m => path_error m
  | None, None => Path s p k true None
  end.

(** name_path.go:59-66, 162-170; cypher.go:118-120 [AShortestPath]. *)
Definition a_shortest_path (ks : nat -> key) (name : string) (r : rel) : path :=
  if String.eqb name "" then path_error "a name is required"
  else match Patterns.r_err r with
       | Some m => path_error m
       | None => path_create (ks 0) (Sym (ks 1) name) (create_with_element (fun n => ks (2 + n)) FShortestPath (rel_as_value r))
       end.

(** name_path.go:99-105 [accept]. *)
Definition path_value (p : path) : value :=
  let parts := match shown (sym_value (pt_name p)), shown (pt_pattern p) with
               | Some x, Some q => Some (ENamedPath (pt_key p) x q)
               | _, _ => None
               end in
  Elem (match pt_err p with
        | Some m => Failed m parts
        | None => match parts with Some e => if pt_ok p then Good e else Unset e | None => Hollow end
        end) NilValue.
Definition path_as_named (p : path) : named := Named (pt_name p) (pt_ok p) (pt_err p) "namepath get symbolic name: no name present".

(** ** cypher.go:311-325 [SortItemsOfRaw] *)

(** strings.Split(s, " "): the text before the first space and, if there is a
    space, the text between the first and the second one. *)
Fixpoint until_space (s : string) : string * option string :=
  match s with
  | EmptyString => (EmptyString, None)
  | String " " s' => (EmptyString, Some s')
  | String c s' => let (a, r) := until_space s' in (String c a, r)
  end.

(** The name is made a string literal.  Without a space the index is out of range. *)
Definition sort_item_of_raw (ks : nat -> key) (s : string) : outcome sort_item :=
  match until_space s with
  | (_, None) => Panics
  | (a, Some r) =>
      let d := fst (until_space r) in
      Returns (sort_item_create (ks 0) (string_value (ks 1) a)
                 (if String.eqb d "ASC" then Some false else if String.eqb d "DESC" then Some true else None))
  end.

(** ** Patterns and subqueries as conditions *)

(** excluded_pattern.go:11-28; conditions.go:5-7 [ConditionsNotByPattern]: nil
    panics, an unset pattern is accepted. *)
Definition not_pattern (k : key) (p : value) : outcome value :=
  match p with
  | NilValue => Panics
  | _ => Returns (match value_err p with Some m => failed m None | None => made (of_part (EExcluded k) p) end)
  end.

(** relationship_pattern_condition.go:11-28, used by WherePattern, AndPattern, OrPattern. *)
Definition pattern_condition (k : key) (p : value) : outcome value :=
  match p with
  | NilValue => Panics
  | _ => Returns (match value_err p with Some m => failed m None | None => made (of_part (ERelCond k) p) end)
  end.

(** default_statement_builder.go:386-391 [AsCondition], existential_subquery.go:11-32.
    Neither the error of the builder nor the clauses before a WITH are looked at.
    Simplified: visiting the condition panics if a part of the WHERE has an error. *)
Definition as_condition (ks : nat -> key) (d : dbuilder) : outcome value :=
  if (negb (m_not_nil (d_match d)) || negb (Nat.eqb (length (d_elements d)) 0))%bool then Panics
  else Returns (made (match build_match (fun n => ks (1 + n)) (d_match d) with
                      | COk (QMatch k o p w) => Good (EExists (ks 0) k o p w)
                      | _ => Hollow
                      end)).

(** ** Numbers and literals as arguments: cypher.go *)

(** cypher.go:469-471 [ASubList], 481-483 [CypherSubListFrom], 505-507 [ASubListUntil],
    529-531 [CypherValueAt]. *)
Definition a_sub_list (ks : nat -> key) (t : value) (a b : Z) : value := sub_list ks t (int_value (ks 2) a) (int_value (ks 3) b).
Definition a_sub_list_from (ks : nat -> key) (t : value) (a : Z) : value := sub_list_from ks t (int_value (ks 2) a).
Definition a_sub_list_until (ks : nat -> key) (t : value) (b : Z) : value := sub_list_until ks t (int_value (ks 2) b).
Definition a_value_at (ks : nat -> key) (t : value) (i : Z) : value := value_at ks t (int_value (ks 2) i).

(** cypher.go:299-309 [ListOfRaw], the loop; [inl]: an error.  A literal is made
    twice, the second one is used.  Simplified: the container that a literal embeds. *)
Fixpoint raw_literals (K : keys) (i : nat) (l : list any) : outcome (string + list value) :=
  match l with
  | [] => Returns (inr [])
  | v :: l' =>
      match literal_of (k_null K) (k_lit K i) v with
      | Returns (GErr _ m) => Returns (inl m)
      | Returns (GOk e) => match raw_literals K (Datatypes.S i) l' with
                           | Returns (inr vs) => Returns (inr (made (Good e) :: vs))
                           | r => r
                           end
      | Panics => Panics
      | Diverges => Diverges
      end
  end.
Definition list_of_raw (ks : nat -> key) (K : keys) (l : list any) : outcome value :=
  match raw_literals K 0 l with
  | Returns (inl m) => Returns (failed m (Some (EListExpr "" (EExprs "" []))))
  | Returns (inr vs) => list_of ks vs
  | Panics => Panics
  | Diverges => Diverges
  end.
