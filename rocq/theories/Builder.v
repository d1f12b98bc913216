(** The statement builder: default_statement_builder.go,
    default_statement_with_update.go, default_statement_with_with_builder.go,
    default_statement_with_return_builder.go, in_query_call_builder.go,
    procedure_call.go, match_builder.go, updating_clause_builder.go,
    order_builder.go and the clauses they make.

    Builder values are modelled as the history of one use: every method takes
    the state left by the previous one.  (Using one builder value twice is
    modelled in HeapBuilder.v.)  The variants ByString, ByNamed, WherePattern,
    AndPattern, OrPattern, WhereConditionContainer, SetWithNamed, Unwinds and
    UnwindByString convert their arguments and call the methods modelled here.

    Arguments of interface types are not nil, but conditions may be.  Each call
    takes the keys of the elements it makes ([ks], arbitrary); the key of the
    package variable BLANK is taken from there too. *)

From Coq Require Import Ascii String List ZArith Bool.
From Verif Require Import GoStr Escape Num VTree Ast GoVal Cond Queries.
Import ListNotations.
Open Scope string_scope.
Open Scope list_scope.

(** ** Clauses *)

(** The zero SymbolicName, which named.go's GetSymbolicName returns for
    elements without name: notNil is false.  (A SymbolicName made by a
    constructor has an address as key.) *)
Definition is_zero (e : expr) : bool :=
  match e with ESym k n => (String.eqb k "" && String.eqb n "")%bool | _ => false end.

(** operations.go:31-33 [OperationSet], operation.go:18-46 [OperationCreate]. *)
Definition operation_set (k : key) (l r : expr) : gval :=
  if is_zero l then GErr TOther "operation: left can not be nil"
  else if is_zero r then GErr TOther "operation: right can not be nil"
  else GOk (EOperation k l SetProp r).

(** A Node given to SetByNode or RemoveByNode: the key and name of its
    SymbolicName, or its error. *)
Inductive node_ref := NodeNamed (k : key) (n : string) | NodeUnnamed | NodeErr (msg : string).

(** operations.go:35-41, operation.go:78-110 [OperationCreate2], node.go:101-106.
    A node without name gives a SymbolicName with an error, which is not
    checked; it is written like the zero SymbolicName. *)
Definition label_operation (ks : nat -> key) (o : op) (node : node_ref) (labels : list string) : gval :=
  let made (name : expr) :=
    match labels with
    | [] => GErr TOther "labels can not be nil or empty"
    | _ => GOk (EOperation (ks 0) name o
                  (ELabels (ks 1) (combine (map (fun i => ks (2 + i)) (seq 0 (length labels))) labels)))
    end in
  match node with
  | NodeErr m => GErr TOther m
  | NodeNamed k n => made (ESym k n)
  | NodeUnnamed => made (ESym "" "")
  end.

Definition is_operation (e : expr) : bool := match e with EOperation _ _ _ _ => true | _ => false end.

(** default_statement_builder.go:656-673 [prepareSetExpression]: None is the
    error for an odd number of expressions. *)
Fixpoint pair_up (ks : nat -> key) (l : list expr) : list gval :=
  match l with
  | a :: b :: l' => operation_set (ks (length l')) a b :: pair_up ks l'
  | _ => []
  end.

Definition prepare_set (ks : nat -> key) (l : list expr) : option (list gval) :=
  let rest := filter (fun e => negb (is_operation e)) l in
  if Nat.odd (length rest) then None
  else Some (map GOk (filter is_operation l) ++ pair_up ks rest).

(** expression_list.go:11-24 [ExpressionListCreate]. *)
Definition expression_list_create (k : key) (l : list gval) : gval :=
  match first_error l with
  | Some m => GErr TOther m
  | None => GOk (EExprs k (sound_exprs l))
  end.

(** set.go:10-20, remove.go:10-20, delete.go:11-22. *)
Definition set_create (k : key) (l : gval) : clause :=
  match l with GErr _ m => CErr false m | GOk e => COk (QSet k e) end.
Definition remove_create (k : key) (l : gval) : clause :=
  match l with GErr _ m => CErr false m | GOk e => COk (QRemove k e) end.
Definition delete_create (k : key) (detach : bool) (l : gval) : clause :=
  match l with GErr _ m => CErr false m | GOk e => COk (QDelete k detach e) end.

(** A condition that was added to another without its error being noticed
    makes the clause broken. *)
Fixpoint sound_cnd (c : cnd) : bool :=
  match c with
  | Nil | Bad _ | CompErr _ _ => false
  | Atom _ | Empty => true
  | Neg _ _ c => sound_cnd c
  | Comp _ _ cs _ => forallb sound_cnd cs
  end.

(** The optional WHERE of a clause: match_builder.go:20-25,
    default_statement_with_with_builder.go:31-38, procedure_call.go:209-217,
    where.go:10-20. *)
Inductive where_part := NoWhere | WhereOk (e : expr) | WhereBroken.
Definition build_where (k : key) (c : cnd) : where_part :=
  match build_condition c with
  | None => NoWhere
  | Some c => if sound_cnd c then WhereOk (EWhere k (cond_expr c)) else WhereBroken
  end.
Definition where_expr (w : where_part) : option expr := match w with WhereOk e => Some e | _ => None end.
Definition where_broken (w : where_part) : bool := match w with WhereBroken => true | _ => false end.

(** match_builder.go:3-16.  The zero MatchBuilder has a condition builder too. *)
Record match_builder := MatchB { m_not_nil : bool; m_optional : bool; m_patterns : list expr; m_cond : cnd }.
Definition no_match : match_builder := MatchB false false [] Nil.

(** match_builder.go:18-26 [buildMatch], match.go:12-27; the pattern is a struct
    literal, without key. *)
Definition build_match (ks : nat -> key) (m : match_builder) : clause :=
  let w := build_where (ks 1) (m_cond m) in
  if where_broken w then CBroken true
  else COk (QMatch (ks 0) (m_optional m) (EPattern "" (m_patterns m)) (where_expr w)).

(** updating_clause_builder.go: a clause under construction. *)
Inductive update :=
| UCreate (p : gval)                               (* CreateBuilder *)
| UMerge (p : gval) (actions : list query)         (* MergeBuilder *)
| UClause (c : clause).                            (* DeleteBuilder, SetBuilder, RemoveBuilder *)

Inductive update_type := TCreate | TMerge | TDelete (detach : bool) | TSet | TRemove.

(** default_statement_builder.go:612-654 [getUpdatingClauseBuilder]: the loop
    over the patterns returns in its first round. *)
Definition updating_clause_builder (ks : nat -> key) (t : update_type) (l : list gval) : update + string :=
  match t with
  | TCreate => match l with p :: _ => inl (UCreate p) | [] => inr "unexpected behavior" end
  | TMerge => match l with p :: _ => inl (UMerge p []) | [] => inr "unexpected behavior" end
  | TDelete d => inl (UClause (delete_create (ks 0) d (expression_list_create (ks 1) l)))
  | TRemove => inl (UClause (remove_create (ks 0) (expression_list_create (ks 1) l)))
  | TSet =>
      match prepare_set (fun n => ks (2 + n)) (sound_exprs l) with
      | None => inr "the list of expression to OperationSet must be even"
      | Some l' => inl (UClause (set_create (ks 0) (expression_list_create (ks 1) l')))
      end
  end.

(** updating_clause_builder.go:22-30 [on], merge_action.go:11-19: the error of
    the Set is dropped and leaves the zero Set. *)
Definition merge_action (ks : nat -> key) (on_create : bool) (l : list expr) : query + string :=
  match prepare_set (fun n => ks (3 + n)) l with
  | None => inr "the list of expression to OperationSet must be even"
  | Some l' =>
      inl (QAction (ks 0) on_create
             (match set_create (ks 1) (expression_list_create (ks 2) l') with
              | COk q => q
              | _ => QSet "" (EExprs "" [])
              end))
  end.

(** updating_clause_builder.go:32-34, 45-47, 58-60, 71-73, 84-86 [build];
    merge.go:26-47, create.go:10-20, pattern.go:10-22. *)
Definition build_update (ks : nat -> key) (u : update) : clause :=
  match u with
  | UClause c => c
  | UCreate (GErr _ m) | UMerge (GErr _ m) _ => CErr false m
  | UCreate (GOk p) => COk (QCreate (ks 0) (EPattern (ks 1) [p]))
  | UMerge (GOk p) actions => COk (QMerge (ks 0) (EPattern (ks 1) [p]) (QBlank (ks 2) :: actions))
  end.

(** unwind.go:11-28 [unwindCreate]; the expression has no error. *)
Definition unwind_create (ks : nat -> key) (e : expr) (v : string) : clause :=
  COk (QUnwind (ks 0) (match e with EAlias _ _ _ a => ESym (ks 1) a | _ => e end) v).

(** ** ORDER BY, SKIP, LIMIT *)

(** sort_item.go:3-49: [SortNil]: no expression and no error. *)
Inductive sort :=
| Sort (k : key) (e : expr) (desc : option bool)
| SortErr (msg : string)
| SortNil.

(** cypher.go:275-277 [Sort], sort_item.go:11-22. *)
Definition sort_create (k : key) (g : gval) (d : option bool) : sort :=
  match g with GErr _ m => SortErr m | GOk e => Sort k e d end.

(** order_builder.go:3-9: [o_last] is None for the zero SortItem, [o_limit] is
    None also for a Limit with an error. *)
Record order_builder := OrderB { o_items : list sort; o_last : option sort; o_skip : option Z; o_limit : option Z }.
Definition no_order : order_builder := OrderB [] None None None.

(** order_builder.go:17-45, sort_item.go:40-49: Descending keeps the expression
    only. *)
Definition order_items (o : order_builder) (l : list sort) : order_builder :=
  OrderB (o_items o ++ l) (o_last o) (o_skip o) (o_limit o).
Definition order_by (k : key) (o : order_builder) (g : gval) : order_builder :=
  OrderB (o_items o) (Some (sort_create k g None)) (o_skip o) (o_limit o).
Definition order_descending (o : order_builder) : order_builder :=
  OrderB (o_items o ++ [match o_last o with Some (Sort _ e _) => Sort "" e (Some true) | _ => SortNil end])
         None (o_skip o) (o_limit o).
Definition order_ascending (k : key) (o : order_builder) : order_builder :=
  OrderB (o_items o ++ [match o_last o with Some (Sort _ e _) => Sort k e (Some false) | _ => SortNil end])
         None (o_skip o) (o_limit o).
Definition order_skip (o : order_builder) (z : Z) : order_builder :=
  OrderB (o_items o) (o_last o) (Some z) (o_limit o).
(** limit.go:12-20. *)
Definition order_limit (o : order_builder) (z : Z) : order_builder :=
  OrderB (o_items o) (o_last o) (o_skip o) (if Z.eqb z 0 then None else Some z).

(** order_builder.go:47-55 [BuildOrder], order.go:10-19: an Order with an error
    is not visited and its error dropped (return_body.go:17-19, with.go:16-18). *)
Inductive ordering := NoOrder | OrderOk (e : expr) | OrderBroken.
Definition build_order (k : key) (o : order_builder) : ordering :=
  match o_items o ++ match o_last o with Some (Sort k e d) => [Sort k e d] | _ => [] end with
  | [] => NoOrder
  | l =>
      if existsb (fun s => match s with SortErr _ => true | _ => false end) l then NoOrder
      else if existsb (fun s => match s with SortNil => true | _ => false end) l then OrderBroken
      else OrderOk (EOrder k (flat_map (fun s => match s with Sort k e d => [ESort k e d] | _ => [] end) l))
  end.
Definition ordering_expr (o : ordering) : option expr := match o with OrderOk e => Some e | _ => None end.
Definition ordering_broken (o : ordering) : bool := match o with OrderBroken => true | _ => false end.

(** return_body.go:13-35; skip.go:10-15, limit.go:12-20, number_literal.go:15-23, 35-43. *)
Definition body_create (ks : nat -> key) (items : expr) (o : order_builder) : body :=
  Body items (ordering_expr (build_order (ks 0) o))
       (option_map (fun z => ESkip (ks 1) (ENum (ks 2) (num_of_Z z))) (o_skip o))
       (option_map (fun z => ELimit (ks 3) (ENum (ks 4) (num_of_Z z))) (o_limit o)).

Definition any_error (l : list gval) : bool := match first_error l with Some _ => true | None => false end.

(** default_statement_with_return_builder.go:23-28, default_statement_with_update.go:112-117:
    the item list is a struct literal, without key, and not checked. *)
Definition build_return (ks : nat -> key) (distinct : bool) (items : list gval) (o : order_builder) : returning :=
  match items with
  | [] => NoReturn
  | _ =>
      if (any_error items || ordering_broken (build_order (ks 1) o))%bool then BrokenReturn
      else Return (QReturn (ks 0) distinct (body_create (fun n => ks (1 + n)) (EExprs "" (sound_exprs items)) o))
  end.

(** default_statement_with_with_builder.go:26-44 [buildWith], with.go:12-40;
    None: no WITH. *)
Definition build_with (ks : nat -> key) (distinct : bool) (items : list gval) (o : order_builder) (c : cnd) : option clause :=
  match items with
  | [] => None
  | _ =>
      let w := build_where (ks 2) c in
      Some (if (any_error items || ordering_broken (build_order (ks 3) o) || where_broken w)%bool then CBroken false
            else COk (QWith (ks 0) distinct (body_create (fun n => ks (3 + n)) (EExprs (ks 1) (sound_exprs items)) o)
                            (where_expr w)))
  end.

(** ** Procedure calls *)

(** procedure_name.go:15-55: with two parts or more the namespace is copied into
    a slice of length zero; without part the slice expression panics.  The
    result is the name space and the name. *)
Definition procedure_name (k : key) (parts : list string) : outcome (option (key * string) * string) :=
  match parts with
  | [] => Panics
  | [n] => Returns (None, n)
  | _ => Returns (Some (k, ""), last parts "")
  end.

(** procedure_call.go:136-150, in_query_call_builder.go:3-20.  [p_args]: None is
    a nil slice. *)
Record call_builder := CallB {
  p_standalone : bool;
  p_name : option (key * string) * string;
  p_args : option (list gval);
  p_yield : option expr;
  p_cond : cnd }.

(** yield_items.go:12-33 [YieldItemsCreate]: errors are dropped. *)
Definition yield_create (k : key) (l : list gval) : option expr :=
  match l with
  | [] => None
  | _ => if any_error l then None else Some (EYield k (sound_exprs l))
  end.

(** procedure_call.go:195-218 and in_query_call_builder.go:62-73 [Build],
    procedure_call.go:13-35, arguments.go:10-22.  The second result is the
    error of Build of a standalone call; a call inside a query gives a clause
    with the error. *)
Definition build_call (ks : nat -> key) (p : call_builder) : clause + string :=
  let fails (m : string) := if p_standalone p then inr m else inl (CErr false m) in
  let w := build_where (ks 3) (p_cond p) in
  let made (args : option expr) :=
    if where_broken w then inl (CBroken false)
    else inl (COk (QCall (ks 0) (ks 1) (fst (p_name p)) (snd (p_name p)) args (p_yield p) (where_expr w))) in
  match p_args p with
  | None => made (Some (EArgs (ks 2) []))
  | Some [] => made None
  | Some l => match first_error l with
              | Some m => fails m
              | None => made (Some (EArgs (ks 2) (sound_exprs l)))
              end
  end.

(** ** The builders *)

(** default_statement_builder.go:8-15.  [d_call]: None for nil and for a builder
    with notNil = false. *)
Record dbuilder := DB {
  d_err : option string;
  d_elements : list clause;
  d_parts : list part;
  d_match : match_builder;
  d_update : option update;
  d_call : option call_builder }.

(** default_statement_builder.go:17-36. *)
Definition d_new : dbuilder := DB None [] [] no_match None None.
Definition d_of_call (p : call_builder) : dbuilder := DB None [] [] no_match None (Some p).
Definition d_error (m : string) : dbuilder := DB (Some m) [] [] no_match None None.

Definition with_elements (d : dbuilder) (l : list clause) : dbuilder :=
  DB (d_err d) l (d_parts d) (d_match d) (d_update d) (d_call d).

(** default_statement_builder.go:503-530. *)
Definition close_match (ks : nat -> key) (d : dbuilder) : dbuilder :=
  if m_not_nil (d_match d)
  then DB (d_err d) (d_elements d ++ [build_match ks (d_match d)]) (d_parts d) no_match (d_update d) (d_call d)
  else d.
Definition close_call (ks : nat -> key) (d : dbuilder) : dbuilder :=
  match d_call d with
  | None => d
  | Some p =>
      match build_call ks p with
      | inr m => DB (Some m) (d_elements d) (d_parts d) (d_match d) (d_update d) (d_call d)
      | inl c => DB (d_err d) (d_elements d ++ [c]) (d_parts d) (d_match d) (d_update d) None
      end
  end.
Definition close_update (ks : nat -> key) (d : dbuilder) : dbuilder :=
  match d_update d with
  | None => d
  | Some u => DB (d_err d) (d_elements d ++ [build_update ks u]) (d_parts d) (d_match d) None (d_call d)
  end.

(** The keys of one call are used for several elements. *)
Definition block (ks : nat -> key) (i : nat) : nat -> key := fun n => ks (10 * n + i).

(** default_statement_builder.go:572-596 [BuildListOfVisitable], without the
    clearing; the error is that of a standalone call. *)
Definition build_list (ks : nat -> key) (d : dbuilder) : list clause + string :=
  let l := d_elements d
           ++ (if m_not_nil (d_match d) then [build_match (block ks 0) (d_match d)] else [])
           ++ match d_update d with Some u => [build_update (block ks 1) u] | None => [] end in
  match d_call d with
  | None => inl l
  | Some p => match build_call (block ks 2) p with inl c => inl (l ++ [c]) | inr m => inr m end
  end.

(** default_statement_builder.go:564-570 [BuildImpl]: the error of the call is
    stored in a copy of the builder. *)
Definition build_impl (ks : nat -> key) (d : dbuilder) (r : returning) : outcome statement :=
  let single := single_part_create (match build_list ks d with inl l => l | inr _ => [] end) r in
  match d_parts d with
  | [] => Returns single
  | ps => multi_part_query_create ps single
  end.

(** default_statement_builder.go:53-64 [AddWith]. *)
Definition add_with (ks : nat -> key) (d : dbuilder) (w : option clause) : dbuilder :=
  match d_err d with
  | Some m => d_error m
  | None =>
      match w with
      | None => d
      | Some w =>
          match build_list ks d with
          | inl l => DB None [] (d_parts d ++ [multi_part_element_create (ks 3) l w]) no_match None None
          | inr m => DB (Some m) (d_elements d) (d_parts d ++ [multi_part_element_create (ks 3) [] w])
                        (d_match d) (d_update d) (d_call d)
          end
      end
  end.

(** default_statement_builder.go:598-602 [addUpdatingClause]. *)
Definition add_updating_clause (ks : nat -> key) (d : dbuilder) (c : clause) : dbuilder :=
  let d := close_match ks d in with_elements d (d_elements d ++ [c]).

(** default_statement_builder.go:604-610 [Update], default_statement_with_update.go:20-33:
    an update with an error has notNil = false. *)
Definition d_update_with (ks : nat -> key) (d : dbuilder) (t : update_type) (l : list gval) : dbuilder :=
  let d := close_update (block ks 2) (close_call (block ks 1) (close_match (block ks 0) d)) in
  DB (d_err d) (d_elements d) (d_parts d) (d_match d)
     (match updating_clause_builder (block ks 3) t l with inl u => Some u | inr _ => None end) (d_call d).

(** default_statement_with_update.go:3-11; the errored one has no default
    builder. *)
Record ubuilder := UB {
  u_err : option string;
  u_default : option dbuilder;
  u_update : option update;
  u_returns : list gval;
  u_distinct : bool;
  u_order : order_builder }.
Definition u_error (m : string) : ubuilder := UB (Some m) None None [] false no_order.

(** default_statement_with_update.go:35-62 [Create2]. *)
Definition u_create (ks : nat -> key) (d : dbuilder) (t : update_type) (l : list gval) : ubuilder :=
  match d_err d with
  | Some m => u_error m
  | None =>
      match first_error l with
      | Some m => u_error m
      | None =>
          match updating_clause_builder ks t l with
          | inr m => u_error m
          | inl u => UB None (Some d) (Some u) [] false no_order
          end
      end
  end.

(** default_statement_with_with_builder.go:3-24. *)
Record wbuilder := WB {
  w_err : option string;
  w_default : option dbuilder;
  w_cond : cnd;
  w_items : list gval;
  w_order : order_builder;
  w_distinct : bool }.
Definition w_error (m : string) : wbuilder := WB (Some m) None Nil [] no_order false.

(** default_statement_with_return_builder.go:3-13. *)
Record rbuilder := RB {
  r_err : option string;
  r_default : option dbuilder;
  r_items : list gval;
  r_distinct : bool;
  r_order : order_builder }.
Definition r_error (m : string) : rbuilder := RB (Some m) None [] false no_order.

(** in_query_call_builder.go:3-20; the one with an error has no default builder
    (default_statement_builder.go:376-378). *)
Inductive state :=
| D (d : dbuilder)
| U (u : ubuilder)
| W (w : wbuilder)
| R (r : rbuilder)
| I (default : dbuilder + string) (p : call_builder)
| S (p : call_builder).                              (* StandaloneCallBuilder *)

(** The calls.  [Unwind] is Unwind(e).As(v), [OnAction] is OnCreate().Set(l) or
    OnMatch().Set(l), [Proc] is Call1, at the start ACall; [Then] is And or And1
    of an ORDER BY. *)
Inductive call :=
| Match (optional : bool) (patterns : list gval)
| Where (c : cnd)
| AndC (c : cnd)
| OrC (c : cnd)
| With (distinct : bool) (items : list gval)
| Returning (distinct : bool) (items : list gval)
| Delete (detach : bool) (items : list gval)
| Create (patterns : list gval)
| Merge (patterns : list gval)
| OnAction (on_create : bool) (items : list gval)
| SetItems (items : list gval)
| SetLabels (node : node_ref) (labels : list string)
| RemoveLabels (node : node_ref) (labels : list string)
| RemoveItems (properties : list gval)
| Unwind (e : gval) (variable : string)
| Sub (s : statement)
| Proc (name : list string)
| Args (l : option (list gval))
| Yield (l : list gval)
| OrderItems (l : list sort)
| OrderBy (e : gval)
| Then (e : gval)
| Descending
| Ascending
| Skip (n : Z)
| Limit (n : Z).

Definition set_match (d : dbuilder) (m : match_builder) : dbuilder :=
  DB (d_err d) (d_elements d) (d_parts d) m (d_update d) (d_call d).
Definition set_cond (d : dbuilder) (c : cnd) : dbuilder :=
  set_match d (MatchB (m_not_nil (d_match d)) (m_optional (d_match d)) (m_patterns (d_match d)) c).

(** Methods of the default builder (default_statement_builder.go), whose names
    they have.  None: the type has no such method. *)
Definition d_step (ks : nat -> key) (d : dbuilder) (c : call) : option (outcome state) :=
  match d_err d with
  | Some m =>
      (* every method returns an errored builder; that of Unwind panics in As *)
      match c with
      | With _ _ => Some (Returns (W (w_error m)))
      | Returning _ _ => Some (Returns (R (r_error m)))
      | Unwind _ _ => Some Panics                      (* default_ongoing_unwind.go:24-27 *)
      | Proc _ => Some (Returns (I (inr m) (CallB false (None, "") None None Nil)))
      | Match _ _ | Where _ | AndC _ | OrC _ | Delete _ _ | Create _ | Merge _ | OnAction _ _
      | SetItems _ | SetLabels _ _ | RemoveLabels _ _ | RemoveItems _ | Sub _ => Some (Returns (D (d_error m)))
      | _ => None
      end
  | None =>
      match c with
      | Match o ps =>                                  (* 432-442, 475-501 *)
          match first_error ps with
          | Some m => Some (Returns (D (d_error m)))
          | None => Some (Returns (D (set_match (close_call (block ks 1) (close_match (block ks 0) d))
                                                (MatchB true o (sound_exprs ps) Nil))))
          end
      | Where c =>                                     (* 38-47 *)
          match get_error c with
          | Some m => Some (Returns (D (d_error m)))
          | None => Some (Returns (D (set_cond d c)))
          end
      | AndC c =>                                      (* 393-399 *)
          match builder_add ks BAnd (m_cond (d_match d)) c with
          | Val x => Some (Returns (D (set_cond d x)))
          | Panic => Some Panics
          end
      | OrC c =>                                       (* 411-420 *)
          match get_error c with
          | Some m => Some (Returns (D (d_error m)))
          | None =>
              match builder_add ks BOr (m_cond (d_match d)) c with
              | Val x => Some (Returns (D (set_cond d x)))
              | Panic => Some Panics
              end
          end
      | With b l =>                                    (* 130-185 *)
          match first_error l with
          | Some m => Some (Returns (W (w_error m)))
          | None => Some (Returns (W (WB None (Some d) Nil l no_order b)))
          end
      | Returning b l =>                               (* 532-555 *)
          match first_error l with
          | Some m => Some (Returns (R (r_error m)))
          | None => Some (Returns (R (RB None (Some d) l b no_order)))
          end
      | Delete b l =>                                  (* 206-247 *)
          match first_error l with
          | Some m => Some (Returns (D (d_error m)))
          | None => Some (Returns (D (d_update_with ks d (TDelete b) l)))
          end
      | Create l =>                                    (* 444-454 *)
          match first_error l with
          | Some m => Some (Returns (D (d_error m)))
          | None => Some (Returns (D (d_update_with ks d TCreate l)))
          end
      | Merge l =>                                     (* 249-259 *)
          match first_error l with
          | Some m => Some (Returns (D (d_error m)))
          | None => Some (Returns (D (d_update_with ks d TMerge l)))
          end
      | OnAction b l =>                                (* 456-473, 702-720 *)
          match d_update d with
          | Some (UMerge p actions) =>
              match first_error l with
              | Some m => Some (Returns (D (d_error m)))
              | None =>
                  match merge_action ks b (sound_exprs l) with
                  | inr m => Some (Returns (D (DB (Some m) (d_elements d) (d_parts d) (d_match d) (d_update d) (d_call d))))
                  | inl a => Some (Returns (D (DB None (d_elements d) (d_parts d) (d_match d)
                                                  (Some (UMerge p (actions ++ [a]))) (d_call d))))
                  end
              end
          | _ => Some (Returns (D (d_error "merge must have been invoked before defining an event")))
          end
      | SetItems l =>                                  (* 261-272 *)
          match first_error l with
          | Some m => Some (Returns (D (d_error m)))
          | None => Some (Returns (U (u_create (block ks 1) (close_update (block ks 0) d) TSet l)))
          end
      | SetLabels n ls =>                              (* 287-295 *)
          match n with
          | NodeErr m => Some (Returns (D (d_error m)))
          | _ => Some (Returns (U (u_create (block ks 1) d TSet [label_operation (block ks 0) SetLabel n ls])))
          end
      | RemoveLabels n ls =>                           (* 297-305 *)
          match n with
          | NodeErr m => Some (Returns (D (d_error m)))
          | _ => Some (Returns (U (u_create (block ks 1) d TRemove [label_operation (block ks 0) RemoveLabel n ls])))
          end
      | RemoveItems l =>                               (* 307-321 *)
          match first_error l with
          | Some m => Some (Returns (D (d_error m)))
          | None => Some (Returns (U (u_create ks d TRemove l)))
          end
      | Unwind g v =>                                  (* 342-351, default_ongoing_unwind.go:24-27 *)
          match g with
          | GErr _ _ => Some Panics
          | GOk e => let d := close_match (block ks 0) d in
                     Some (Returns (D (with_elements d (d_elements d ++ [unwind_create (block ks 1) e v]))))
          end
      | Sub s =>                                       (* 353-373 *)
          match statement_error s with
          | Some m => Some (Returns (D (d_error m)))
          | None =>
              let d := close_update (block ks 2) (close_match (block ks 1) (close_call (block ks 0) d)) in
              match subquery_call (ks 3) s with
              | CErr _ m => Some (Returns (D (DB (Some m) (d_elements d) (d_parts d) (d_match d) (d_update d) (d_call d))))
              | c => Some (Returns (D (with_elements d (d_elements d ++ [c]))))
              end
          end
      | Proc parts =>                                  (* 375-384 *)
          let d := close_call (block ks 1) (close_match (block ks 0) d) in
          match procedure_name (ks 2) parts with
          | Panics => Some Panics
          | Diverges => Some Diverges
          | Returns n =>
              let p := CallB false n None None Nil in
              Some (Returns (I (inl (DB (d_err d) (d_elements d) (d_parts d) (d_match d) (d_update d) (Some p))) p))
          end
      | _ => None
      end
  end.

(** Methods that order, skip and limit. *)
Definition order_step (ks : nat -> key) (o : order_builder) (c : call) : option order_builder :=
  match c with
  | OrderItems l => Some (order_items o l)
  | OrderBy g | Then g => Some (order_by (ks 0) o g)
  | Descending => Some (order_descending o)
  | Ascending => Some (order_ascending (ks 0) o)
  | Skip z => Some (order_skip o z)
  | Limit z => Some (order_limit o z)
  | _ => None
  end.

(** default_statement_with_with_builder.go:50-78, 228-258; all other methods
    add the WITH and continue with the default builder (88-226), of which an
    errored one has none. *)
Definition w_step (ks : nat -> key) (w : wbuilder) (c : call) : option (outcome state) :=
  let cond x := W (WB (w_err w) (w_default w) x (w_items w) (w_order w) (w_distinct w)) in
  match order_step ks (w_order w) c with
  | Some o => Some (Returns (W (WB (w_err w) (w_default w) (w_cond w) (w_items w) o (w_distinct w))))
  | None =>
      match c with
      | Where x => Some (Returns (cond x))
      | AndC x => match builder_add ks BAnd (w_cond w) x with Val y => Some (Returns (cond y)) | Panic => Some Panics end
      | OrC x => match builder_add ks BOr (w_cond w) x with Val y => Some (Returns (cond y)) | Panic => Some Panics end
      | OnAction _ _ | Args _ | Yield _ => None
      | _ =>
          match w_default w with
          | None => Some Panics
          | Some d =>
              d_step (block ks 0)
                     (add_with (block ks 1) d (build_with (block ks 2) (w_distinct w) (w_items w) (w_order w) (w_cond w))) c
          end
      end
  end.

(** default_statement_with_update.go:72-105, 129-255. *)
Definition u_step (ks : nat -> key) (u : ubuilder) (c : call) : option (outcome state) :=
  match order_step ks (u_order u) c with
  | Some o => Some (Returns (U (UB (u_err u) (u_default u) (u_update u) (u_returns u) (u_distinct u) o)))
  | None =>
      match c with
      | Returning false l =>                           (* 129-132 *)
          Some (Returns (U (UB (u_err u) (u_default u) (u_update u) (u_returns u ++ l) (u_distinct u) (u_order u))))
      | Returning true l =>                            (* 142-146: the list is added to a copy *)
          Some (Returns (U (UB (u_err u) (u_default u) (u_update u) (u_returns u) true (u_order u))))
      | With _ _ | Delete _ _ | Merge _ | SetItems _ | SetLabels _ _ | RemoveLabels _ _ | RemoveItems _ | Create _ =>
          match u_default u, u_update u with
          | Some d0, Some b =>
              let d := add_updating_clause (block ks 0) d0 (build_update (block ks 1) b) in
              let ks := block ks 2 in
              match c with
              | With b l =>                            (* 160-163 *)
                  d_step ks d (With b l)
              | Delete b l =>                          (* 189-202: errors of the items are not checked *)
                  Some (Returns (D (d_update_with ks d (TDelete b) l)))
              | Merge l => d_step ks d (Merge l)       (* 216-219 *)
              | SetItems l =>                          (* 221-224 *)
                  Some (Returns (U (u_create (block ks 0) d TSet l)))
              | SetLabels n ls =>                      (* 230-233 *)
                  Some (Returns (U (u_create (block ks 0) d TSet [label_operation (block ks 1) SetLabel n ls])))
              | RemoveLabels n ls =>                   (* 235-241: the operator is SET_LABEL *)
                  Some (Returns (U (u_create (block ks 0) d TRemove [label_operation (block ks 1) SetLabel n ls])))
              | RemoveItems l =>                       (* 243-250 *)
                  Some (Returns (U (u_create (block ks 0) d TRemove l)))
              | Create l => d_step ks d (Create l)     (* 252-255 *)
              | _ => None
              end
          | _, _ => match c with RemoveLabels _ _ => Some (Returns (U u)) | _ => Some Panics end
          end
      | _ => None
      end
  end.

(** default_statement_with_return_builder.go:32-65. *)
Definition r_step (ks : nat -> key) (r : rbuilder) (c : call) : option (outcome state) :=
  match order_step ks (r_order r) c with
  | Some o => Some (Returns (R (RB (r_err r) (r_default r) (r_items r) (r_distinct r) o)))
  | None => None
  end.

Definition set_call (d : dbuilder) (p : call_builder) : dbuilder :=
  DB (d_err d) (d_elements d) (d_parts d) (d_match d) (d_update d) (Some p).

(** in_query_call_builder.go:22-135 (errors of YIELD are dropped, those of a
    WHERE too) and procedure_call.go:158-285. *)
Definition call_step (ks : nat -> key) (p : call_builder) (target : call_builder -> option dbuilder)
  (again : call_builder -> state) (c : call) : option (outcome state) :=
  match c with
  | Args l => Some (Returns (again (CallB (p_standalone p) (p_name p) l (p_yield p) (p_cond p))))
  | Yield l => Some (Returns (again (CallB (p_standalone p) (p_name p) (p_args p) (yield_create (ks 0) l) (p_cond p))))
  | Where x =>
      match target (CallB (p_standalone p) (p_name p) (p_args p) (p_yield p) x) with
      | Some d => Some (Returns (D d))
      | None => Some Panics
      end
  | Returning _ _ | With _ _ | Sub _ =>
      match target p with
      | Some d => d_step ks d c
      | None => Some Panics
      end
  | _ => None
  end.

Definition step (ks : nat -> key) (s : state) (c : call) : option (outcome state) :=
  match s with
  | D d => d_step ks d c
  | U u => u_step ks u c
  | W w => w_step ks w c
  | R r => r_step ks r c
  | I d p => call_step ks p (fun p => match d with inl d => Some (set_call d p) | inr _ => None end) (fun p => I d p) c
  | S p => call_step ks p (fun p => Some (d_of_call p)) (fun p => S p) c
  end.

(** The functions of cypher.go that start a statement: Match 159-185, Create
    194-196, With 207-234, Merge 243-245, Unwind 254-267, CypherReturning
    368-370, ACall 443-445 (statement.go:15-17), ACallByStatement 456-458. *)
Definition start (ks : nat -> key) (c : call) : option (outcome state) :=
  match c with
  | Match _ _ | Create _ | With _ _ | Merge _ | Unwind _ _ | Returning _ _ | Sub _ => d_step ks d_new c
  | Proc parts =>
      Some (match procedure_name (ks 0) parts with
            | Returns n => Returns (S (CallB true n None None Nil))
            | Panics => Panics
            | Diverges => Diverges
            end)
  | _ => None
  end.

(** ** Build *)

(** What Build returns: a statement, or nil and an error. *)
Inductive built := Built (s : statement) | BuildFails (msg : string).

Definition built_of (o : outcome statement) : outcome built :=
  match o with Returns s => Returns (Built s) | Panics => Panics | Diverges => Diverges end.

Definition build (ks : nat -> key) (s : state) : option (outcome built) :=
  match s with
  | D d =>                                             (* default_statement_builder.go:557-562 *)
      Some (match d_err d with
            | Some m => Returns (BuildFails m)
            | None => built_of (build_impl ks d NoReturn)
            end)
  | U u =>                                             (* default_statement_with_update.go:107-119 *)
      Some (match u_err u, u_default u, u_update u with
            | Some m, _, _ => Returns (BuildFails m)
            | None, Some d, Some b =>
                built_of (build_impl (block ks 2) (add_updating_clause (block ks 0) d (build_update (block ks 1) b))
                                     (build_return (block ks 3) (u_distinct u) (u_returns u) (u_order u)))
            | None, _, _ => Panics
            end)
  | R r =>                                             (* default_statement_with_return_builder.go:19-30 *)
      Some (match r_err r, r_default r with
            | Some m, _ => Returns (BuildFails m)
            | None, Some d => built_of (build_impl (block ks 0) d (build_return (block ks 1) (r_distinct r) (r_items r) (r_order r)))
            | None, None => Panics
            end)
  | S p =>                                             (* procedure_call.go:195-218 *)
      Some (Returns (match build_call ks p with
                     | inr m => BuildFails m
                     | inl (COk q) => Built (StOk q)
                     | inl (CErr _ m) => Built (StErr false m)
                     | inl (CBroken _) => Built (StBroken false)
                     end))
  | W _ | I _ _ => None
  end.

(** ** Which calls compile: the interfaces of statement_builder.go, exposes_*.go
    and procedure_call.go:77-127 *)
Inductive iface :=
| IStart                  (* the package *)
| IReadingWithoutWhere    (* OngoingReadingWithoutWhere *)
| IReading                (* OngoingReading *)
| IReadingWithWhere       (* OngoingReadingWithWhere *)
| IReadingAndReturn       (* OngoingReadingAndReturn *)
| IReadingAndWith         (* OngoingReadingAndWith *)
| IWithWithoutWhere       (* OrderableOngoingReadingAndWithWithoutWhere *)
| IWithWithWhere          (* OrderableOngoingReadingAndWithWithWhere *)
| IWithAndOrder           (* OngoingReadingAndWithWithWhereAndOrder *)
| IOrderDefinition        (* OngoingOrderDefinition *)
| ISkipped                (* ExposesLimitAndOngoingReadingAndWith *)
| IUpdate                 (* OngoingUpdate *)
| IUpdateAndSet           (* OngoingUpdateAndExposesSet *)
| IMatchAndUpdate         (* BuildableStatementAndOngoingMatchAndUpdate *)
| IMergeAction            (* OngoingMatchAndUpdateAndBuildableStatementAndExposesMergeAction *)
| IReturnWithOrder        (* OngoingMatchAndReturnWithOrder *)
| ITerminalOrder          (* TerminalOngoingOrderDefinition *)
| ITerminalLimit          (* TerminalExposesLimitAndBuildableStatement *)
| IBuildable              (* BuildableStatement *)
| ICallWithoutArgs        (* OngoingInQueryCallWithoutArguments *)
| ICallWithArgs           (* OngoingInQueryCallWithArguments *)
| ICallWithFields         (* OngoingInQueryCallWithReturnFields *)
| IAloneWithoutArgs       (* OngoingStandaloneCallWithoutArguments *)
| IAloneWithFields.       (* OngoingStandaloneCallWithReturnFields *)

(** ExposesReturning, ExposesWith, ExposesMatch, ExposesCreate, ExposesMerge,
    ExposesDelete, ExposesSet, ExposesSetAndRemove, ExposesUnwind,
    ExposesSubqueryCall, ExposesWhere. *)
Definition exposes_returning (c : call) : option iface := match c with Returning _ _ => Some IReadingAndReturn | _ => None end.
Definition exposes_with (c : call) : option iface := match c with With _ _ => Some IWithWithoutWhere | _ => None end.
Definition exposes_match (c : call) : option iface := match c with Match _ _ => Some IReadingWithoutWhere | _ => None end.
Definition exposes_create (c : call) : option iface := match c with Create _ => Some IUpdateAndSet | _ => None end.
Definition exposes_merge (c : call) : option iface := match c with Merge _ => Some IUpdateAndSet | _ => None end.
Definition exposes_delete (c : call) : option iface := match c with Delete _ _ => Some IUpdate | _ => None end.
Definition exposes_set (c : call) : option iface := match c with SetItems _ => Some IMatchAndUpdate | _ => None end.
Definition exposes_remove (c : call) : option iface :=
  match c with SetLabels _ _ | RemoveLabels _ _ | RemoveItems _ => Some IMatchAndUpdate | _ => None end.
Definition exposes_unwind (c : call) : option iface := match c with Unwind _ _ => Some IReading | _ => None end.
Definition exposes_subquery (c : call) : option iface := match c with Sub _ => Some IReadingWithoutWhere | _ => None end.
Definition exposes_where (c : call) : option iface := match c with Where _ => Some IReadingWithWhere | _ => None end.
Definition exposes_call (c : call) : option iface := match c with Proc _ => Some ICallWithoutArgs | _ => None end.
Definition exposes_merge_action (c : call) : option iface := match c with OnAction _ _ => Some IMergeAction | _ => None end.

Fixpoint offered (l : list (call -> option iface)) (c : call) : option iface :=
  match l with [] => None | f :: l' => match f c with Some i => Some i | None => offered l' c end end.

Definition reading : list (call -> option iface) :=                    (* statement_builder.go:24-33 *)
  [exposes_returning; exposes_with; exposes_delete; exposes_merge; exposes_set; exposes_remove; exposes_unwind;
   exposes_create; exposes_subquery; exposes_call].
Definition match_and_update : list (call -> option iface) :=           (* 162-167 *)
  [exposes_returning; exposes_with; exposes_delete; exposes_merge; exposes_set; exposes_remove; exposes_create].
Definition and_or (i : iface) (c : call) : option iface := match c with AndC _ | OrC _ => Some i | _ => None end.
Definition with_skip_limit (c : call) : option iface :=                (* 118-124 *)
  match c with Skip _ => Some ISkipped | Limit _ => Some IReadingAndWith | _ => None end.
Definition with_order_by (c : call) : option iface :=                  (* 113-116 *)
  match c with OrderItems _ => Some IWithWithWhere | OrderBy _ => Some IOrderDefinition | _ => None end.
Definition terminal_skip_limit (c : call) : option iface :=            (* 198-200, 220-222 *)
  match c with Skip _ => Some ITerminalLimit | Limit _ => Some IBuildable | _ => None end.

Definition offers (i : iface) : call -> option iface :=
  offered
    match i with
    | IStart => [exposes_match; exposes_create; exposes_with; exposes_merge; exposes_unwind; exposes_returning;
                 exposes_subquery; fun c => match c with Proc _ => Some IAloneWithoutArgs | _ => None end]
    | IReadingWithoutWhere => reading ++ [exposes_where; exposes_match]                  (* 17-22 *)
    | IReading => reading
    | IReadingWithWhere => reading ++ [exposes_match; and_or IReadingWithWhere]          (* 47-55 *)
    | IReadingAndReturn =>                                                               (* 35-40 *)
        [fun c => match c with OrderItems _ => Some IReturnWithOrder | OrderBy _ => Some ITerminalOrder | _ => None end;
         terminal_skip_limit]
    | IReadingAndWith => reading ++ [exposes_match]                                      (* 42-45 *)
    | IWithWithoutWhere =>                                                               (* 74-78, 92-97 *)
        [with_order_by; with_skip_limit] ++ reading
          ++ [exposes_match; fun c => match c with Where _ => Some IWithWithWhere | _ => None end]
    | IWithWithWhere =>                                                                  (* 80-86 *)
        [with_order_by; with_skip_limit] ++ reading ++ [exposes_match; and_or IWithWithWhere]
    | IWithAndOrder =>                                                                   (* 99-104 *)
        [with_skip_limit] ++ reading
          ++ [exposes_match; fun c => match c with Then _ => Some IOrderDefinition | _ => None end]
    | IOrderDefinition =>                                                                (* 106-111 *)
        [with_skip_limit; fun c => match c with Descending | Ascending => Some IWithAndOrder | _ => None end]
    | ISkipped => []                                                                     (* 71-72 *)
    | IUpdate =>                                                                         (* 61-69 *)
        [exposes_create; exposes_merge; exposes_delete; exposes_returning; exposes_with; exposes_merge_action]
    | IUpdateAndSet =>                                                                   (* 180-183 *)
        [exposes_create; exposes_merge; exposes_delete; exposes_returning; exposes_with; exposes_merge_action; exposes_set]
    | IMatchAndUpdate => match_and_update                                                (* 12-15 *)
    | IMergeAction => match_and_update ++ [exposes_merge_action]                         (* 174-178 *)
    | IReturnWithOrder =>                                                                (* 191-196 *)
        [terminal_skip_limit; fun c => match c with Then _ => Some ITerminalOrder | _ => None end]
    | ITerminalOrder =>                                                                  (* 202-208 *)
        [terminal_skip_limit; fun c => match c with Descending | Ascending => Some IReturnWithOrder | _ => None end]
    | ITerminalLimit => [fun c => match c with Limit _ => Some IBuildable | _ => None end]   (* 215-218 *)
    | IBuildable => []
    | ICallWithoutArgs =>                                                                (* procedure_call.go:109-114 *)
        [fun c => match c with Args _ => Some ICallWithArgs | Yield _ => Some ICallWithFields | _ => None end]
    | ICallWithArgs =>                                                                   (* 116-120 *)
        [fun c => match c with Yield _ => Some ICallWithFields | _ => None end]
    | ICallWithFields => [exposes_where; exposes_returning; exposes_with; exposes_subquery]   (* 122-127 *)
    | IAloneWithoutArgs =>                                                               (* 77-84 *)
        [fun c => match c with Args _ => Some IAloneWithoutArgs | Yield _ => Some IAloneWithFields | _ => None end]
    | IAloneWithFields => [exposes_where; exposes_returning; exposes_with; exposes_subquery]  (* 101-107 *)
    end.

(** BuildableStatement is part of the interface. *)
Definition buildable (i : iface) : bool :=
  match i with
  | IReadingAndReturn | IUpdate | IUpdateAndSet | IMatchAndUpdate | IMergeAction | IReturnWithOrder
  | ITerminalOrder | ITerminalLimit | IBuildable | IAloneWithoutArgs | IAloneWithFields => true
  | _ => false
  end.

(** ** Programs: a chain of calls, then Build *)

(** The interface of the value after the calls, if they compile. *)
Fixpoint compiles (i : iface) (p : list call) : option iface :=
  match p with
  | [] => Some i
  | c :: p' => match offers i c with Some i' => compiles i' p' | None => None end
  end.

(** [K i] are the keys of the elements made by the i-th call. *)
Fixpoint run (K : nat -> nat -> key) (s : state) (p : list call) : option (outcome state) :=
  match p with
  | [] => Some (Returns s)
  | c :: p' =>
      match step (K (length p')) s c with
      | Some (Returns s') => run K s' p'
      | r => r
      end
  end.

Definition run_start (K : nat -> nat -> key) (p : list call) : option (outcome state) :=
  match p with
  | [] => None
  | c :: p' =>
      match start (K (length p')) c with
      | Some (Returns s') => run K s' p'
      | r => r
      end
  end.

(** The statement made by a chain of calls followed by Build. *)
Definition build_program (K : nat -> nat -> key) (ks : nat -> key) (p : list call) : option (outcome built) :=
  match run_start K p with
  | Some (Returns s) => build ks s
  | Some Panics => Some Panics
  | Some Diverges => Some Diverges
  | None => None
  end.
