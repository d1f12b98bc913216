(** Specification: what the calls on expressions are intended to mean.

    Tables of the operators and functions that methods and functions of the API
    stand for, and the texts of the expressions they make. *)

From Coq Require Import Ascii String List ZArith Bool.
From Verif Require Import GoStr Escape Num VTree Ast GoVal Maps SpecDoc SpecPrint Patterns SpecPattern Cond Queries Builder Exprs Functions SpecExpr.
Import ListNotations.
Open Scope string_scope.
Open Scope list_scope.

(** ** Operators *)

Definition sign_of_computing (c : computing) : sign :=
  match c with
  | ConcatWith => Plus | Add => Plus | Subtract => Minus | Multiply => Times | Divide => Over | Remainder => Modulo | Pow => Power
  end.
Definition sign_of_comparing (c : comparing) : sign :=
  match c with
  | IsEqualTo => Equal | IsNotEqualTo => Unequal | Lt => Less | Lte => LessEqual | Gt => More | Gte => MoreEqual
  | MatchesWith => Like | StartWiths => Starts | ContainsIn => Has | EndsWithIn => Ends | Exprs.In => Within
  end.

(** Expressions that stand for themselves next to any operator: names,
    literals that are not negative, calls, lists, maps, comprehensions, and
    properties and elements of such. *)
Fixpoint self_contained (e : expr) : bool :=
  match e with
  | ESym _ _ | EParam _ _ | EBool _ _ | ENull _ | EStr _ _ | EListLit _ _ | ENested _ _ | EFun _ _ _ _ | EMap _ _
  | EListExpr _ _ | EListComp _ _ _ _ _ | EPatComp _ _ _ _ => true
  | ENum _ n => negb (n_neg n)
  | EProp _ c _ => self_contained c
  | EListOp _ t _ _ _ _ => self_contained t
  | _ => false
  end.

(** [builds t v]: [v] is the result of the calls that describe [t].  Only whether
    an operand has an error or is set, and its text, matter, not which of the
    copies of an element is taken. *)
Inductive builds : tree expr -> value -> Prop :=
| b_leaf : forall e i, self_contained e = true -> builds (Leaf e) (Elem (Good e) i)
| b_compute : forall ks c t u x y, builds t x -> builds u y -> builds (Bin (sign_of_computing c) t u) (compute ks c x y)
| b_compare : forall ks c t u x y, builds t x -> builds u y -> builds (Bin (sign_of_comparing c) t u) (compare ks c x y)
| b_null : forall ks t x, builds t x -> builds (Post Null t) (is_null ks x)
| b_not_null : forall ks t x, builds t x -> builds (Post NotNull t) (is_not_null ks x)
(* Shorthands: x = true, x =~ 'pattern', size(x) = 0; [ks]: keys of the literals. *)
| b_truth : forall ks b t x, builds t x -> builds (Bin Equal t (Leaf (EBool (ks 3) b))) (is_bool ks b x)
| b_pattern : forall ks s t x, builds t x -> builds (Bin Like t (Leaf (EStr (ks 3) s))) (matches_pattern ks x s)
| b_empty : forall ks e i v, is_empty ks (Elem (Good e) i) = Returns v ->
    builds (Bin Equal (Leaf (EFun (ks 4) "size" (ks 5) [e])) (Leaf (ENum (ks 3) (num_of_Z 0)))) v
| b_copy : forall t c i j, builds t (Elem c i) -> builds t (Elem c j).

Definition token_doc (E : env) (x : token expr) : doc :=
  match x with
  | TLeaf e => plain (print E e)
  | TSign s => Txt (sign_text s)
  | TSuffix s => Txt (suffix_text s)
  | TOpen => Txt "("
  | TClose => Txt ")"
  end.
Definition tokens_doc (E : env) (ts : list (token expr)) : doc := Cat (map (token_doc E) ts).

(** ** Function calls *)

(** A value that was set, has no error and writes something. *)
Definition given (v : value) : option expr :=
  match v with Elem (Good e) _ => if silent e then None else Some e | _ => None end.
Fixpoint all_given (vs : list value) : option (list expr) :=
  match vs with
  | [] => Some []
  | v :: vs' => match given v, all_given vs' with Some e, Some es => Some (e :: es) | _, _ => None end
  end.

(** [name(a, b)], [name(DISTINCT a, b)]. *)
Definition call_doc (name : string) (distinct : bool) (args : list doc) : doc :=
  Cat [Txt name; Txt "("; Txt (if distinct then "DISTINCT " else ""); Commas args; Txt ")"].

(** The function and DISTINCT that the functions of one expression stand for. *)
Definition fn1_name (f : fn1) : string * bool :=
  match f with
  | CountByExpression => ("count", false) | CountDistinctByExpression => ("count", true)
  | ToLower => ("toLower", false) | Size => ("size", false) | Exists_ => ("exists", false)
  | Avg => ("avg", false) | AvgDistinct => ("avg", true)
  | Collect => ("collect", false) | CollectDistinct => ("collect", true)
  | Max => ("max", false) | MaxDistinct => ("max", true)
  | Min => ("min", false) | MinDistinct => ("min", true)
  | StDev => ("stDev", false) | StDevDistinct => ("stDev", true)
  | StDevP => ("stDevP", false) | StDevPDistinct => ("stDevP", true)
  | Sum => ("sum", false) | SumDistinct => ("sum", true)
  | Head_ => ("head", false) | Last => ("last", false)
  end.
Definition named_fn_name (f : named_fn) : string * bool :=
  match f with
  | IdOf => ("id", false) | LabelsOf => ("labels", false) | TypeOf => ("type", false) | PropertiesOf => ("properties", false)
  | CountOf => ("count", false) | CountDistinctOf => ("count", true) | NodesOf => ("nodes", false)
  | RelationshipsOf => ("relationships", false) | StartNodeOf => ("startNode", false) | EndNodeOf => ("endNode", false)
  | CollectOf => ("collect", false) | CollectDistinctOf => ("collect", true)
  end.
Definition temporal_name (t : temporal) : string :=
  match t with
  | TDate => "date" | TDatetime => "datetime" | TLocaldatetime => "localdatetime" | TLocaltime => "localtime"
  | TTime => "time" | TDuration => "duration"
  end.

(** Uses of functions. *)
Inductive fn_use :=
| Of1 (f : fn1) (v : value)
| OfCoalesce (vs : list value)
| OfDistance (a b : value)
| OfPercentile (disc distinct : bool) (v : value) (p : num)
| OfRange (a b : value)
| OfRangeStep (a b s : value)
| OfNamed (f : named_fn) (n : named)
| OfProperties (m : gmap)
| OfPoint (m : gmap)
| OfComponents (t : temporal) (m : gmap)
| OfTemporal (t : temporal) (s : string)
| OfExpression (t : temporal) (v : value)
| OfCalendar (year month day : Z)
| OfWeek (year week day : Z)
| OfQuarter (year quarter day : Z)
| OfOrdinal (year day : Z)
| OfZone (t : temporal) (zone : string).

Definition fn_run (ks : nat -> key) (K : keys) (u : fn_use) : outcome value :=
  match u with
  | Of1 f v => fn1_call ks f v
  | OfCoalesce vs => coalesce ks vs
  | OfDistance a b => distance ks a b
  | OfPercentile disc d v p => percentile ks disc d v (Finite p)
  | OfRange a b => range ks a b
  | OfRangeStep a b s => range_with_step ks a b s
  | OfNamed f n => named_call ks "node" f n
  | OfProperties m => properties_of_map ks m
  | OfPoint m => point ks m
  | OfComponents t m => temporal_components ks t m
  | OfTemporal t s => temporal_text ks t s
  | OfExpression t v => temporal_expression ks t v
  | OfCalendar y m d => calendar_date ks K y m d
  | OfWeek y w d => week_date ks K y w d
  | OfQuarter y q d => quarter_date ks K y q d
  | OfOrdinal y d => ordinal_date ks K y d
  | OfZone t z => temporal_timezone ks K t (Some z)
  end.

(** A percentile lies between 0 and 1. *)
Definition between_0_and_1 (p : num) : Prop :=
  (0 <= n_mant p)%Z /\ (n_mant p = 0%Z \/ n_neg p = false)
  /\ (if Z.leb 0 (n_exp p) then n_mant p * 10 ^ n_exp p <= 1 else n_mant p <= 10 ^ (- n_exp p))%Z.

Definition fields_doc (E : env) (fs : list (string * string)) : doc :=
  Cat [Txt "{"; Commas (map (fun f => Cat [Txt (escape_if_necessary E (fst f)); Txt ": "; Txt (snd f)]) fs); Txt "}"].

(** The intended text, for arguments that were given. *)
Definition int_text (z : Z) : string := number_text (num_of_Z z).
Definition map_doc (E : env) (m : gmap) : option doc := match m with MapOk k es => Some (plain (print E (EMap k es))) | _ => None end.
Definition shows (E : env) (e : expr) : doc := plain (print E e).

Definition intended (E : env) (u : fn_use) : option doc :=
  match u with
  | Of1 f v => option_map (fun e => call_doc (fst (fn1_name f)) (snd (fn1_name f)) [shows E e]) (given v)
  | OfCoalesce vs =>
      match vs with [] => None | _ => option_map (fun es => call_doc "coalesce" false (map (shows E) es)) (all_given vs) end
  | OfDistance a b => option_map (fun es => call_doc "distance" false (map (shows E) es)) (all_given [a; b])
  | OfPercentile disc d v p =>
      option_map (fun e => call_doc (if disc then "percentileDisc" else "percentileCont") d [shows E e; Txt (number_text p)]) (given v)
  | OfRange a b => option_map (fun es => call_doc "range" false (map (shows E) es)) (all_given [a; b])
  | OfRangeStep a b s => option_map (fun es => call_doc "range" false (map (shows E) es)) (all_given [a; b; s])
  | OfNamed f n =>
      match n_sym n, n_ok n, n_err n with
      | Sym _ x, true, None => Some (call_doc (fst (named_fn_name f)) (snd (named_fn_name f)) [Txt (resolve E x)])
      | _, _, _ => None
      end
  | OfProperties m => option_map (fun d => call_doc "properties" false [d]) (map_doc E m)
  | OfPoint m => option_map (fun d => call_doc "point" false [d]) (map_doc E m)
  | OfComponents t m => option_map (fun d => call_doc (temporal_name t) false [d]) (map_doc E m)
  | OfTemporal t s => if String.eqb s "" then None else Some (call_doc (temporal_name t) false [Txt (string_literal s)])
  | OfExpression t v => option_map (fun e => call_doc (temporal_name t) false [shows E e]) (given v)
  | OfCalendar y m d => Some (call_doc "date" false [fields_doc E [("year", int_text y); ("month", int_text m); ("day", int_text d)]])
  | OfWeek y w d => Some (call_doc "date" false [fields_doc E [("year", int_text y); ("week", int_text w); ("dayOfWeek", int_text d)]])
  | OfQuarter y q d => Some (call_doc "date" false [fields_doc E [("year", int_text y); ("quarter", int_text q); ("dayOfQuarter", int_text d)]])
  | OfOrdinal y d => Some (call_doc "date" false [fields_doc E [("year", int_text y); ("ordinalDay", int_text d)]])
  | OfZone t z => Some (call_doc (temporal_name t) false [fields_doc E [("timezone", string_literal z)]])
  end.

(** ** Uses of expressions as operands *)

Inductive use :=
| Computing (c : computing) (x y : value)
| Comparing (c : comparing) (x y : value)
| Nullness (is : bool) (x : value)
| Truth (b : bool) (x : value)
| Matching (x : value) (pattern : string)
| Emptiness (x : value)
| Aliasing (x : value) (alias : string)
| Slicing (t a b : value)
| SlicingFrom (t a : value)
| SlicingUntil (t b : value)
| Indexing (t i : value)
| Listing (vs : list value)
| Selecting (v : value) (name : string)
| Calling (u : fn_use).

Definition use_run (ks : nat -> key) (K : keys) (u : use) : outcome value :=
  match u with
  | Computing c x y => Returns (compute ks c x y)
  | Comparing c x y => Returns (compare ks c x y)
  | Nullness b x => Returns ((if b then is_null else is_not_null) ks x)
  | Truth b x => Returns (is_bool ks b x)
  | Matching x s => Returns (matches_pattern ks x s)
  | Emptiness x => is_empty ks x
  | Aliasing x a => Returns (as_ ks x a)
  | Slicing t a b => Returns (sub_list ks t a b)
  | SlicingFrom t a => Returns (sub_list_from ks t a)
  | SlicingUntil t b => Returns (sub_list_until ks t b)
  | Indexing t i => Returns (value_at ks t i)
  | Listing vs => list_of ks vs
  | Selecting v n => Returns (property_by_expression ks v n)
  | Calling u => fn_run ks K u
  end.

(** Maps as expressions that may be unset or an error. *)
Definition fn_operands (u : fn_use) : list value :=
  match u with
  | Of1 _ v | OfPercentile _ _ v _ | OfExpression _ v => [v]
  | OfCoalesce vs => vs
  | OfDistance a b | OfRange a b => [a; b]
  | OfRangeStep a b s => [a; b; s]
  | OfProperties m | OfPoint m | OfComponents _ m => [map_value m]
  | _ => []
  end.
Definition use_operands (u : use) : list value :=
  match u with
  | Computing _ x y | Comparing _ x y => [x; y]
  | Nullness _ x | Truth _ x | Matching x _ | Emptiness x | Aliasing x _ => [x]
  | Slicing t a b => [t; a; b]
  | SlicingFrom t a => [t; a]
  | SlicingUntil t b => [t; b]
  | Indexing t i => [t; i]
  | Listing vs => vs
  | Selecting v _ => [v]
  | Calling u => fn_operands u
  end.

(** The first error among the operands. *)
Fixpoint first_failure (vs : list value) : option string :=
  match vs with [] => None | v :: vs' => match value_err v with Some m => Some m | None => first_failure vs' end end.
(** All operands were set, without errors. *)
Definition sound_value (v : value) : Prop := match v with Elem (Good _) _ => True | _ => False end.
(** The names that a call itself requires. *)
Definition well_called (u : use) : Prop :=
  match u with
  | Aliasing _ a => a <> ""
  | Selecting _ n => n <> ""
  | Calling (OfCoalesce vs) => vs <> []
  | Calling (OfPercentile _ _ _ p) => between_0_and_1 p
  | Calling (OfTemporal _ s) => s <> ""
  | Calling (OfNamed _ n) => n_ok n = true /\ n_err n = None /\ sym_not_nil (n_sym n) = true
  | _ => True
  end.

(** ** List operators, comprehensions, predicates and paths *)

(** [target[from..to]], [target[at]]. *)
Definition slice_doc (E : env) (t : expr) (from to : option expr) : doc :=
  Cat ([shows E t; Txt "["] ++ maybe (option_map (shows E) from) ++ [Txt ".."] ++ maybe (option_map (shows E) to) ++ [Txt "]"]).
Definition element_doc (E : env) (t i : expr) : doc := Cat [shows E t; Txt "["; shows E i; Txt "]"].

(** [[x IN list WHERE condition | definition]]. *)
Definition list_comprehension_doc (E : env) (x : string) (l : expr) (w d : option doc) : doc :=
  Cat ([Txt "["; Txt (resolve E x); Txt " IN "; shows E l]
       ++ (match w with Some c => [Txt " WHERE "; c] | None => [] end)
       ++ (match d with Some c => [Txt " | "; c] | None => [] end) ++ [Txt "]"]).

(** Several definitions make a list. *)
Definition definitions_doc (E : env) (es : list expr) : doc :=
  match es with [e] => shows E e | _ => Cat [Txt "["; Commas (map (shows E) es); Txt "]"] end.

(** [[pattern WHERE condition | definition]]. *)
Definition pattern_comprehension_doc (p : doc) (w : option doc) (d : doc) : doc :=
  Cat ([Txt "["; p] ++ (match w with Some c => [Txt " WHERE "; c] | None => [] end) ++ [Txt " | "; d; Txt "]"]).

(** [all(x IN list WHERE condition)]. *)
Definition predicate_doc (E : env) (name x : string) (l c : expr) : doc :=
  Cat [Txt name; Txt "("; Txt (resolve E x); Txt " IN "; shows E l; Txt " WHERE "; shows E c; Txt ")"].

(** [p = pattern]. *)
Definition named_path_doc (E : env) (name : string) (p : doc) : doc := Cat [Txt (resolve E name); Txt " = "; p].

(** ** Which operands must be set, and which calls accept nil *)

Definition missing (v : value) : bool := negb (value_ok v).
(** Operands whose absence the call reports. *)
Definition fn_demanded (u : fn_use) : list value :=
  match u with
  | Of1 _ v | OfPercentile _ _ v _ | OfExpression _ v => [v]
  | OfCoalesce vs => match vs with v :: _ => [v] | [] => [] end
  | OfDistance a b | OfRange a b | OfRangeStep a b _ => [a; b]
  | OfProperties m | OfPoint m | OfComponents _ m => [map_value m]
  | _ => []
  end.
Definition demanded (u : use) : list value :=
  match u with
  | Comparing _ x _ => [x]
  | Listing _ | Selecting _ _ => []
  | Calling u => fn_demanded u
  | _ => use_operands u
  end.
(** Calls that report nil operands; the others panic or leave them out. *)
Definition nil_safe (u : use) : bool :=
  match u with
  | Emptiness _ | Listing _ => false
  | Calling (OfDistance _ _ | OfPercentile _ _ _ _ | OfRange _ _) => true
  | Calling _ => false
  | _ => true
  end.

(** ** Copies *)

(** Whether an element was set, has an error, and what it writes. *)
Definition status_of (v : value) : option status := match v with NilValue => None | Elem c _ => Some c end.
Definition fn_with (f : value -> value) (u : fn_use) : fn_use :=
  match u with
  | Of1 g v => Of1 g (f v)
  | OfPercentile a b v p => OfPercentile a b (f v) p
  | OfExpression t v => OfExpression t (f v)
  | OfCoalesce vs => OfCoalesce (map f vs)
  | OfDistance a b => OfDistance (f a) (f b)
  | OfRange a b => OfRange (f a) (f b)
  | OfRangeStep a b s => OfRangeStep (f a) (f b) (f s)
  | _ => u
  end.
(** The same call on other operands. *)
Definition use_with (f : value -> value) (u : use) : use :=
  match u with
  | Computing c x y => Computing c (f x) (f y)
  | Comparing c x y => Comparing c (f x) (f y)
  | Nullness b x => Nullness b (f x)
  | Truth b x => Truth b (f x)
  | Matching x s => Matching (f x) s
  | Emptiness x => Emptiness (f x)
  | Aliasing x a => Aliasing (f x) a
  | Slicing t a b => Slicing (f t) (f a) (f b)
  | SlicingFrom t a => SlicingFrom (f t) (f a)
  | SlicingUntil t b => SlicingUntil (f t) (f b)
  | Indexing t i => Indexing (f t) (f i)
  | Listing vs => Listing (map f vs)
  | Selecting v n => Selecting (f v) n
  | Calling u => Calling (fn_with f u)
  end.

(** ** Sort items *)
Definition direction_text (d : option bool) : string := match d with None => "" | Some true => " DESC" | Some false => " ASC" end.
Definition sort_doc (E : env) (e : expr) (d : option bool) : doc := Cat [shows E e; Txt (direction_text d)].

(** ** Properties, label tests, lists and patterns as conditions *)

(** [container.name]. *)
Definition property_doc (E : env) (c : doc) (name : string) : doc := Cat [c; Txt "."; Txt (escape_if_necessary E name)].
(** [n:A:B]. *)
Definition labels_doc (E : env) (x : string) (labels : list string) : doc :=
  Cat (Txt (resolve E x) :: map (fun l => Txt (":" ++ escape_name l)) labels).
(** [[a, b]]. *)
Definition list_doc (ds : list doc) : doc := Cat [Txt "["; Commas ds; Txt "]"].
(** Go values as literals. *)
Definition raw_doc (v : any) : option doc :=
  match v with
  | ANil => Some (Txt "NULL")
  | AString s => Some (Txt (string_literal s))
  | AInt z => Some (Txt (int_text z))
  | AFloat n => Some (Txt (number_text n))
  | ABool b => Some (Txt (if b then "true" else "false"))
  | _ => None
  end.
Fixpoint raw_docs (l : list any) : option (list doc) :=
  match l with
  | [] => Some []
  | v :: l' => match raw_doc v, raw_docs l' with Some d, Some ds => Some (d :: ds) | _, _ => None end
  end.

(** [EXISTS {MATCH a, b WHERE c }]. *)
Definition exists_doc (optional : bool) (patterns : list doc) (w : option doc) : doc :=
  Cat ([Txt "EXISTS {"; Txt (if optional then "OPTIONAL MATCH " else "MATCH "); Commas patterns]
       ++ (match w with Some c => [Txt " WHERE "; c] | None => [] end) ++ [Txt " }"]).

(** [subquery o es w d]: [d] is the builder after Match or OptionalMatch of the
    patterns [es] and, if [w] is given, Where, And and Or with the conditions [w]. *)
Inductive subquery (o : bool) (es : list expr) : option (SpecCond.call expr) -> dbuilder -> Prop :=
| sq_match : forall ks d, d_step ks d_new (Match o (map GOk es)) = Some (Returns (D d)) -> subquery o es None d
| sq_where : forall ks d c x d', subquery o es None d -> makes c x -> d_step ks d (Where x) = Some (Returns (D d')) ->
    subquery o es (Some c) d'
| sq_and : forall ks d c c' x d', subquery o es (Some c) d -> makes c' x -> d_step ks d (AndC x) = Some (Returns (D d')) ->
    subquery o es (Some (SpecCond.Chain SpecCond.CAnd c c')) d'
| sq_or : forall ks d c c' x d', subquery o es (Some c) d -> makes c' x -> d_step ks d (OrC x) = Some (Returns (D d')) ->
    subquery o es (Some (SpecCond.Chain SpecCond.COr c c')) d'.
