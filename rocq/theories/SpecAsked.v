(** Specification: the Cypher expression (SpecGrammar.v) that calls on
    expressions ask for, and which of these expressions the library can write. *)

From Coq Require Import Ascii String List ZArith Bool.
From Verif Require Import GoStr Escape Num VTree Ast GoVal Maps Patterns Exprs Functions SpecCalls SpecOutline SpecGrammar SpecReading.
Import ListNotations.
Open Scope string_scope.
Open Scope list_scope.

(** The operators that methods stand for. *)
Definition computed (c : computing) : binop :=
  match c with
  | ConcatWith | Add => OAdd | Subtract => OSub | Multiply => OMul | Divide => ODiv | Remainder => OMod | Pow => OPow
  end.
Definition compared (c : comparing) : binop :=
  match c with
  | IsEqualTo => OEq | IsNotEqualTo => ONe | Lt => OLt | Lte => OLe | Gt => OGt | Gte => OGe
  | MatchesWith => OLike | StartWiths => OStarts | ContainsIn => OContains | EndsWithIn => OEnds | Exprs.In => OIn
  end.
(** Predicates of the elements of a list. *)
Definition quantified (f : builtin) : option string :=
  match f with FAll => Some "all" | FAny => Some "any" | FNone => Some "none" | FSingle => Some "single" | _ => None end.

(** Integers of at most ten digits: longer ones are rounded (C15). *)
Definition short (z : Z) : Prop := (Z.abs z < 10 ^ 10)%Z.
Definition integer (z : Z) : cx := if Z.ltb z 0 then XNeg (XNum (itoa (- z))) else XNum (itoa z).

(** Names of parameters, without their dollar sign. *)
Definition bare (x : string) : bool := (negb (String.eqb x "") && negb (prefix "$" x))%bool.
(** The name may be given with dollar signs. *)
Fixpoint with_dollars (n : nat) (x : string) : string := match n with O => x | S n' => String "$" (with_dollars n' x) end.

Section Asked.

(** [A k a]: the element with key [k] is given the alias [a]. *)
Context (A : key -> string -> Prop).

(** The elements that are made are given no alias. *)
Definition fresh (ks : nat -> key) : Prop := forall n, unaliased A (ks n).
Definition fresh_keys (K : keys) : Prop :=
  unaliased A (k_self K) /\ (forall n, unaliased A (k_lit K n)) /\ (forall n, unaliased A (k_entry K n)) /\ unaliased A (k_null K).

(** A node, relationship or path with a name and without an error. *)
Definition is_called (n : Exprs.named) (x : string) : Prop :=
  (exists k, n_sym n = Sym k x /\ unaliased A k) /\ n_ok n = true /\ n_err n = None.

(** Go values given where a literal is expected. *)
Inductive literally : cx -> any -> Prop :=
| li_nil : literally XNull ANil
| li_bool : forall b, literally (XBool b) (ABool b)
| li_string : forall s, literally (XStr s) (AString s)
| li_int : forall z, short z -> literally (integer z) (AInt z).

(** [asked c v]: [v] is what calls return that ask for [c]. *)
Inductive asked : cx -> value -> Prop :=
(* names, parameters, literals *)
| q_name : forall k x, unaliased A k -> x <> "" -> asked (XVar x) (sym_value (symbolic_name_create k x))
| q_param : forall k n x, unaliased A k -> bare x = true -> asked (XParam x) (parameter_value k (with_dollars n x))
| q_bool : forall k b, unaliased A k -> asked (XBool b) (bool_value k b)
| q_string : forall k s, unaliased A k -> asked (XStr s) (string_value k s)
| q_int : forall k z, unaliased A k -> short z -> asked (integer z) (int_value k z)
| q_float : forall k x, unaliased A k -> n_neg x = false -> (0 <= n_mant x)%Z -> asked (XNum (number_text x)) (float_value k x)
| q_literal : forall kn k c v e i, unaliased A kn -> unaliased A k -> literally c v -> literal_of kn k v = Returns (GOk e) -> asked c (Elem (Good e) i)
(* lists and maps *)
| q_list : forall ks cs vs v, fresh ks -> asked_all cs vs -> list_of ks vs = Returns v -> asked (XList cs) v
| q_raw_list : forall ks K cs l v, fresh ks -> fresh_keys K -> Forall2 literally cs l -> list_of_raw ks K l = Returns v -> asked (XList cs) v
| q_map : forall K fs l g, fresh_keys K -> NoDup (map fst fs) -> asked_fields fs l -> new_map K l = Returns g -> asked (XMap fs) (map_value (gmap_of g))
(* properties *)
| q_property : forall ks c v x, fresh ks -> asked c v -> x <> "" -> asked (XProp c x) (property_by_expression ks v x)
| q_property_of : forall ks n y x, fresh ks -> is_called n y -> x <> "" -> asked (XProp (XVar y) x) (property_of ks n x)
(* operators *)
| q_compute : forall ks o c d v w, fresh ks -> asked c v -> asked d w -> asked (XBin (computed o) c d) (compute ks o v w)
| q_compare : forall ks o c d v w, fresh ks -> asked c v -> asked d w -> asked (XBin (compared o) c d) (compare ks o v w)
| q_is_null : forall ks c v, fresh ks -> asked c v -> asked (XIsNull true c) (is_null ks v)
| q_is_not_null : forall ks c v, fresh ks -> asked c v -> asked (XIsNull false c) (is_not_null ks v)
| q_is_bool : forall ks b c v, fresh ks -> asked c v -> asked (XBin OEq c (XBool b)) (is_bool ks b v)
| q_matches : forall ks s c v, fresh ks -> asked c v -> asked (XBin OLike c (XStr s)) (matches_pattern ks v s)
| q_is_empty : forall ks c v w, fresh ks -> asked c v -> is_empty ks v = Returns w ->
    asked (XBin OEq (XCall ["size"] false [c]) (XNum "0")) w
(* slices *)
| q_sub_list : forall ks c a b v va vb, fresh ks -> asked c v -> asked a va -> asked b vb ->
    asked (XSlice c (Some a) (Some b)) (sub_list ks v va vb)
| q_sub_list_from : forall ks c a v va, fresh ks -> asked c v -> asked a va -> asked (XSlice c (Some a) None) (sub_list_from ks v va)
| q_sub_list_until : forall ks c b v vb, fresh ks -> asked c v -> asked b vb -> asked (XSlice c None (Some b)) (sub_list_until ks v vb)
| q_value_at : forall ks c i v vi, fresh ks -> asked c v -> asked i vi -> asked (XIndex c i) (value_at ks v vi)
(* functions *)
| q_fn1 : forall ks f c v w, fresh ks -> asked c v -> f <> CollectDistinct -> fn1_call ks f v = Returns w ->
    asked (XCall [fst (fn1_name f)] (snd (fn1_name f)) [c]) w
| q_coalesce : forall ks cs vs w, fresh ks -> asked_all cs vs -> cs <> [] -> coalesce ks vs = Returns w -> asked (XCall ["coalesce"] false cs) w
| q_distance : forall ks c d v w z, fresh ks -> asked c v -> asked d w -> distance ks v w = Returns z -> asked (XCall ["distance"] false [c; d]) z
| q_range : forall ks c d v w z, fresh ks -> asked c v -> asked d w -> range ks v w = Returns z -> asked (XCall ["range"] false [c; d]) z
| q_range_step : forall ks c d s v w u z, fresh ks -> asked c v -> asked d w -> asked s u -> range_with_step ks v w u = Returns z ->
    asked (XCall ["range"] false [c; d; s]) z
| q_named_call : forall ks what f n x w, fresh ks -> is_called n x -> named_call ks what f n = Returns w ->
    asked (XCall [fst (named_fn_name f)] (snd (named_fn_name f)) [XVar x]) w
| q_temporal_text : forall ks t s w, fresh ks -> s <> "" -> temporal_text ks t s = Returns w -> asked (XCall [temporal_name t] false [XStr s]) w
| q_temporal : forall ks t c v w, fresh ks -> asked c v -> temporal_expression ks t v = Returns w -> asked (XCall [temporal_name t] false [c]) w
| q_components : forall ks t m c w, fresh ks -> asked c (map_value m) -> temporal_components ks t m = Returns w ->
    asked (XCall [temporal_name t] false [c]) w
| q_point : forall ks m c w, fresh ks -> asked c (map_value m) -> point ks m = Returns w -> asked (XCall ["point"] false [c]) w
| q_point_of : forall ks c v w, fresh ks -> asked c v -> point_by_param ks v = Returns w -> asked (XCall ["point"] false [c]) w
| q_zone : forall ks K t z w, fresh ks -> fresh_keys K -> temporal_timezone ks K t (Some z) = Returns w ->
    asked (XCall [temporal_name t] false [XMap [("timezone", XStr z)]]) w
| q_percentile : forall ks (disc : bool) c v p w, fresh ks -> asked c v -> between_0_and_1 p -> n_neg p = false ->
    percentile ks disc false v (Finite p) = Returns w ->
    asked (XCall [if disc then "percentileDisc" else "percentileCont"] false [c; XNum (number_text p)]) w
| q_properties : forall ks m c w, fresh ks -> asked c (map_value m) -> properties_of_map ks m = Returns w -> asked (XCall ["properties"] false [c]) w
| q_calendar_date : forall ks K y m d w, fresh ks -> fresh_keys K -> short y -> short m -> short d -> calendar_date ks K y m d = Returns w ->
    asked (XCall ["date"] false [XMap [("year", integer y); ("month", integer m); ("day", integer d)]]) w
| q_week_date : forall ks K y m d w, fresh ks -> fresh_keys K -> short y -> short m -> short d -> week_date ks K y m d = Returns w ->
    asked (XCall ["date"] false [XMap [("year", integer y); ("week", integer m); ("dayOfWeek", integer d)]]) w
| q_quarter_date : forall ks K y m d w, fresh ks -> fresh_keys K -> short y -> short m -> short d -> quarter_date ks K y m d = Returns w ->
    asked (XCall ["date"] false [XMap [("year", integer y); ("quarter", integer m); ("dayOfQuarter", integer d)]]) w
| q_ordinal_date : forall ks K y d w, fresh ks -> fresh_keys K -> short y -> short d -> ordinal_date ks K y d = Returns w ->
    asked (XCall ["date"] false [XMap [("year", integer y); ("ordinalDay", integer d)]]) w
(* predicates *)
| q_has_labels : forall ks n x ls, fresh ks -> is_called (node_as_named n) x -> ls <> [] -> asked (XLabels (XVar x) ls) (has_labels ks n ls)
| q_exists : forall ks c v w, fresh ks -> asked c v -> predicate_exists ks v = Returns w -> asked (XCall ["exists"] false [c]) w
| q_quantified : forall ks k f name x l c vl vc w, fresh ks -> unaliased A k -> quantified f = Some name -> x <> "" -> asked l vl -> asked c vc ->
    predicate_where ks (predicate_in (predicate_create f (symbolic_name_create k x)) vl) vc = Returns w ->
    asked (XFilter name x l (Some c)) w
(* list comprehensions *)
| q_listed : forall ks k x l vl, fresh ks -> unaliased A k -> x <> "" -> asked l vl ->
    asked (XListComp x l None None) (list_returning_default ks (list_in (list_with (symbolic_name_create k x)) vl))
| q_filtered : forall ks k kw x l c vl vc, fresh ks -> unaliased A k -> unaliased A kw -> x <> "" -> asked l vl -> asked c vc ->
    asked (XListComp x l (Some c) None)
      (list_returning_default ks (list_where kw (list_in (list_with (symbolic_name_create k x)) vl) vc))
| q_mapped : forall ks k x l d vl vd w, fresh ks -> unaliased A k -> x <> "" -> asked l vl -> asked d vd ->
    list_returning ks (list_in (list_with (symbolic_name_create k x)) vl) [vd] = Returns w -> asked (XListComp x l None (Some d)) w
| q_filtered_mapped : forall ks k kw x l c d vl vc vd w, fresh ks -> unaliased A k -> unaliased A kw -> x <> "" -> asked l vl -> asked c vc -> asked d vd ->
    list_returning ks (list_where kw (list_in (list_with (symbolic_name_create k x)) vl) vc) [vd] = Returns w ->
    asked (XListComp x l (Some c) (Some d)) w
(* a copy of an element, in a container or outside of it *)
| q_copy : forall c s i j, asked c (Elem s i) -> asked c (Elem s j)
with asked_all : list cx -> list value -> Prop :=
| q_nil : asked_all [] []
| q_cons : forall c cs v vs, asked c v -> asked_all cs vs -> asked_all (c :: cs) (v :: vs)
(* names and values one after the other *)
with asked_fields : list (string * cx) -> list any -> Prop :=
| q_no_field : asked_fields [] []
| q_field : forall x c e i fs l, asked c (Elem (Good e) i) -> asked_fields fs l -> asked_fields ((x, c) :: fs) (AString x :: AExpr (GOk e) :: l)
| q_literal_field : forall x c v fs l, literally c v -> asked_fields fs l -> asked_fields ((x, c) :: fs) (AString x :: v :: l).
End Asked.

(** ** What the library can write

    [writable n c]: the library writes [c] so that it is read as [c] where an
    expression stands that has to bind as tightly as operators of level [n]
    (SpecReading.v).  Operations are put into parentheses, except for powers;
    comparisons are put into parentheses only if they are operands of
    comparisons. *)
Definition arithmetic (b : binop) : bool :=
  match b with OAdd | OSub | OMul | ODiv | OMod | OPow => true | _ => false end.
Definition comparison (c : cx) : bool := match c with XBin b _ _ => negb (arithmetic b) | XIsNull _ _ => true | _ => false end.
Definition label_test (c : cx) : bool := match c with XLabels _ _ => true | _ => false end.
(** The first element of a list: a comparison in this place would be read as the
    start of a comprehension. *)
Definition first_level (c : cx) : nat := match c with XNeg _ => 8 | _ => 10 end.

Section Writable.
Context (E : env).

Fixpoint writable (n : nat) (c : cx) {struct c} : Prop :=
  let operand m d := label_test d = false /\ writable (if comparison d then 0 else m) d in
  let if_any d := match d with Some x => writable 0 x | None => True end in
  match c with
  | XVar x => variable x
  | XParam x => is_identifier E x = true
  | XNeg (XNum _) => n <= 8
  | XProp d x => writable 10 d /\ blank x = false /\ x <> "*"
  | XBin b l r =>
      if arithmetic b then (b = OPow -> n <= 7) /\ writable (left_of b) l /\ writable (right_of b) r
      else n <= level_of b /\ operand (left_of b) l /\ operand (right_of b) r
  | XIsNull _ d => n <= 9 /\ operand 9 d
  | XList [] => True
  | XList (d :: ds) => writable (first_level d) d /\ (fix all l := match l with [] => True | x :: l => writable 0 x /\ all l end) ds
  | XMap fs => (fix all l := match l with [] => True | (x, d) :: l => (blank x = false /\ writable 0 d) /\ all l end) fs
  | XCall _ _ ds => (fix all l := match l with [] => True | x :: l => writable 0 x /\ all l end) ds
  | XIndex d i => writable 10 d /\ writable 0 i
  | XSlice d a b => writable 10 d /\ if_any a /\ if_any b
  | XLabels d ls => n <= 9 /\ writable 10 d /\ Forall (fun l => l <> "") ls
  | XFilter _ x l w => variable x /\ writable 0 l /\ if_any w
  | XListComp x l w d => variable x /\ writable 0 l /\ if_any w /\ if_any d
  | _ => True
  end.
End Writable.
