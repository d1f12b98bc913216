(** Specification: maps and map projections given by argument lists. *)

From Coq Require Import Ascii String List ZArith Bool.
From Verif Require Import GoStr Num VTree Ast GoVal.
Import ListNotations.
Open Scope string_scope.

(** The pairs of a flat argument list: string keys at the even positions. *)
Fixpoint pairs_of (objs : list any) : option (list (string * any)) :=
  match objs with
  | [] => Some []
  | AString key :: v :: rest => option_map (cons (key, v)) (pairs_of rest)
  | _ => None
  end.

(** [stands_for v e]: the argument [v] is written as the expression [e]. *)
Inductive stands_for : any -> expr -> Prop :=
| S_nil k : stands_for ANil (ENull k)
| S_string k s : stands_for (AString s) (EStr k s)
| S_int k z : stands_for (AInt z) (ENum k (num_of_Z z))
| S_float k n : stands_for (AFloat n) (ENum k n)
| S_bool k b : stands_for (ABool b) (EBool k b)
| S_list k l es : Forall2 (fun g e => g = GOk e) l es -> stands_for (ALiterals l) (EListLit k es)
| S_expr e : stands_for (AExpr (GOk e)) e.

(** [carries v m]: the argument carries an error; [unsupported v]: there is no
    literal of its type. *)
Definition carries (v : any) (m : string) : Prop :=
  match v with
  | AExpr (GErr _ m') => m = m'
  | ALiterals l => first_error l = Some m
  | _ => False
  end.

Definition unsupported (v : any) : Prop :=
  match v with ANamed _ | AOther => True | _ => False end.

(** An entry  key: value  of a map. *)
Definition entry_for (p : string * any) (e : expr) : Prop :=
  exists k x, e = EEntry k (fst p) x /\ stands_for (snd p) x.

(** ** Projections *)

(** The items of a projection: [key: value], a property of the node, a
    variable. *)
Inductive item :=
| IKeyed (key : string) (value : expr)          (* key: value *)
| IProperty (name : string)                     (* .name *)
| IVariable (name : string).                    (* name *)

(** [expression v e]: the argument is an expression, or a named element, which
    stands for its name. *)
Inductive expression : any -> expr -> Prop :=
| X_expr e : expression (AExpr (GOk e)) e
| X_named k n : expression (ANamed (Some (k, n))) (ESym k n).

(** The item an expression without a key stands for. *)
Inductive implicit : expr -> item -> Prop :=
| I_sym k n : implicit (ESym k n) (IVariable n)
| I_lookup k n : implicit (ELookup k n) (IProperty n)
| I_prop k c k' n : implicit (EProp k c (ELookup k' n)) (IProperty n)
| I_star k : implicit (EAsterisk k) (IProperty "*")
| I_alias k dk e a : implicit (EAlias k dk e a) (IKeyed a e).

(** An asterisk given as a value is the lookup of all properties. *)
Inductive value_of : expr -> expr -> Prop :=
| V_star k k' : value_of (EAsterisk k) (ELookup k' "*")
| V_other e : gtype_of e <> TAsterisk -> value_of e e.

(** [items content l]: the argument list denotes the items [l].  A string
    followed by an expression is its key; a string not followed by one is the
    name of a property. *)
Inductive items : list any -> list item -> Prop :=
| Is_nil : items [] []
| Is_keyed s v e x rest l :
    s <> "" -> expression v e -> value_of e x -> items rest l ->
    items (AString s :: v :: rest) (IKeyed s x :: l)
| Is_property s rest l :
    (forall v rest' g, rest = v :: rest' -> v <> AExpr g /\ (forall n, v <> ANamed (Some n))) ->
    items rest l -> items (AString s :: rest) (IProperty s :: l)
| Is_implicit v e i rest l :
    expression v e -> implicit e i -> items rest l -> items (v :: rest) (i :: l).

(** How an item is written in the projection. *)
Inductive written_as : item -> expr -> Prop :=
| W_keyed k key x : written_as (IKeyed key x) (EEntry k key x)
| W_property k n : written_as (IProperty n) (ELookup k n)
| W_variable k n : written_as (IVariable n) (ESym k n).

(** The keys given explicitly, as strings in front of their values. *)
Fixpoint explicit_keys (content : list any) : list string :=
  match content with
  | AString s :: ((AExpr _ | ANamed (Some _)) :: rest) => s :: explicit_keys rest
  | _ :: rest => explicit_keys rest
  | [] => []
  end.

(** Arguments that Go's types allow: the lookup of a property is a
    PropertyLookup, and no Asterisk carries an error. *)
Definition go_typed (v : any) : Prop :=
  match v with
  | AExpr (GOk (EProp _ _ n)) => exists k x, n = ELookup k x
  | AExpr (GErr TAsterisk _) => False
  | _ => True
  end.

(** Items up to the identity of the lookups of all properties. *)
Inductive same_item : item -> item -> Prop :=
| SI_refl i : same_item i i
| SI_star s k k' : same_item (IKeyed s (ELookup k "*")) (IKeyed s (ELookup k' "*")).
