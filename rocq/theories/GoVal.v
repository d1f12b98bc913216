(** Values that the constructors of /repo take and return.

    Elements carry their error inside ([err] field, [GetError]) and a flag
    ([notNil] field, [isNotNil]) that is false for zero values.  Arguments of
    type interface{} are [any].  Calls that panic and calls that never return
    are outcomes. *)

From Coq Require Import Ascii String List ZArith Bool.
From Verif Require Import GoStr Escape Num VTree Ast.
Import ListNotations.
Open Scope string_scope.

(** The Go types that some constructor distinguishes (map_projection.go:139-162). *)
Inductive gtype := TSymbolicName | TPropertyLookup | TProperty | TAliased | TAsterisk | TOther.

Definition gtype_of (e : expr) : gtype :=
  match e with
  | ESym _ _ => TSymbolicName
  | ELookup _ _ => TPropertyLookup
  | EProp _ _ _ => TProperty
  | EAlias _ _ _ _ => TAliased
  | EAsterisk _ => TAsterisk
  | _ => TOther
  end.

(** A value of an element type: without error, or the zero value with an error
    (every [...Error] constructor, e.g. symbolic_name.go:38-42). *)
Inductive gval :=
| GOk (e : expr)
| GErr (t : gtype) (msg : string).

(** The [GetError] methods. *)
Definition error_of (g : gval) : option string :=
  match g with GOk _ => None | GErr _ m => Some m end.

Definition type_of (g : gval) : gtype :=
  match g with GOk e => gtype_of e | GErr t _ => t end.

(** Arguments of type interface{}.  No Go type implements both Expression and
    Named.  [AFloat] is a finite float64. *)
Inductive any :=
| ANil
| AString (s : string)
| AInt (z : Z)
| AFloat (n : num)
| ABool (b : bool)
| ALiterals (l : list gval)                    (* []Literal *)
| AExpr (g : gval)                             (* an Expression *)
| ANamed (name : option (key * string))        (* a Node, Relationship or NamedPath *)
| AOther.                                      (* any other type *)

(** What a call does. *)
Inductive outcome (A : Type) :=
| Returns (a : A)
| Panics
| Diverges.
Arguments Returns {A} a.
Arguments Panics {A}.
Arguments Diverges {A}.

(** The first error in a list of values, e.g. map_expression.go:16-20,
    list_literal.go:14-18. *)
Fixpoint first_error (l : list gval) : option string :=
  match l with
  | [] => None
  | g :: l' => match error_of g with Some m => Some m | None => first_error l' end
  end.

(** The elements of the list without errors. *)
Definition sound_exprs (l : list gval) : list expr :=
  flat_map (fun g => match g with GOk e => [e] | GErr _ _ => [] end) l.

(** list_literal.go:13-26 [ListLiteralCreate]. *)
Definition list_literal_create (k : key) (l : list gval) : gval :=
  match first_error l with
  | Some m => GErr TOther m
  | None => GOk (EListLit k (sound_exprs l))
  end.

(** string_literal.go:34-36 [StringLiteralError] calls itself unconditionally. *)
Definition string_literal_error : outcome gval := Diverges.

(** cypher.go:545-566 [LiteralOf]; [knull]: the key of NIL_INSTANCE,
    [k]: the key of the new literal. *)
Definition literal_of (knull k : key) (v : any) : outcome gval :=
  match v with
  | ANil => Returns (GOk (ENull knull))
  | AString s => Returns (GOk (EStr k s))
  | AInt z => Returns (GOk (ENum k (num_of_Z z)))
  | AFloat n => Returns (GOk (ENum k n))
  | ALiterals l => Returns (list_literal_create k l)
  | ABool b => Returns (GOk (EBool k b))
  | AExpr _ | ANamed _ | AOther => string_literal_error
  end.
