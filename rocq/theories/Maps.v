(** Model of map expressions and map projections: map_expression.go,
    map_projection.go, entry_expression.go, key_value_map_entry.go,
    property_lookup.go.

    Keys of new elements are given by functions of the position; nothing is
    assumed about them. *)

From Coq Require Import Ascii String List ZArith Bool.
From Verif Require Import GoStr Escape Num VTree Ast GoVal.
Import ListNotations.
Open Scope string_scope.

Definition known (k : string) (l : list string) : bool := existsb (String.eqb k) l.

(** entry_expression.go:12-26 [EntryExpressionCreate]. *)
Definition entry_create (k : key) (name : string) (v : gval) : gval :=
  match v with
  | GErr _ m => GErr TOther m
  | GOk e => GOk (EEntry k name e)
  end.

(** map_expression.go:15-28 [MapExpressionCreate]. *)
Definition map_create (k : key) (contents : list gval) : gval :=
  match first_error contents with
  | Some m => GErr TOther m
  | None => GOk (EMap k (sound_exprs contents))
  end.

(** Keys of the elements made by a call: of the map, of the literals and
    entries by position, of NIL_INSTANCE. *)
Record keys := Keys { k_self : key; k_lit : nat -> key; k_entry : nat -> key; k_null : key }.

(** map_expression.go:58-72, the loop; [inl]: an early return with an error.
    Both branches of the loop over pairs look at two arguments; the length is
    even. *)
Fixpoint map_loop (K : keys) (i : nat) (seen : list string) (objs : list any)
  : outcome (string + list gval) :=
  match objs with
  | o :: v :: rest =>
      match o with
      | AString key =>
          let value := match v with
                       | AExpr g => Returns g
                       | _ => literal_of (k_null K) (k_lit K i) v
                       end in
          match value with
          | Returns g =>
              if known key seen then Returns (inl "duplicate key")
              else match map_loop K (S i) (key :: seen) rest with
                   | Returns (inr l) => Returns (inr (entry_create (k_entry K i) key g :: l))
                   | r => r
                   end
          | Panics => Panics
          | Diverges => Diverges
          end
      | _ => Returns (inl "key must be string")
      end
  | _ => Returns (inr [])
  end.

(** map_expression.go:52-74 [NewMapExpression]; cypher.go [MapOf] calls it. *)
Definition new_map (K : keys) (objs : list any) : outcome gval :=
  if Nat.odd (length objs) then Returns (GErr TOther "new map expression")
  else match map_loop K 0 [] objs with
       | Returns (inl m) => Returns (GErr TOther m)
       | Returns (inr l) => Returns (map_create (k_self K) l)
       | Panics => Panics
       | Diverges => Diverges
       end.

(** ** Map projections *)

(** map_projection.go:96-107 [contentAt]: expressions stay, named elements
    become their symbolic names. *)
Inductive content := CText (s : string) | CExpr (g : gval) | CNone.

Definition content_at (v : any) : content :=
  match v with
  | AString s => CText s
  | AExpr g => CExpr g
  | ANamed (Some (k, n)) => CExpr (GOk (ESym k n))
  | _ => CNone
  end.

(** What one step of the loop makes: an entry or an error.  [EBroken] is the
    entry made from an aliased expression with an error: its value is a nil
    interface, and rendering it panics. *)
Inductive made := MEntry (e : expr) | MBroken | MError (m : string).

(** map_projection.go:139-141: an asterisk becomes the lookup "*". *)
Definition star_lookup (k : key) (g : gval) : gval :=
  match type_of g with TAsterisk => GOk (ELookup k "*") | _ => g end.

(** map_projection.go:143-166, the entry for [lastKey] and [lastExpression];
    [seen]: the keys known.  key_value_map_entry.go:12-23. *)
Definition make_entry (k kl : key) (seen : list string) (name : string) (g0 : gval) : made :=
  let g := star_lookup kl g0 in
  if String.eqb name "" then
    match g with
    | GOk (ESym k' n) => MEntry (ESym k' n)
    | GOk (ELookup k' n) => MEntry (ELookup k' n)
    | GOk (EProp _ _ n) => MEntry n                     (* aProperty.getName() *)
    | GOk (EAlias _ _ e a) => MEntry (EEntry k a e)
    | GOk _ => MError "unknown type"
    | GErr TSymbolicName m | GErr TPropertyLookup m => MError m
    | GErr TProperty _ => MEntry (ELookup "" "")        (* the zero PropertyLookup has no error *)
    | GErr TAliased _ => MBroken
    | GErr _ _ => MError "unknown type"
    end
  else if known name seen then MError "duplicate key"
  else match g with
       | GOk e => MEntry (EEntry k name e)
       | GErr _ m => MError m
       end.

(** Result of map_projection.go:109-172 [createNewContent]. *)
Inductive contents := Entries (es : list expr) | Broken | Failed (m : string).

Definition push (x : made) (r : contents) : contents :=
  match x with
  | MError m => Failed m
  | MEntry e => match r with Entries es => Entries (e :: es) | other => other end
  | MBroken => match r with Failed m => Failed m | _ => Broken end
  end.

(** map_projection.go:115-170, the loop: a string followed by an expression is
    a key and its value; a string alone is a lookup. *)
Fixpoint new_content (K : keys) (i : nat) (seen : list string) (content : list any) : contents :=
  match content with
  | [] => Entries []
  | v :: rest =>
      match content_at v with
      | CText s =>
          let alone := push (make_entry (k_entry K i) (k_lit K i) seen "" (GOk (ELookup (k_lit K i) s)))
                            (new_content K (S i) seen rest) in
          match rest with
          | v' :: rest' =>
              match content_at v' with
              | CExpr g => push (make_entry (k_entry K i) (k_lit K i) seen s g)
                                (new_content K (S i) (if String.eqb s "" then seen else s :: seen) rest')
              | _ => alone
              end
          | [] => alone
          end
      | CExpr g => push (make_entry (k_entry K i) (k_lit K i) seen "" g) (new_content K (S i) seen rest)
      | CNone => Failed "could not determine an expression"
      end
  end.

(** A MapProjection: its name and the entries of its map, or an error, or one
    whose rendering panics. *)
Inductive projection := Proj (k : key) (name : expr) (km : key) (es : list expr) | ProjBroken | ProjErr (m : string).

(** map_projection.go:17-33 [MapProjectionCreate]; node.go:226-228 [Project]. *)
Definition projection_create (K : keys) (km : key) (name : gval) (content : list any) : projection :=
  match name with
  | GErr _ m => ProjErr m
  | GOk n => match new_content K 0 [] content with
             | Failed m => ProjErr m
             | Broken => ProjBroken
             | Entries es => Proj (k_self K) n km es
             end
  end.

(** map_projection.go:85-94 [And], 35-49, map_expression.go:92-101 [AddEntries]. *)
Definition projection_and (K : keys) (km : key) (p : projection) (content : list any) : projection :=
  match p with
  | ProjErr m => ProjErr m
  | ProjBroken => match new_content K 0 [] content with Failed m => ProjErr m | _ => ProjBroken end
  | Proj _ n _ es => match new_content K 0 [] content with
                     | Failed m => ProjErr m
                     | Broken => ProjBroken
                     | Entries es' => Proj (k_self K) n km (es ++ es')%list
                     end
  end.

(** map_projection.go:60-71: what is rendered. *)
Definition projection_expr (p : projection) : option expr :=
  match p with Proj k n km es => Some (EMapProj k n (EMap km es)) | _ => None end.
