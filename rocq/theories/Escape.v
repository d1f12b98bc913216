(** Escaping of names and string literals, parameters and relationship lengths. *)

From Coq Require Import Ascii String List ZArith Bool.
From Verif Require Import GoStr.
Import ListNotations.
Open Scope string_scope.

(** The bytes with a meaning in names and literals. *)
Definition backtick : ascii := "`"%char.
Definition quote : ascii := "'"%char.
Definition dquote : ascii := ascii_of_nat 34.
Definition backslash : ascii := "\"%char.

(** cypher_renderer.go:192-194 [escapeName]. *)
Definition escape_name (name : string) : string :=
  "`" ++ replace_all backtick "``" name ++ "`".

(** cypher_renderer.go:203-211 [isIdentifier]: the loop over the runes of the
    name; the first rune has i == 0. *)
Definition ident_first (E : env) (c : N) : bool := (is_letter E c || N.eqb c 95)%bool.
Definition ident_next (E : env) (c : N) : bool := (is_letter E c || N.eqb c 95 || is_digit E c)%bool.

Definition is_identifier (E : env) (name : string) : bool :=
  match runes name with
  | [] => false
  | c :: l => (ident_first E c && forallb (ident_next E) l)%bool
  end.

(** cypher_renderer.go:196-201 [EscapeIfNecessary]. *)
Definition blank (name : string) : bool := String.eqb (trim_space name) "".

Definition escape_if_necessary (E : env) (name : string) : string :=
  if (blank name || is_identifier E name)%bool then name
  else "`" ++ replace_all backtick "``" name ++ "`".

(** cypher_renderer.go:70-79 [resolve]: resolvedSymbolicNames is never written,
    so only the first branch exists. *)
Definition resolve (E : env) (value : string) : string :=
  if String.eqb value "" then e_guid E else escape_if_necessary E value.

(** string_literal.go:16-22, 46-53 [escapeStringLiteral]: the regular
    expression matches one backslash, single or double quote; each is replaced
    by its entry of CHARACTER_MAP. *)
Fixpoint escape_string (s : string) : string :=
  match s with
  | EmptyString => EmptyString
  | String a r =>
      if (Ascii.eqb a backslash || Ascii.eqb a quote || Ascii.eqb a dquote)%bool
      then String backslash (String a (escape_string r))
      else String a (escape_string r)
  end.

(** string_literal.go:67-69 [AsString]: '%s'. *)
Definition string_literal (s : string) : string := "'" ++ escape_string s ++ "'".

(** parameter.go:16-30 [the constructor]: strips leading '$', the empty name is
    an error ([None]).  The result is the stored name. *)
Fixpoint param_name (name : string) : option string :=
  match name with
  | EmptyString => None
  | String a r => if Ascii.eqb a "$"%char then param_name r else Some name
  end.

(** parameter.go:47-49 [enter]. *)
Definition param_text (stored : string) : string := "$" ++ stored.

(** property_lookup.go:33-40 [enter]; ASTERISK.content is "*". *)
Definition lookup_text (E : env) (name : string) : string :=
  "." ++ (if String.eqb name "*" then name else escape_if_necessary E name).

(** node.go:267-273 [NodeLabel.enter]. *)
Definition label_text (value : string) : string :=
  if String.eqb value "" then "" else ":" ++ escape_name value.

(** relationship_type.go:44-55 [enter]. *)
Definition rel_types_text (values : list string) : string :=
  match values with
  | [] => ""
  | _ => ":" ++ join "|" (map escape_name (filter (fun v => negb (String.eqb v "")) values))
  end.

(** relationship_length.go:43-61 [enter]. *)
Definition rel_length_text (unbounded : bool) (minimum maximum : option Z) : string :=
  if unbounded then "*"
  else match minimum, maximum with
       | None, None => ""
       | _, _ => "*" ++ (match minimum with Some m => itoa m | None => "" end)
                     ++ ".." ++ (match maximum with Some m => itoa m | None => "" end)
       end.
