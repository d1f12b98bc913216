(** Specification of balanced texts: the characters of a Cypher text outside of
    quoted names and string literals, and what it means that every bracket
    among them is closed by a bracket of its kind.  Comments are not
    considered: the library writes none. *)

From Coq Require Import Ascii String List Bool.
Import ListNotations.
Open Scope string_scope.

(** Where a reader is: in the code, inside a quoted part, or after a backslash
    in a string literal. *)
Inductive mode := Code | Quoted (q : ascii) | Escaped (q : ascii).

Definition is_quote (a : ascii) : bool :=
  Ascii.eqb a "`" || Ascii.eqb a "'" || Ascii.eqb a (ascii_of_nat 34).

(** A quoted part ends with the quote it began with.  In string literals a
    backslash escapes the next character; in names it does not.  A doubled
    back-quote in a name is read as the end of the name and the start of
    another: nothing is in between. *)
Definition next_mode (m : mode) (a : ascii) : mode :=
  match m with
  | Code => if is_quote a then Quoted a else Code
  | Quoted q => if Ascii.eqb a q then Code
                else if (Ascii.eqb a "\" && negb (Ascii.eqb q "`"))%bool then Escaped q
                else Quoted q
  | Escaped q => Quoted q
  end.

(** The characters in the code, and where the reader is at the end. *)
Fixpoint code (m : mode) (s : string) : list ascii * mode :=
  match s with
  | EmptyString => ([], m)
  | String a r =>
      let (l, m') := code (next_mode m a) r in
      (match m with Code => if is_quote a then l else a :: l | _ => l end, m')
  end.

(** The kinds of brackets. *)
Definition pairs : list (ascii * ascii) := [("(", ")"); ("[", "]"); ("{", "}")]%char.
Definition is_bracket (a : ascii) : Prop := exists o c, In (o, c) pairs /\ (a = o \/ a = c).

(** Every bracket is closed by one of its kind. *)
Inductive matched_brackets : list ascii -> Prop :=
| mb_nil : matched_brackets []
| mb_char : forall a l, ~ is_bracket a -> matched_brackets l -> matched_brackets (a :: l)
| mb_pair : forall o c l l', In (o, c) pairs -> matched_brackets l -> matched_brackets l' ->
            matched_brackets (o :: l ++ c :: l').

(** A balanced text: its quoted parts are closed, and so are its brackets. *)
Definition balanced (s : string) : Prop := exists l, code Code s = (l, Code) /\ matched_brackets l.
