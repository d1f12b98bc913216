(** Specification: how a Cypher lexer reads names, labels, types, string
    literals, parameters and numbers.  Independent of the model: nothing here
    mentions an escaping function. *)

From Coq Require Import Ascii String List ZArith Bool.
From Verif Require Import GoStr.
Import ListNotations.
Open Scope string_scope.

(** After an opening back-quote: a doubled back-quote stands for one, a single
    one ends the name.  Result: the name and the remaining text. *)
Fixpoint lex_quoted (s : string) : option (string * string) :=
  match s with
  | EmptyString => None
  | String a r =>
      if Ascii.eqb a "`" then
        match r with
        | String b r' =>
            if Ascii.eqb b "`" then
              match lex_quoted r' with
              | Some (n, t) => Some (String "`" n, t)
              | None => None
              end
            else Some ("", r)
        | EmptyString => Some ("", r)
        end
      else match lex_quoted r with
           | Some (n, t) => Some (String a n, t)
           | None => None
           end
  end.

(** Unquoted identifiers: a letter or underscore followed by letters, digits
    and underscores, as many as there are. *)
Definition id_start (E : env) (c : N) : Prop := is_letter E c = true \/ c = 95%N.
Definition id_part (E : env) (c : N) : Prop := id_start E c \/ is_digit E c = true.

Definition id_startb (E : env) (c : N) : bool := is_letter E c || N.eqb c 95.
Definition id_partb (E : env) (c : N) : bool := id_startb E c || is_digit E c.

Fixpoint id_span (E : env) (first : bool) (s : string) (skip : nat) : string * string :=
  match s with
  | EmptyString => ("", "")
  | String a r =>
      match skip with
      | S k => let (n, t) := id_span E first r k in (String a n, t)
      | O =>
          let (c, w) := decode a r in
          if (if first then id_startb E c else id_partb E c)
          then let (n, t) := id_span E false r (pred w) in (String a n, t)
          else ("", s)
      end
  end.

(** An identifier token (symbolic name): the name it denotes and the rest. *)
Definition lex_ident (E : env) (s : string) : option (string * string) :=
  match s with
  | EmptyString => None
  | String a r =>
      if Ascii.eqb a "`" then lex_quoted r
      else match id_span E true s 0 with
           | (EmptyString, _) => None
           | (n, t) => Some (n, t)
           end
  end.

(** A name that needs no quoting. *)
Definition plain_ident (E : env) (n : string) : Prop :=
  match runes n with
  | [] => False
  | c :: l => id_start E c /\ Forall (id_part E) l
  end.

(** The text [s] does not continue an identifier: it is empty, or its first
    rune is neither an identifier part nor a back-quote. *)
Definition ends_ident (E : env) (s : string) : Prop :=
  match s with
  | EmptyString => True
  | String a r => a <> "`"%char /\ ~ id_part E (fst (decode a r))
  end.

(** A label: colon, then an identifier. *)
Definition lex_label (E : env) (s : string) : option (string * string) :=
  match s with
  | String a r => if Ascii.eqb a ":" then lex_ident E r else None
  | EmptyString => None
  end.

(** Relationship types: a colon, then identifiers separated by '|'. *)
Fixpoint lex_bars (E : env) (fuel : nat) (s : string) : option (list string * string) :=
  match fuel with
  | O => None
  | S f =>
      match lex_ident E s with
      | None => None
      | Some (n, t) =>
          match t with
          | String a r =>
              if Ascii.eqb a "|" then
                match lex_bars E f r with
                | Some (ns, t') => Some (n :: ns, t')
                | None => None
                end
              else Some ([n], t)
          | EmptyString => Some ([n], t)
          end
      end
  end.

Definition lex_types (E : env) (s : string) : option (list string * string) :=
  match s with
  | String a r => if Ascii.eqb a ":" then lex_bars E (S (String.length r)) r else None
  | EmptyString => None
  end.

(** String literals in single quotes: escapes for backslash, both quotes and
    the control characters; any other escape is rejected. *)
Definition unescape (a : ascii) : option ascii :=
  if Ascii.eqb a "\" then Some "\"%char
  else if Ascii.eqb a "'" then Some "'"%char
  else if Ascii.eqb a (ascii_of_nat 34) then Some (ascii_of_nat 34)
  else if Ascii.eqb a "b" then Some (ascii_of_nat 8)
  else if Ascii.eqb a "t" then Some (ascii_of_nat 9)
  else if Ascii.eqb a "n" then Some (ascii_of_nat 10)
  else if Ascii.eqb a "f" then Some (ascii_of_nat 12)
  else if Ascii.eqb a "r" then Some (ascii_of_nat 13)
  else None.

(** A character [q] occurs that no backslash escapes. *)
Fixpoint bare (q : ascii) (s : string) : bool :=
  match s with
  | EmptyString => false
  | String a r =>
      if Ascii.eqb a "\" then match r with EmptyString => false | String _ r' => bare q r' end
      else Ascii.eqb a q || bare q r
  end.

Fixpoint lex_string_body (s : string) : option (string * string) :=
  match s with
  | EmptyString => None
  | String a r =>
      if Ascii.eqb a "'" then Some ("", r)
      else if Ascii.eqb a "\" then
        match r with
        | EmptyString => None
        | String b r' =>
            match unescape b, lex_string_body r' with
            | Some c, Some (v, t) => Some (String c v, t)
            | _, _ => None
            end
        end
      else match lex_string_body r with
           | Some (v, t) => Some (String a v, t)
           | None => None
           end
  end.

Definition lex_string (s : string) : option (string * string) :=
  match s with
  | String a r => if Ascii.eqb a "'" then lex_string_body r else None
  | EmptyString => None
  end.

(** A parameter: dollar sign, then an identifier. *)
Definition lex_param (E : env) (s : string) : option (string * string) :=
  match s with
  | String a r => if Ascii.eqb a "$" then lex_ident E r else None
  | EmptyString => None
  end.

(** Decimal integers: an optional minus sign and at least one digit. *)
Definition digit_val (a : ascii) : option Z :=
  let x := byte a in
  if in_range 48 x 57 then Some (Z.of_N x - 48)%Z else None.

Fixpoint lex_digits (acc : Z) (s : string) : Z * string :=
  match s with
  | EmptyString => (acc, s)
  | String a r =>
      match digit_val a with
      | Some d => lex_digits (10 * acc + d) r
      | None => (acc, s)
      end
  end.

Definition lex_nat (s : string) : option (Z * string) :=
  match s with
  | String a r => match digit_val a with
                  | Some d => Some (lex_digits d r)
                  | None => None
                  end
  | EmptyString => None
  end.

Definition lex_int (s : string) : option (Z * string) :=
  match s with
  | String a r =>
      if Ascii.eqb a "-" then
        match lex_nat r with Some (v, t) => Some ((- v)%Z, t) | None => None end
      else lex_nat s
  | EmptyString => None
  end.

(** The text [s] does not continue a number. *)
Definition ends_number (s : string) : Prop :=
  match s with
  | EmptyString => True
  | String a _ => digit_val a = None
  end.

(** Length of a variable-length relationship: '*' alone, or '*' with optional
    bounds around '..'. *)
Inductive len_spec := AnyLength | Between (lo hi : option Z).

Definition opt_int (s : string) : option Z * string :=
  match lex_int s with Some (v, t) => (Some v, t) | None => (None, s) end.

Definition lex_length (s : string) : option (len_spec * string) :=
  match s with
  | String "*" r =>
      let (lo, t) := opt_int r in
      match t with
      | String "." (String "." u) => let (hi, v) := opt_int u in Some (Between lo hi, v)
      | _ => match lo with None => Some (AnyLength, t) | Some _ => None end
      end
  | _ => None
  end.

(** What the bounds of a variable-length relationship mean, and the texts that
    do not continue a length. *)
Definition len_value (unbounded : bool) (lo hi : option Z) : option len_spec :=
  if unbounded then Some AnyLength
  else match lo, hi with None, None => None | _, _ => Some (Between lo hi) end.

Definition ends_length (s : string) : Prop :=
  match s with
  | EmptyString => True
  | String a _ => digit_val a = None /\ a <> "-"%char /\ a <> "."%char
  end.

(** [k] dollar signs. *)
Fixpoint dollars (k : nat) : string := match k with O => "" | S k' => "$" ++ dollars k' end.

(** Texts that do not start with a back-quote, with a bar. *)
Definition no_tick (s : string) : Prop :=
  match s with String a _ => a <> "`"%char | EmptyString => True end.

Definition no_bar (s : string) : Prop :=
  match s with String a _ => a <> "|"%char | EmptyString => True end.
