(** Specification of the tokens of a Cypher text: words, names in back-quotes,
    string literals, numbers and marks.  Independent of the model: nothing here
    mentions an element of a statement. *)

From Coq Require Import Ascii String List ZArith Bool.
From Verif Require Import GoStr SpecLex SpecNum SpecSpace.
Import ListNotations.
Open Scope string_scope.

Inductive token :=
| Word (n : string)           (* keyword or name without quotes *)
| Name (n : string)           (* name in back-quotes: what it denotes *)
| Literal (s : string)        (* string literal: what it denotes *)
| Number (s : string)         (* its characters *)
| Mark (s : string).          (* operators and punctuation *)

(** What follows [e] in [s], if [s] starts with [e]. *)
Fixpoint after (e s : string) : option string :=
  match e with
  | "" => Some s
  | String a e' => match s with
                   | String b s' => if Ascii.eqb a b then after e' s' else None
                   | "" => None
                   end
  end.

Fixpoint after_any (es : list string) (s : string) : option (string * string) :=
  match es with
  | [] => None
  | e :: es' => match after e s with Some r => Some (e, r) | None => after_any es' s end
  end.

(** String literals end with the quote they began with. *)
Fixpoint lex_literal (q : ascii) (s : string) : option (string * string) :=
  match s with
  | "" => None
  | String a r =>
      if Ascii.eqb a q then Some ("", r)
      else if Ascii.eqb a "\" then
        match r with
        | "" => None
        | String b r' =>
            match unescape b, lex_literal q r' with
            | Some c, Some (v, t) => Some (String c v, t)
            | _, _ => None
            end
        end
      else match lex_literal q r with
           | Some (v, t) => Some (String a v, t)
           | None => None
           end
  end.

(** Numbers: digits, a fraction, an exponent, as much as there is. *)
Definition fraction (s : string) : string * string :=
  match s with
  | String a r => if Ascii.eqb a "." then
                    let (d, t) := span r in if String.eqb d "" then ("", s) else (String a d, t)
                  else ("", s)
  | "" => ("", "")
  end.

Definition sign (s : string) : string * string :=
  match s with
  | String a r => if (Ascii.eqb a "+" || Ascii.eqb a "-")%bool then (String a "", r) else ("", s)
  | "" => ("", "")
  end.

Definition exponent (s : string) : string * string :=
  match s with
  | String a r => if (Ascii.eqb a "e" || Ascii.eqb a "E")%bool then
                    let (g, r') := sign r in
                    let (d, t) := span r' in
                    if String.eqb d "" then ("", s) else (String a (g ++ d), t)
                  else ("", s)
  | "" => ("", "")
  end.

Definition lex_number (s : string) : option (string * string) :=
  let (i, s1) := span s in
  let (f, s2) := fraction s1 in
  if String.eqb (i ++ f) "" then None
  else let (x, s3) := exponent s2 in Some (i ++ f ++ x, s3).

(** The text goes on with a character of a name. *)
Definition runs_on (E : env) (s : string) : bool :=
  match s with
  | "" => false
  | String a r => id_partb E (fst (decode a r))
  end.

(** Marks of two characters. *)
Definition long_marks : list string := [".."; "<>"; "<="; ">="; "=~"; "+="].
Definition comments : list string := ["//"; "/*"].

(** One step: white space or a token, and what follows.  No result: a comment,
    a quote that is not closed, a number that runs into a name, a character
    outside of quotes that is neither in ASCII nor a letter. *)
Definition lex_one (E : env) (s : string) : option (list token * string) :=
  match s with
  | "" => None
  | String a r =>
      match after_any space_encodings s with
      | Some (_, t) => Some ([], t)
      | None =>
      if Ascii.eqb a "`" then match lex_quoted r with Some (n, t) => Some ([Name n], t) | None => None end
      else if (Ascii.eqb a "'" || Ascii.eqb a (ascii_of_nat 34))%bool
      then match lex_literal a r with Some (v, t) => Some ([Literal v], t) | None => None end
      else match lex_number s with
           | Some (n, t) => if runs_on E t then None else Some ([Number n], t)
           | None =>
      match after_any comments s with
      | Some _ => None
      | None =>
      match after_any long_marks s with
      | Some (m, t) => Some ([Mark m], t)
      | None =>
      match id_span E true s 0 with
      | (String b n, t) => Some ([Word (String b n)], t)
      | ("", _) => if N.ltb (byte a) 128 then Some ([Mark (String a "")], r) else None
      end end end end end
  end.

(** All tokens of a text. *)
Fixpoint lex_upto (E : env) (n : nat) (s : string) : option (list token) :=
  match s with
  | "" => Some []
  | _ => match n with
         | O => None
         | S n' => match lex_one E s with
                   | Some (t, r) => option_map (app t) (lex_upto E n' r)
                   | None => None
                   end
         end
  end.

Definition tokens (E : env) (s : string) : option (list token) := lex_upto E (String.length s) s.

(** White space is no part of a name: a fact about the Unicode tables that
    letters and digits are taken from. *)
Definition no_space_in_names (E : env) : Prop :=
  forall c, In c space_code_points -> id_partb E c = false.

(** Lexing several texts, each by itself. *)
Fixpoint tokens_each (E : env) (l : list string) : option (list token) :=
  match l with
  | [] => Some []
  | s :: l' => match tokens E s, tokens_each E l' with
               | Some a, Some b => Some (a ++ b)%list
               | _, _ => None
               end
  end.

(** Texts that can stand behind any token: nothing, or a text that starts with
    one of these characters, and not with a fraction. *)
Definition delimiters : list ascii :=
  [" "; ","; "("; ")"; "["; "]"; "{"; "}"; ":"; "."; "^"; "|"; "-"; "*"; "<"]%char.

Definition stop (b : string) : Prop :=
  match b with
  | "" => True
  | String a r => In a delimiters
                  /\ (a = "."%char -> match r with "" => True | String d _ => digit_val d = None end)
  end.

(** A text whose tokens are the same whatever stands behind it. *)
Definition self_contained (E : env) (s : string) : Prop :=
  exists ts, forall b tb, stop b -> tokens E b = Some tb -> tokens E (s ++ b) = Some (ts ++ tb)%list.
