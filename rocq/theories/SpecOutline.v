(** Specification of the outline of a Cypher text: the words that begin clauses
    and their parts, and the commas between items, outside of all brackets.
    [outline] reads it from the tokens of a text (SpecTokens.v); it knows
    nothing of the elements of statements. *)

From Coq Require Import Ascii String List ZArith Bool.
From Verif Require Import GoStr SpecTokens.
Import ListNotations.
Open Scope string_scope.

(** Keywords are the same in upper and lower case. *)
Definition capital (a : ascii) : ascii :=
  if (N.leb 97 (byte a) && N.leb (byte a) 122)%bool then ascii_of_N (byte a - 32) else a.
Fixpoint capitals (s : string) : string :=
  match s with "" => "" | String a r => String (capital a) (capitals r) end.
Definition one_of (l : list string) (w : string) : bool := existsb (String.eqb (capitals w)) l.

(** Words that begin a clause or a part of one. *)
Definition clause_words : list string :=
  ["MATCH"; "OPTIONAL"; "WHERE"; "RETURN"; "WITH"; "CREATE"; "MERGE"; "ON"; "SET"; "REMOVE"; "DELETE"; "DETACH";
   "UNWIND"; "CALL"; "YIELD"; "UNION"; "ORDER"; "SKIP"; "LIMIT"].

Definition opens (m : string) : bool := existsb (String.eqb m) ["("; "["; "{"].
Definition closes (m : string) : bool := existsb (String.eqb m) [")"; "]"; "}"].

(** [depth]: the number of brackets that are open.  Inside of brackets nothing
    is part of the outline.  A word behind a dot is the name of a property,
    STARTS WITH and ENDS WITH are operators, UNION ALL is one keyword. *)
Fixpoint outline (depth : nat) (ts : list token) : list string :=
  match ts with
  | [] => []
  | t :: r =>
      match depth with
      | S d => match t with
               | Mark m => if opens m then outline (S depth) r else if closes m then outline d r else outline depth r
               | _ => outline depth r
               end
      | O =>
          match t, r with
          | Word w, Word v :: r' =>
              if (one_of ["STARTS"; "ENDS"] w && one_of ["WITH"] v)%bool then outline 0 r'
              else if (one_of ["UNION"] w && one_of ["ALL"] v)%bool then "UNION ALL" :: outline 0 r'
              else if one_of clause_words w then capitals w :: outline 0 r
              else outline 0 r
          | Word w, _ => if one_of clause_words w then capitals w :: outline 0 r else outline 0 r
          | Mark m, _ =>
              if opens m then outline 1 r
              else if String.eqb m "," then "," :: outline 0 r
              else match r with
                   | Word _ :: r' => if String.eqb m "." then outline 0 r' else outline 0 r
                   | _ => outline 0 r
                   end
          | _, _ => outline 0 r
          end
      end
  end.

(** Names that are no keywords. *)
Definition reserved (w : string) : bool := one_of ("STARTS" :: "ENDS" :: "ALL" :: clause_words) w.

(** Texts that add nothing to the outline, wherever they stand. *)
Definition adds_nothing (ts : list token) : Prop :=
  forall depth r, outline depth (ts ++ r) = outline depth r.
(** ... inside of brackets. *)
Definition adds_nothing_inside (ts : list token) : Prop :=
  forall depth r, outline (S depth) (ts ++ r) = outline (S depth) r.
