(** Go strings, UTF-8 decoding, white space trimming and decimal numerals.

    Models the parts of the Go runtime and standard library that /repo uses on
    strings.  Go strings are byte strings, here Coq [string]s. *)

From Coq Require Import Ascii String List ZArith Bool Lia.
Import ListNotations.
Open Scope string_scope.

(** ** Environment

    What the Go program takes from outside and what no theorem may depend on:
    - [e_letter], [e_digit]: [unicode.IsLetter], [unicode.IsDigit] for code
      points >= 128 (cypher_renderer.go:205);
    - [e_guid]: the text of the random [xid] of a renderer
      (cypher_renderer.go:38, 76);
    - [e_opkey]: the address-derived keys of the package-level operator
      variables (operator.go:64-94), indexed by position in that list;
    - [e_dotkey]: key of the package variable DOTS (list_operator.go:166). *)
Record env := Env {
  e_letter : N -> bool;
  e_digit : N -> bool;
  e_guid : string;
  e_opkey : nat -> string;
  e_dotkey : string
}.

(** ** UTF-8, as decoded by Go's [for i, c := range s] (cypher_renderer.go:204)

    [decode a r]: the rune at the start of [String a r] and its width.  Invalid
    or truncated encodings give U+FFFD of width 1, as utf8.DecodeRuneInString. *)
Definition byte (a : ascii) : N := N_of_ascii a.
Definition runeError : N := 65533.

Definition in_range (lo x hi : N) : bool := (N.leb lo x && N.leb x hi)%bool.

Definition decode (a : ascii) (r : string) : N * nat :=
  let x := byte a in
  if N.ltb x 128 then (x, 1)
  else if in_range 194 x 223 then
    match r with
    | String b _ =>
        let y := byte b in
        if in_range 128 y 191 then (((x - 192) * 64 + (y - 128))%N, 2)
        else (runeError, 1)
    | EmptyString => (runeError, 1)
    end
  else if in_range 224 x 239 then
    match r with
    | String b (String c _) =>
        let y := byte b in
        let z := byte c in
        let lo := (if N.eqb x 224 then 160 else 128)%N in
        let hi := (if N.eqb x 237 then 159 else 191)%N in
        if (in_range lo y hi && in_range 128 z 191)%bool
        then (((x - 224) * 4096 + (y - 128) * 64 + (z - 128))%N, 3)
        else (runeError, 1)
    | _ => (runeError, 1)
    end
  else if in_range 240 x 244 then
    match r with
    | String b (String c (String d _)) =>
        let y := byte b in
        let z := byte c in
        let w := byte d in
        let lo := (if N.eqb x 240 then 144 else 128)%N in
        let hi := (if N.eqb x 244 then 143 else 191)%N in
        if (in_range lo y hi && in_range 128 z 191 && in_range 128 w 191)%bool
        then (((x - 240) * 262144 + (y - 128) * 4096 + (z - 128) * 64 + (w - 128))%N, 4)
        else (runeError, 1)
    | _ => (runeError, 1)
    end
  else (runeError, 1).

(** The runes of [s] after [skip] further bytes of the current rune. *)
Fixpoint runes_from (s : string) (skip : nat) : list N :=
  match s with
  | EmptyString => []
  | String a r =>
      match skip with
      | S k => runes_from r k
      | O => let (c, w) := decode a r in c :: runes_from r (pred w)
      end
  end.

Definition runes (s : string) : list N := runes_from s 0.

(** unicode.IsLetter / unicode.IsDigit: exact on ASCII and on U+FFFD, taken
    from the environment elsewhere. *)
Definition is_letter (E : env) (c : N) : bool :=
  if N.ltb c 128 then (in_range 65 c 90 || in_range 97 c 122)%bool
  else if N.eqb c runeError then false
  else e_letter E c.

Definition is_digit (E : env) (c : N) : bool :=
  if N.ltb c 128 then in_range 48 c 57
  else if N.eqb c runeError then false
  else e_digit E c.

(** ** strings.TrimSpace (cypher_renderer.go:50, 197)

    unicode.IsSpace holds of U+0009-000D, U+0020, U+0085, U+00A0, U+1680,
    U+2000-200A, U+2028, U+2029, U+202F, U+205F and U+3000.  Their UTF-8
    encodings have one, two or three bytes. *)
Definition sp1 (a : ascii) : bool :=
  let x := byte a in (in_range 9 x 13 || N.eqb x 32)%bool.
Definition sp2 (a b : ascii) : bool :=
  (N.eqb (byte a) 194 && (N.eqb (byte b) 133 || N.eqb (byte b) 160))%bool.
Definition sp3 (a b c : ascii) : bool :=
  let x := byte a in let y := byte b in let z := byte c in
  (   (N.eqb x 225 && N.eqb y 154 && N.eqb z 128)
   || (N.eqb x 226 && N.eqb y 128 && (in_range 128 z 138 || N.eqb z 168 || N.eqb z 169 || N.eqb z 175))
   || (N.eqb x 226 && N.eqb y 129 && N.eqb z 159)
   || (N.eqb x 227 && N.eqb y 128 && N.eqb z 128))%bool.

Fixpoint trim_left (s : string) : string :=
  match s with
  | EmptyString => EmptyString
  | String a r1 =>
      if sp1 a then trim_left r1
      else match r1 with
           | EmptyString => s
           | String b r2 =>
               if sp2 a b then trim_left r2
               else match r2 with
                    | EmptyString => s
                    | String c r3 => if sp3 a b c then trim_left r3 else s
                    end
           end
  end.

(** The same from the right, on the reversed byte list. *)
Fixpoint drop_spaces_rev (l : list ascii) : list ascii :=
  match l with
  | [] => []
  | a :: l1 =>
      if sp1 a then drop_spaces_rev l1
      else match l1 with
           | [] => l
           | b :: l2 =>
               if sp2 b a then drop_spaces_rev l2
               else match l2 with
                    | [] => l
                    | c :: l3 => if sp3 c b a then drop_spaces_rev l3 else l
                    end
           end
  end.

Definition trim_right (s : string) : string :=
  string_of_list_ascii (rev (drop_spaces_rev (rev (list_ascii_of_string s)))).

Definition trim_space (s : string) : string := trim_right (trim_left s).

(** ** strings.ReplaceAll with a one-byte pattern (cypher_renderer.go:193, 200),
    and strings.Join. *)
Fixpoint replace_all (old : ascii) (new : string) (s : string) : string :=
  match s with
  | EmptyString => EmptyString
  | String a r => if Ascii.eqb a old then new ++ replace_all old new r
                  else String a (replace_all old new r)
  end.

Fixpoint join (sep : string) (l : list string) : string :=
  match l with
  | [] => ""
  | [x] => x
  | x :: l' => x ++ sep ++ join sep l'
  end.

(** ** strconv.Itoa (relationship_length.go:55, 59), for any integer. *)
Definition digit (d : Z) : ascii := ascii_of_N (Z.to_N (48 + d)).

Fixpoint digits_aux (fuel : nat) (n : Z) (acc : string) : string :=
  match fuel with
  | O => acc
  | S f => if Z.ltb n 10 then String (digit n) acc
           else digits_aux f (n / 10) (String (digit (n mod 10)) acc)
  end.

(** Decimal digits of a non-negative integer, most significant first; the fuel
    [1 + log2 n] is always enough (see [digits_value] in GoStrProofs.v). *)
Definition digits (n : Z) : string := digits_aux (S (Z.to_nat (Z.log2 n))) n "".

Definition itoa (n : Z) : string :=
  if Z.ltb n 0 then "-" ++ digits (- n) else digits n.
