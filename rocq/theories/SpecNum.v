(** Reading decimal numerals, and rounding to ten significant digits: what C15
    says of numbers that need not be integers. *)

From Coq Require Import Ascii String List ZArith Bool.
From Verif Require Import GoStr Num SpecLex.
Open Scope string_scope.
Open Scope Z_scope.

(** The digits at the start of a text, and the rest. *)
Fixpoint span (s : string) : string * string :=
  match s with
  | "" => ("", "")
  | String a r => match digit_val a with
                  | Some _ => let (d, t) := span r in (String a d, t)
                  | None => ("", s)
                  end
  end.

Definition numeral (s : string) : Z := fst (lex_digits 0 s).

(** An exponent: 'e', an optional sign, digits. *)
Definition read_exponent (s : string) : Z * string :=
  match s with
  | String "e" r =>
      let (sign, r') := match r with String "+" r' => (1, r') | String "-" r' => (-1, r') | _ => (1, r) end in
      let (d, t) := span r' in
      if String.eqb d "" then (0, s) else (sign * numeral d, t)
  | _ => (0, s)
  end.

(** A fraction: a point followed by a digit. *)
Definition read_fraction (s : string) : string * string :=
  match s with
  | String "." r => let (d, t) := span r in if String.eqb d "" then ("", s) else (d, t)
  | _ => ("", s)
  end.

(** A numeral m * 10^e without sign, in Cypher: digits, then maybe a fraction,
    then maybe an exponent. *)
Definition read_decimal (s : string) : option (Z * Z * string) :=
  let (i, s1) := span s in
  if String.eqb i "" then None
  else let (f, s2) := read_fraction s1 in
       let (x, s3) := read_exponent s2 in
       Some (numeral (i ++ f), x - Z.of_nat (String.length f), s3).

(** With the minus sign, if there is one. *)
Definition read_number (s : string) : option (bool * Z * Z * string) :=
  let (neg, r) := match s with String "-" r => (true, r) | _ => (false, s) end in
  match read_decimal r with Some (m, e, t) => Some (neg, m, e, t) | None => None end.

(** The text [t] does not continue a numeral. *)
Definition ends_decimal (t : string) : Prop :=
  match t with
  | "" => True
  | String a r => digit_val a = None /\ a <> "e"%char
                  /\ (a = "."%char -> match r with "" => True | String b _ => digit_val b = None end)
  end.

(** m * 10^e = m' * 10^e'. *)
Definition same_value (m e m' e' : Z) : Prop :=
  exists f, f <= e /\ f <= e' /\ m * 10 ^ (e - f) = m' * 10 ^ (e' - f).

(** q * 10^k is m * 10^e rounded to ten significant digits, ties to even: it is
    that number if ten digits are enough; otherwise the unit 10^k is that of the
    tenth digit, and q is at most half a unit away. *)
Definition rounded (m e q k : Z) : Prop :=
  (q < 10 ^ 10 /\ same_value m e q k)
  \/ (e < k /\ 10 ^ 9 * 10 ^ (k - e) <= m < 10 ^ 10 * 10 ^ (k - e)
      /\ 2 * Z.abs (m - q * 10 ^ (k - e)) <= 10 ^ (k - e)
      /\ (2 * Z.abs (m - q * 10 ^ (k - e)) = 10 ^ (k - e) -> Z.even q = true)).
