(** Text of number literals: math/big's Float.String, which is Text('g', 10).

    number_literal.go:15-43 stores integers (SetInt: exact) and float64 values
    (NewFloat: exact) as big.Float; AsString (number_literal.go:65-67) calls
    String.  Every finite value is a decimal  (-1)^neg * m * 10^e  with m >= 0;
    the model takes it in this form.  Infinities and NaN (NewFloat panics) are
    not modelled. *)

From Coq Require Import Ascii String List ZArith Bool.
From Verif Require Import GoStr.
Open Scope string_scope.

Record num := Num { n_neg : bool; n_mant : Z; n_exp : Z }.

Definition num_of_Z (z : Z) : num := Num (Z.ltb z 0) (Z.abs z) 0.

(** number_literal.go:25-33 [NumberLiteralCreate2]: a finite float64 is
    (-1)^neg * m * 2^e; big.NewFloat keeps it exactly.  2^e is 5^(-e) * 10^e. *)
Definition num_of_float (neg : bool) (m e : Z) : num :=
  if Z.leb 0 e then Num neg (m * 2 ^ e) 0 else Num neg (m * 5 ^ (- e)) e.

Fixpoint zeros (k : nat) : string := match k with O => "" | S k' => "0" ++ zeros k' end.

(** big/decimal.go trim: drop trailing zeros of the mantissa, counting them.
    [fuel] bounds the number of digits; log2 m + 1 suffices. *)
Fixpoint strip_aux (fuel : nat) (m e : Z) : Z * Z :=
  match fuel with
  | O => (m, e)
  | S f => if (Z.eqb (m mod 10) 0 && negb (Z.eqb m 0))%bool
           then strip_aux f (m / 10) (e + 1) else (m, e)
  end.
Definition strip (m e : Z) : Z * Z := strip_aux (S (Z.to_nat (Z.log2 m))) m e.

(** Number of mantissa digits; zero has none. *)
Definition ndigits (m : Z) : Z :=
  if Z.eqb m 0 then 0 else Z.of_nat (String.length (digits m)).

(** big/decimal.go round, shouldRoundUp, roundUp, roundDown: to [n] digits, half
    to even, followed by trim. *)
Definition round_digits (n : Z) (m e : Z) : Z * Z :=
  let k := (ndigits m - n)%Z in
  if Z.leb k 0 then (m, e)
  else
    let q := (m / 10 ^ k)%Z in
    let r := (m mod 10 ^ k)%Z in
    let half := (5 * 10 ^ (k - 1))%Z in
    let up := (Z.ltb half r || (Z.eqb half r && Z.odd q))%bool in
    strip (if up then q + 1 else q)%Z (e + k)%Z.

(** big/decimal.go at: digit [i] of the mantissa text, '0' outside. *)
Definition at_digit (ds : string) (i : Z) : ascii :=
  if Z.ltb i 0 then "0"%char
  else match String.get (Z.to_nat i) ds with Some a => a | None => "0"%char end.

Fixpoint at_digits (ds : string) (i : Z) (count : nat) : string :=
  match count with
  | O => ""
  | S c => String (at_digit ds i) (at_digits ds (i + 1) c)
  end.

(** big/ftoa.go fmtF: [ds] mantissa digits, [dexp] decimal point position. *)
Definition fmt_f (prec : Z) (ds : string) (dexp : Z) : string :=
  (if Z.ltb 0 dexp then at_digits ds 0 (Z.to_nat dexp) else "0")
  ++ (if Z.ltb 0 prec then "." ++ at_digits ds dexp (Z.to_nat prec) else "").

(** big/ftoa.go fmtE. *)
Definition fmt_e (prec : Z) (ds : string) (dexp : Z) : string :=
  let first := String (at_digit ds 0) "" in
  let frac := if Z.ltb 0 prec then "." ++ at_digits ds 1 (Z.to_nat prec) else "" in
  let ex := if String.eqb ds "" then 0%Z else (dexp - 1)%Z in
  let sign := if Z.ltb ex 0 then "-" else "+" in
  let a := Z.abs ex in
  first ++ frac ++ "e" ++ sign ++ (if Z.ltb a 10 then "0" else "") ++ digits a.

(** big/ftoa.go Append, case 'g' with precision 10. *)
Definition text_g10 (m0 e0 : Z) : string :=
  let (m1, e1) := strip m0 e0 in
  let (m, e) := round_digits 10 m1 e1 in
  let ds := if Z.eqb m 0 then "" else digits m in
  let len := ndigits m in
  let dexp := if Z.eqb m 0 then 0%Z else (len + e)%Z in
  let eprec := if (Z.ltb len 10 && Z.leb dexp len)%bool then len else 10%Z in
  let ex := (dexp - 1)%Z in
  if (Z.ltb ex (-4) || Z.leb eprec ex)%bool
  then fmt_e ((if Z.ltb len 10 then len else 10) - 1) ds dexp
  else fmt_f (Z.max ((if Z.ltb dexp 10 then len else 10) - dexp) 0) ds dexp.

(** number_literal.go:65-67 [AsString]. *)
Definition number_text (x : num) : string :=
  (if n_neg x then "-" else "") ++ text_g10 (n_mant x) (n_exp x).
