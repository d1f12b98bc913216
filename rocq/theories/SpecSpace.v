(** Specification of white space: the code points for which Go's
    unicode.IsSpace holds, and their UTF-8 encodings. *)

From Coq Require Import Ascii String List NArith.
Import ListNotations.
Open Scope string_scope.

Definition space_code_points : list N :=
  [9; 10; 11; 12; 13; 32; 133; 160; 5760;
   8192; 8193; 8194; 8195; 8196; 8197; 8198; 8199; 8200; 8201; 8202;
   8232; 8233; 8239; 8287; 12288]%N.

(** UTF-8 encoding of a code point below 2^16. *)
Definition utf8 (c : N) : string :=
  if N.ltb c 128 then String (ascii_of_N c) ""
  else if N.ltb c 2048 then
    String (ascii_of_N (192 + c / 64)) (String (ascii_of_N (128 + c mod 64)) "")
  else
    String (ascii_of_N (224 + c / 4096))
      (String (ascii_of_N (128 + (c / 64) mod 64))
        (String (ascii_of_N (128 + c mod 64)) "")).

Definition space_encodings : list string := map utf8 space_code_points.

(** A text made of white space only. *)
Inductive all_space : string -> Prop :=
| all_space_nil : all_space ""
| all_space_cons : forall e s, In e space_encodings -> all_space s -> all_space (e ++ s).

Definition starts_with_space (s : string) : Prop :=
  exists e r, In e space_encodings /\ s = e ++ r.
Definition ends_with_space (s : string) : Prop :=
  exists e r, In e space_encodings /\ s = r ++ e.
