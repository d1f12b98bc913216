(** Go slices and append.

    An array has a fixed number of cells, its capacity.  A slice is a prefix of
    an array.  append writes behind the end of the slice if the array has room
    there, whatever other slices see those cells; otherwise it copies.  (The
    slices of the library all start at the first cell of their array.) *)

From Coq Require Import List Arith.
Import ListNotations.

Section Slices.
Context {A : Type}.

Definition heap := list (list A).

(** [None] is nil or make([]T, 0): no cells. *)
Inductive slice := NoCells | Prefix (array len : nat).

Definition cells (h : heap) (a : nat) : list A := nth a h [].

Definition read (h : heap) (s : slice) : list A :=
  match s with NoCells => [] | Prefix a n => firstn n (cells h a) end.

Definition slice_len (s : slice) : nat := match s with NoCells => 0 | Prefix _ n => n end.
Definition capacity (h : heap) (s : slice) : nat := match s with NoCells => 0 | Prefix a _ => length (cells h a) end.

(** Cells from [n] on are overwritten. *)
Definition overwrite (c : list A) (n : nat) (xs : list A) : list A :=
  firstn n c ++ xs ++ skipn (n + length xs) c.

Fixpoint update {B} (l : list B) (i : nat) (b : B) : list B :=
  match l, i with
  | [], _ => []
  | _ :: l', 0 => b :: l'
  | x :: l', S i' => x :: update l' i' b
  end.

(** append(s, xs...).  [grow c n] is the capacity that the runtime chooses for
    a slice of n elements that replaces one of capacity c; [zero] fills the
    unused cells. *)
Definition append (grow : nat -> nat -> nat) (zero : A) (h : heap) (s : slice) (xs : list A) : heap * slice :=
  match xs with
  | [] => (h, s)
  | _ =>
      let n := slice_len s + length xs in
      match s with
      | Prefix a l =>
          if n <=? length (cells h a)
          then (update h a (overwrite (cells h a) l xs), Prefix a n)
          else (h ++ [read h s ++ xs ++ repeat zero (grow (capacity h s) n - n)], Prefix (length h) n)
      | NoCells => (h ++ [xs ++ repeat zero (grow 0 n - n)], Prefix (length h) n)
      end
  end.

End Slices.
Arguments heap : clear implicits.

(** The policy of the Go runtime for small slices: twice the old capacity, or
    what is needed if that is more. *)
Definition go_grow (c n : nat) : nat := Nat.max n (2 * c).
