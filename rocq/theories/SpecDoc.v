(** Specification: documents, and what it means to write them.

    A document is a text in which some parts are written differently the second
    time.  Three rules:
    - a named node is written in full the first time and as its name in
      parentheses afterwards ([Once]);
    - an aliased expression is written in full with its alias the first time,
      and as its alias afterwards ([Aliased]);
    - an element for which an alias has been introduced is written as that
      alias ([Shared]).
    Elements are identified by keys. *)

From Coq Require Import Ascii String List Bool.
Import ListNotations.
Open Scope string_scope.

Inductive doc :=
| Txt (s : string)
| Cat (l : list doc)                                    (* one after the other *)
| Commas (l : list doc)                                 (* separated by ", " *)
| Shared (k : string) (d : doc)
| Once (k : string) (name : string) (d : doc)
| Aliased (k : string) (alias : string) (d : doc).      (* k: the aliased expression *)

(** What has been written: the aliases introduced, latest first, and the named
    nodes. *)
Record memory := Memory { introduced : list (string * string); written : list string }.

Definition nothing_written : memory := Memory [] [].

Fixpoint alias_of (k : string) (l : list (string * string)) : option string :=
  match l with
  | [] => None
  | (k', a) :: l' => if String.eqb k k' then Some a else alias_of k l'
  end.

Definition introduce (k a : string) (m : memory) : memory := Memory ((k, a) :: introduced m) (written m).
Definition mark (k : string) (m : memory) : memory := Memory (introduced m) (k :: written m).

(** The aliases introduced inside an element that is abbreviated count as
    introduced: the element was written in full before. *)
Fixpoint introduce_all (d : doc) (m : memory) : memory :=
  match d with
  | Txt _ => m
  | Cat l | Commas l =>
      (fix go l m := match l with [] => m | d :: l' => go l' (introduce_all d m) end) l m
  | Shared _ d | Once _ _ d => introduce_all d m
  | Aliased k a d => introduce k a (introduce_all d m)
  end.

Fixpoint write (d : doc) (m : memory) : string * memory :=
  match d with
  | Txt s => (s, m)
  | Cat l =>
      (fix go l m := match l with
                     | [] => ("", m)
                     | d :: l' => let (x, m1) := write d m in let (y, m2) := go l' m1 in (x ++ y, m2)
                     end) l m
  | Commas l =>
      match l with
      | [] => ("", m)
      | d :: l' =>
          let (x, m1) := write d m in
          let (y, m2) := (fix go l m := match l with
                                        | [] => ("", m)
                                        | d :: l' => let (x, m1) := write d m in
                                                     let (y, m2) := go l' m1 in (", " ++ x ++ y, m2)
                                        end) l' m1 in
          (x ++ y, m2)
      end
  | Shared k d =>
      match alias_of k (introduced m) with
      | Some a => (a, introduce_all d m)
      | None => write d m
      end
  | Once k n d =>
      if existsb (String.eqb k) (written m)
      then ("(" ++ n ++ ")", introduce_all d (mark k m))
      else let (x, m1) := write d (mark k m) in ("(" ++ x ++ ")", m1)
  | Aliased k a d =>
      match alias_of k (introduced m) with
      | Some _ => (a, introduce k a (introduce_all d m))
      | None => let (x, m1) := write d m in (x ++ " AS " ++ a, introduce k a m1)
      end
  end.

(** The text of a document. *)
Definition text (d : doc) : string := fst (write d nothing_written).
