(** Specification: boolean conditions and how a Cypher reader understands them.

    Tokens, the grammar of boolean expressions with the precedences of Cypher
    (OR weaker than XOR weaker than AND weaker than NOT, all left associative),
    three-valued logic, and what a chain of And, Or, Xor and Not calls is
    intended to mean.  Nothing here refers to the code. *)

From Coq Require Import List Bool.
Import ListNotations.

Inductive conn := CAnd | COr | CXor.

(** true, false or null. *)
Definition tv := option bool.

Definition not3 (a : tv) : tv := option_map negb a.
Definition and3 (a b : tv) : tv :=
  match a, b with
  | Some false, _ | _, Some false => Some false
  | Some true, Some true => Some true
  | _, _ => None
  end.
Definition or3 (a b : tv) : tv :=
  match a, b with
  | Some true, _ | _, Some true => Some true
  | Some false, Some false => Some false
  | _, _ => None
  end.
Definition xor3 (a b : tv) : tv :=
  match a, b with Some x, Some y => Some (xorb x y) | _, _ => None end.

Definition connect (o : conn) : tv -> tv -> tv :=
  match o with CAnd => and3 | COr => or3 | CXor => xor3 end.

Section Reading.
Context {A : Type}.

Inductive tok := TAtom (a : A) | TOp (o : conn) | TNot | TL | TR.

Definition prec (o : conn) : nat := match o with COr => 0 | CXor => 1 | CAnd => 2 end.

(** [reads rho n ts v]: the tokens form an expression whose operators outside
    parentheses have precedence n at least, and its value is v. *)
Inductive reads (rho : A -> tv) : nat -> list tok -> tv -> Prop :=
| r_atom : forall a, reads rho 3 [TAtom a] (rho a)
| r_paren : forall ts v, reads rho 0 ts v -> reads rho 3 (TL :: ts ++ [TR]) v
| r_not : forall ts v, reads rho 3 ts v -> reads rho 3 (TNot :: ts) (not3 v)
| r_op : forall o l r v w, reads rho (prec o) l v -> reads rho (S (prec o)) r w ->
    reads rho (prec o) (l ++ TOp o :: r) (connect o v w)
| r_up : forall n ts v, n < 3 -> reads rho (S n) ts v -> reads rho n ts v.

(** Calls on conditions. *)
Inductive call :=
| Basic (a : A)
| NoCondition
| Chain (o : conn) (c d : call)      (* c.And(d), c.Or(d), c.Xor(d) *)
| Negate (c : call).

(** The empty condition is neutral: no value. *)
Definition connect_some (o : conn) (x y : option tv) : option tv :=
  match x, y with
  | None, y => y
  | x, None => x
  | Some a, Some b => Some (connect o a b)
  end.

Fixpoint meaning (rho : A -> tv) (c : call) : option tv :=
  match c with
  | Basic a => Some (rho a)
  | NoCondition => None
  | Chain o c d => connect_some o (meaning rho c) (meaning rho d)
  | Negate c => option_map not3 (meaning rho c)
  end.

(** Calls that contribute nothing. *)
Fixpoint blank (c : call) : bool :=
  match c with
  | Basic _ => false
  | NoCondition => true
  | Chain _ c d => blank c && blank d
  | Negate c => blank c
  end.

(** The basic conditions of a call, in order. *)
Fixpoint operands (c : call) : list A :=
  match c with
  | Basic a => [a]
  | NoCondition => []
  | Chain _ c d => operands c ++ operands d
  | Negate c => operands c
  end.

(** Only connective [o] and basic conditions. *)
Fixpoint only (o : conn) (c : call) : Prop :=
  match c with
  | Basic _ | NoCondition => True
  | Chain p c d => p = o /\ only o c /\ only o d
  | Negate _ => False
  end.

(** [a o b o c ...] in parentheses; one operand without. *)
Definition joined (o : conn) (l : list A) : list tok :=
  match l with
  | [] => []
  | [a] => [TAtom a]
  | a :: l' => TL :: (TAtom a :: flat_map (fun b => [TOp o; TAtom b]) l') ++ [TR]
  end.

(** Nothing empty is negated. *)
Fixpoint proper (c : call) : bool :=
  match c with
  | Basic _ | NoCondition => true
  | Chain _ c d => proper c && proper d
  | Negate c => proper c && negb (blank c)
  end.

(** The connective a chain was last extended with; None for single conditions. *)
Fixpoint outer (c : call) : option conn :=
  match c with
  | Chain o c d => match outer c with Some p => if blank d then Some p else Some o | None => Some o end
  | _ => None
  end.

Definition is_chain (c : call) : bool := match c with Chain _ _ _ => negb (blank c) | _ => false end.
Definition conn_eqb (a b : conn) : bool :=
  match a, b with CAnd, CAnd | COr, COr | CXor, CXor => true | _, _ => false end.

(** A chain is extended by another chain only with the connective it has. *)
Fixpoint unmixed (c : call) : bool :=
  match c with
  | Basic _ | NoCondition => true
  | Chain o c d =>
      unmixed c && unmixed d
      && (negb (is_chain d) || match outer c with Some p => conn_eqb p o | None => true end)
  | Negate c => unmixed c
  end.

End Reading.
Arguments tok : clear implicits.
Arguments call : clear implicits.

(** ** The text of tokens *)

From Coq Require Import String.
From Verif Require Import SpecDoc.
Open Scope string_scope.

Definition conn_text (o : conn) : string :=
  match o with CAnd => " AND " | COr => " OR " | CXor => " XOR " end.

(** Operands print as documents. *)
Definition token_doc {A} (operand : A -> doc) (t : tok A) : doc :=
  match t with
  | TAtom a => operand a
  | TOp o => Txt (conn_text o)
  | TNot => Txt "NOT "
  | TL => Txt "("
  | TR => Txt ")"
  end.

(** Documents that introduce no aliases. *)
Fixpoint no_alias (d : doc) : bool :=
  match d with
  | Txt _ => true
  | Cat l | Commas l => forallb no_alias l
  | Shared _ d | Once _ _ d => no_alias d
  | Aliased _ _ _ => false
  end.
