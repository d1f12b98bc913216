(** Specification: how a Cypher reader understands expressions with operators.

    Tokens and the grammar of openCypher, with its precedences: comparisons
    weaker than sums, sums weaker than products, products weaker than powers,
    powers weaker than the string, list and null operators; all left
    associative, comparisons without chains.  Nothing here refers to the code. *)

From Coq Require Import Ascii String List Bool Arith.
Import ListNotations.
Open Scope string_scope.
Open Scope list_scope.

Inductive sign :=
| Plus | Minus | Times | Over | Modulo | Power
| Equal | Unequal | Less | LessEqual | More | MoreEqual
| Starts | Ends | Has | Like | Within.
Inductive suffix := Null | NotNull.

Definition sign_text (s : sign) : string :=
  match s with
  | Plus => " + " | Minus => " - " | Times => " * " | Over => " / " | Modulo => " % " | Power => "^"
  | Equal => " = " | Unequal => " <> " | Less => " < " | LessEqual => " <= " | More => " > " | MoreEqual => " >= "
  | Starts => " STARTS WITH " | Ends => " ENDS WITH " | Has => " CONTAINS " | Like => " =~ " | Within => " IN "
  end.
Definition suffix_text (s : suffix) : string := match s with Null => " IS NULL" | NotNull => " IS NOT NULL" end.

Definition level (s : sign) : nat :=
  match s with
  | Equal | Unequal | Less | LessEqual | More | MoreEqual => 0
  | Plus | Minus => 1
  | Times | Over | Modulo => 2
  | Power => 3
  | Starts | Ends | Has | Like | Within => 4
  end.

Inductive tree (A : Type) := Leaf (a : A) | Bin (s : sign) (l r : tree A) | Post (s : suffix) (t : tree A).
Arguments Leaf {A} a.
Arguments Bin {A} s l r.
Arguments Post {A} s t.

Inductive token (A : Type) := TLeaf (a : A) | TSign (s : sign) | TSuffix (s : suffix) | TOpen | TClose.
Arguments TLeaf {A} a.
Arguments TSign {A} s.
Arguments TSuffix {A} s.
Arguments TOpen {A}.
Arguments TClose {A}.

(** [understood n ts t]: the tokens form an expression whose operators outside
    parentheses have level n at least; it means t. *)
Inductive understood {A} : nat -> list (token A) -> tree A -> Prop :=
| u_leaf : forall a, understood 5 [TLeaf a] (Leaf a)
| u_paren : forall ts t, understood 0 ts t -> understood 5 (TOpen :: ts ++ [TClose]) t
| u_bin : forall s l r x y, understood (if Nat.eqb (level s) 0 then 1 else level s) l x -> understood (S (level s)) r y ->
    understood (level s) (l ++ TSign s :: r) (Bin s x y)
| u_post : forall s l x, understood 4 l x -> understood 4 (l ++ [TSuffix s]) (Post s x)
| u_up : forall n ts t, n < 5 -> understood (S n) ts t -> understood n ts t.

(** A text means [t]: it has this reading; by [C46_one_reading] it has no other. *)
Definition means {A} (ts : list (token A)) (t : tree A) : Prop := understood 0 ts t.

(** ** Trees that are written so that they are understood *)

Definition ordering {A} (t : tree A) : bool := match t with Bin s _ _ => Nat.eqb (level s) 0 | _ => false end.
Definition is_power {A} (t : tree A) : bool := match t with Bin Power _ _ => true | _ => false end.

(** No comparison is an operand of arithmetic, no power is an exponent, nor an
    operand of STARTS WITH, ENDS WITH, CONTAINS, =~, IN or IS (NOT) NULL. *)
Fixpoint faithful {A} (t : tree A) : bool :=
  match t with
  | Leaf _ => true
  | Bin s l r =>
      (faithful l && faithful r &&
       match level s with
       | 0 => true
       | 4 => negb (is_power l) && negb (is_power r)
       | 3 => negb (ordering l) && negb (ordering r) && negb (is_power r)
       | _ => negb (ordering l) && negb (ordering r)
       end)%bool
  | Post _ t => (faithful t && negb (is_power t))%bool
  end.
