(** Specification: the truth of a condition that a Cypher reader reads, in the
    three-valued logic of Cypher, and the calls on conditions that a phrase of
    builder calls consists of. *)

From Coq Require Import Ascii String List ZArith Bool.
From Verif Require Import GoStr Escape Num VTree Ast SpecTokens SpecShape SpecOutline SpecGrammar SpecReading GoVal SpecCond Cond Queries
  Builder SpecBuilder SpecPhrases SpecCalled.
Import ListNotations.
Open Scope string_scope.
Open Scope list_scope.

(** The truth of a syntax tree, given that of the trees that are no AND, OR, XOR
    or NOT. *)
Fixpoint truth (val : cx -> tv) (t : cx) : tv :=
  match t with
  | XBin OAnd a b => and3 (truth val a) (truth val b)
  | XBin OOr a b => or3 (truth val a) (truth val b)
  | XBin OXor a b => xor3 (truth val a) (truth val b)
  | XNot a => not3 (truth val a)
  | _ => val t
  end.

(** ** The conditions of a phrase as calls *)

(** Where(c), then And or Or with the conditions of l. *)
Definition chain_of (c : SpecCond.call expr) (l : list (conn * SpecCond.call expr)) : SpecCond.call expr :=
  fold_left (fun c p => Chain (fst p) c (snd p)) l c.

(** [made c cc]: the conditions given to Where, And and Or are made by calls, and
    cc is all of them. *)
Definition made (c : conditions) (cc : SpecCond.call expr) : Prop :=
  match c with
  | None => cc = NoCondition
  | Some (x, l) =>
      exists c0 cs, makes c0 x /\ Forall2 (fun d y => fst d = fst y /\ makes (snd d) (snd y)) cs l /\ cc = chain_of c0 cs
  end.

Definition phrase_conditions (p : phrase) : conditions :=
  match p with PMatch _ _ c | PCall _ _ _ c | PWith _ _ _ c => c | _ => None end.
(** The WHERE of a clause that is read. *)
Definition where_read (c : cclause) : option cx :=
  match c with CMatch _ _ w | CCall _ _ _ w | CWith _ w => w | _ => None end.

Section Truth.
Context (E : env) (A : register).

(** The condition that is read is true, false or null when the calls say so,
    whatever the basic conditions are. *)
Definition means (cc : SpecCond.call expr) (w : option cx) : Prop :=
  forall val rho, (forall e u, List.In e (operands cc) -> agrees E A u e -> truth val u = rho e) ->
    option_map (truth val) w = meaning rho cc.

End Truth.

Section Basic.
Context (E : env) (A : key -> string -> Prop).

(** Basic conditions that are read back when they stand next to a connective. *)
Definition basic (e : expr) : Prop := readable E A (At 3) e /\ match e with ECompound _ _ _ => False | _ => True end.

(** The addresses of the chains and negations of a condition. *)
Fixpoint condition_keys (e : expr) : list key :=
  match e with
  | ECompound k _ cs => k :: flat_map condition_keys cs
  | EComparison k None Not (Some r) => k :: condition_keys r
  | ENested k r => k :: condition_keys r
  | _ => []
  end.
Definition where_keys (q : query) : list key :=
  match q with
  | QMatch _ _ _ (Some (EWhere _ e)) | QWith _ _ _ (Some (EWhere _ e)) | QCall _ _ _ _ _ _ (Some (EWhere _ e)) => condition_keys e
  | _ => []
  end.
(** None of them is given an alias. *)
Definition nameless (q : query) : Prop :=
  forall k a, List.In k (flat_map where_keys (SpecBuilder.clauses q)) -> ~ A k a.

End Basic.
