(** Specification: what a statement uses, and the parameters a text asks for. *)

From Coq Require Import Ascii String List ZArith Bool.
From Verif Require Import GoStr Escape Num VTree Ast SpecTokens.
Import ListNotations.
Open Scope string_scope.
Open Scope list_scope.

(** ** In a text *)

(** The names behind the dollar signs. *)
Fixpoint asked (ts : list token) : list string :=
  match ts with
  | [] => []
  | t :: r =>
      match t, r with
      | Mark m, Word x :: _ | Mark m, Name x :: _ => if String.eqb m "$" then x :: asked r else asked r
      | _, _ => asked r
      end
  end.

(** A text without dollar sign outside of quotes. *)
Definition asks_nothing (E : env) (s : string) : Prop := exists ts, tokens E s = Some ts /\ ~ In (Mark "$") ts.

(** ** In a statement *)

(** An expression and the parts it is made of, to any depth. *)
Inductive part (e : expr) : expr -> Prop :=
| part_self : part e e
| part_of_child : forall c d, In c (children e) -> part c d -> part e d.

(** The expressions of a clause, and the clauses of a clause or statement. *)
Definition clause_exprs (q : query) : list expr :=
  match q with
  | QMatch _ _ p w => p :: opt_list w
  | QCreate _ e | QMerge _ e _ | QDelete _ _ e | QSet _ e | QRemove _ e | QUnwind _ e _ => [e]
  | QWith _ _ b w => b_items b :: opt_list (b_order b) ++ opt_list (b_skip b) ++ opt_list (b_limit b) ++ opt_list w
  | QReturn _ _ b => b_items b :: opt_list (b_order b) ++ opt_list (b_skip b) ++ opt_list (b_limit b)
  | QCall _ _ _ _ a y w => opt_list a ++ opt_list y ++ opt_list w
  | QBlank _ | QAction _ _ _ | QSubquery _ _ | QSingle _ _ | QMulti _ _ | QUnion _ _ _ => []
  end.
Definition clauses_of (q : query) : list query :=
  match q with
  | QMerge _ _ l => l
  | QAction _ _ s | QSubquery _ s => [s]
  | QSingle cs r => cs ++ opt_list r
  | QMulti ps r => flat_map (fun p => snd (fst p) ++ [snd p]) ps ++ [r]
  | QUnion _ s l => s :: map snd l
  | _ => []
  end.
Inductive within (q : query) : query -> Prop :=
| within_self : within q q
| within_clause : forall c d, In c (clauses_of q) -> within c d -> within q d.

(** An expression that stands somewhere in a statement. *)
Definition element (q : query) (e : expr) : Prop := exists c d, within q c /\ In d (clause_exprs c) /\ part d e.

(** ** Identities *)

(** The key of an element, and those of the lists, brackets and branches it is
    written with. *)
Definition own_key (e : expr) : option key :=
  match e with
  | ESym k _ | EParam k _ | EAsterisk k | EBool k _ | ENull k | ENum k _ | EStr k _ | ERaw k _ | EListLit k _ | ELookup k _
  | EProp k _ _ | EOperation k _ _ _ | EComparison k _ _ _ | ENested k _ | EConst k _ | ECompound k _ _ | EFun k _ _ _
  | EArgs k _ | EDistinct k _ | EAlias k _ _ _ | EEntry k _ _ | EMap k _ | EProps k _ | EMapProj k _ _ | EExprs k _
  | EListExpr k _ | EListOp k _ _ _ _ _ | EListPred k _ _ _ | EListComp k _ _ _ _ | EPatComp k _ _ _ | EExcluded k _
  | EHasLabel k _ _ | EExists k _ _ _ _ | ERelCond k _ | ENamedPath k _ _ | ELabels k _ | ENode k _ _ _ | EDetails k _ _ _ _ _
  | ERel k _ _ _ | EChain k _ _ | ECase k _ _ _ _ | EPattern k _ | EWhere k _ | EOrder k _ | ESort k _ _ | ESkip k _
  | ELimit k _ | EYield k _ => Some k
  | EBoolFun _ => None
  end.
Definition frame_keys (e : expr) : list key :=
  match e with
  | EFun _ _ k _ => [k]
  | EListOp _ _ k _ _ _ => [k]
  | EExists _ k _ _ _ => [k]
  | ECase _ _ _ bs d => map (fun b => fst (fst b)) bs ++ match d with Some x => [fst x] | None => [] end
  | _ => []
  end.
Definition clause_keys (q : query) : list key :=
  match q with
  | QMatch k _ _ _ | QCreate k _ | QMerge k _ _ | QBlank k | QAction k _ _ | QDelete k _ _ | QSet k _ | QRemove k _
  | QUnwind k _ _ | QWith k _ _ _ | QReturn k _ _ | QCall k _ _ _ _ _ _ | QSubquery k _ => [k]
  | QSingle _ _ => []
  | QMulti ps _ => map (fun p => fst (fst p)) ps
  | QUnion k _ l => k :: map (fun p => fst (fst p)) l
  end.

(** Named nodes with the same key have the same properties.  What has the key of
    an aliased expression is that expression or a part of it. *)
Definition told_apart (q : query) : Prop :=
  (forall k n ls ps n' ls' ps', element q (ENode k (Some n) ls ps) -> element q (ENode k (Some n') ls' ps') ->
     ps = ps')
  /\ (forall k d e a, element q (EAlias k d e a) ->
        (forall c, element q c -> own_key c = Some d -> part e c)
        /\ (forall k' e' a', element q (EAlias k' d e' a') -> e' = e)
        /\ (forall c, element q c -> ~ In d (frame_keys c))
        /\ (forall c, within q c -> ~ In d (clause_keys c))).

(** ** Names *)

(** Parameters are named by identifiers; the other texts that are written as the
    caller gives them have no dollar sign outside of quotes. *)
Definition own_names (E : env) (e : expr) : Prop :=
  match e with
  | EParam _ n => is_identifier E n = true
  | ERaw _ s => asks_nothing E s
  | EFun _ n _ _ => asks_nothing E n
  | ENode _ (Some (_, n)) _ _ => asks_nothing E n
  | _ => True
  end.
Definition clause_names (E : env) (q : query) : Prop :=
  match q with
  | QUnwind _ _ v => asks_nothing E v
  | QCall _ _ sp n _ _ _ => asks_nothing E n /\ (forall k x, sp = Some (k, x) -> asks_nothing E x)
  | _ => True
  end.
Definition plain_names (E : env) (q : query) : Prop :=
  (forall e, element q e -> own_names E e) /\ (forall c, within q c -> clause_names E c).
