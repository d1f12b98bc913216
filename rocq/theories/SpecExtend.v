(** Specification: the addresses of what a builder makes while it builds a
    statement. *)

From Coq Require Import String List ZArith Bool.
From Verif Require Import GoStr Num VTree Ast SpecPrint Cond Queries Builder BuilderText SpecBuilder.
Import ListNotations.
Open Scope list_scope.

(** Conditions that And and Or put together. *)
Fixpoint joined_keys (e : expr) : list key :=
  match e with ECompound k _ l => k :: flat_map joined_keys l | _ => [] end.

(** Assignments, and labels set or removed. *)
Definition assigned_keys (e : expr) : list key :=
  match e with
  | EOperation k (ESym kn _) _ (ELabels kl ls) => k :: kn :: kl :: map fst ls
  | EOperation k _ SetProp _ => [k]
  | _ => []
  end.

Definition made_keys (e : expr) : list key :=
  match e with
  | EPattern k _ | EArgs k _ | EYield k _ => [k]
  | EExprs k l => k :: flat_map assigned_keys l
  | EWhere k c => k :: joined_keys c
  | EOrder k l => k :: flat_map (fun i => match i with ESort ki _ _ => [ki] | _ => [] end) l
  | ESkip k (ENum kn _) | ELimit k (ENum kn _) => [k; kn]
  | _ => []
  end.
Definition made_part (o : option expr) : list key := match o with Some e => made_keys e | None => [] end.
Definition made_body (b : body) : list key :=
  made_keys (b_items b) ++ made_part (b_order b) ++ made_part (b_skip b) ++ made_part (b_limit b).

Fixpoint made_clause (q : query) : list key :=
  match q with
  | QMatch k _ p w => k :: made_keys p ++ made_part w
  | QCreate k p => k :: made_keys p
  | QMerge k p evs => k :: made_keys p ++ flat_map made_clause evs
  | QBlank k => [k]
  | QAction k _ s => k :: made_clause s
  | QDelete k _ e | QSet k e | QRemove k e => k :: made_keys e
  | QUnwind k e _ => k :: match e with ESym ks _ => [ks] | _ => [] end
  | QSubquery k _ => [k]
  | QWith k _ b w => k :: made_body b ++ made_part w
  | QReturn k _ b => k :: made_body b
  | QCall k kn _ _ a y w => k :: kn :: made_part a ++ made_part y ++ made_part w
  | _ => []
  end.

(** All of them, and the operators of SET and REMOVE. *)
Definition made (E : env) (q : query) : list key :=
  op_key E SetLabel :: op_key E RemoveLabel :: part_keys q ++ flat_map made_clause (SpecBuilder.clauses q).
