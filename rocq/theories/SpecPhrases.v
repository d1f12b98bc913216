(** Specification: the outline of the text that a chain of builder calls should
    give, from its phrases (SpecBuilder.v), and the arguments for which it
    does. *)

From Coq Require Import Ascii String List ZArith Bool.
From Verif Require Import GoStr Num VTree Ast SpecDoc SpecPrint SpecTokens SpecShape SpecOutline SpecClauses GoVal SpecCond Cond Builder
  BuilderText SpecBuilder.
Import ListNotations.
Open Scope string_scope.
Open Scope list_scope.

(** WHERE is written if one of the conditions constrains something. *)
Definition vacuous (c : cnd) : bool := match c with Empty | Comp _ _ [] _ => true | _ => false end.
Definition where_outline (c : conditions) : list string :=
  match c with
  | None => []
  | Some (x, l) => if forallb vacuous (x :: map snd l) then [] else ["WHERE"]
  end.

Definition item_silent (i : item) : bool := match i with Plain e => silent e | _ => false end.
Definition set_outline (l : list item) : list string :=
  repeat "," (length (filter (fun i => negb (item_silent i)) l) - 1).

Definition sort_outline (s : sorting) : list string :=
  match s_items s with [] => [] | l => "ORDER" :: repeat "," (length l - 1) end
  ++ match s_skip s with Some _ => ["SKIP"] | None => [] end
  ++ match s_limit s with Some _ => ["LIMIT"] | None => [] end.

Definition phrase_outline (p : phrase) : list string :=
  match p with
  | PMatch o ps c => (if o then ["OPTIONAL"] else []) ++ "MATCH" :: commas ps ++ where_outline c
  | PCreate ps => "CREATE" :: commas ps
  | PMerge ps actions =>
      "MERGE" :: commas ps
      ++ flat_map (fun a : bool * list item => "ON" :: (if fst a then "CREATE" else "MATCH") :: "SET" :: set_outline (snd a)) actions
  | PDelete d l => (if d then ["DETACH"] else []) ++ "DELETE" :: commas l
  | PSet l => "SET" :: set_outline l
  | PRemove l => "REMOVE" :: set_outline l
  | PUnwind _ _ => ["UNWIND"]
  | PSubquery _ => ["CALL"]
  | PCall _ _ ys c => "CALL" :: match ys with [] => [] | _ => "YIELD" :: commas ys end ++ where_outline c
  | PWith _ l s c => "WITH" :: commas l ++ sort_outline s ++ where_outline c
  | PReturn _ l s => "RETURN" :: commas l ++ sort_outline s
  end.

(** ** The arguments *)

Section Arguments.
Context (E : env) (K : key -> Prop).

Definition fine (e : expr) : Prop := shaped E K e /\ calm E true e.
Definition fine_condition (c : cnd) : Prop := sound_cnd c = true /\ fine (cond_expr c).
Definition fine_conditions (c : conditions) : Prop :=
  match c with None => True | Some (x, l) => Forall fine_condition (x :: map snd l) end.
Definition fine_item (i : item) : Prop :=
  match i with
  | Assign a b => fine a /\ fine b
  | Labels n _ => n = "" \/ reserved n = false
  | Plain e => fine e
  end.
Definition fine_sorting (s : sorting) : Prop := Forall (fun i => fine (fst i)) (s_items s).

Definition fine_phrase (p : phrase) : Prop :=
  match p with
  | PMatch _ ps c => Forall fine ps /\ fine_conditions c
  | PCreate ps => Forall fine ps
  | PMerge ps actions => Forall fine ps /\ Forall (fun a : bool * list item => Forall fine_item (snd a)) actions
  | PDelete _ l => Forall fine l
  | PSet l | PRemove l => Forall fine_item l
  | PUnwind e v => fine e /\ self_contained E v /\ calm_text E v
  | PSubquery q => shaped_q E K q /\ calm_q E K q
  | PCall n args ys c =>
      (exists x, n = [x] /\ self_contained E x /\ calm_text E x) /\ Forall fine args /\ Forall fine ys /\ fine_conditions c
  | PWith _ l s c => Forall fine l /\ fine_sorting s /\ fine_conditions c
  | PReturn _ l s => Forall fine l /\ fine_sorting s
  end.

(** ** The addresses of what the builder makes *)

Definition item_keys (e : expr) : list key :=
  match e with EOperation _ _ _ (ELabels k ls) => k :: map fst ls | _ => [] end.
Definition list_keys (e : expr) : list key :=
  match e with EPattern k _ => [k] | EExprs k l => k :: flat_map item_keys l | _ => [] end.
Definition part_key (e : expr) : list key :=
  match e with EWhere k _ | EOrder k _ | ESkip k _ | ELimit k _ | EYield k _ | EArgs k _ => [k] | _ => [] end.
Definition part_keys_of (o : option expr) : list key := flat_map part_key (opt_list o).
Definition body_keys (b : body) : list key :=
  list_keys (b_items b) ++ part_keys_of (b_order b) ++ part_keys_of (b_skip b) ++ part_keys_of (b_limit b).

Fixpoint clause_keys (q : query) : list key :=
  match q with
  | QMatch k _ p w => k :: list_keys p ++ part_keys_of w
  | QCreate k p => k :: list_keys p
  | QMerge k p evs => k :: list_keys p ++ flat_map clause_keys evs
  | QBlank k => [k]
  | QAction k _ s => k :: clause_keys s
  | QDelete k _ e | QSet k e | QRemove k e => k :: list_keys e
  | QUnwind k _ _ | QSubquery k _ => [k]
  | QWith k _ b w => k :: body_keys b ++ part_keys_of w
  | QReturn k _ b => k :: body_keys b
  | QCall k _ _ _ a y w => k :: part_keys_of a ++ part_keys_of y ++ part_keys_of w
  | _ => []
  end.

(** None of them is the address of an expression that is given an alias. *)
Definition apart (q : query) : Prop :=
  (forall k, In k (flat_map clause_keys (clauses q)) -> ~ K k)
  /\ (forall k, In k (part_keys q) -> ~ In k (aliased_keys (print_query E q))).

End Arguments.
