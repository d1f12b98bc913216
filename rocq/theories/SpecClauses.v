(** Specification: the outline of a statement, from its clauses. *)

From Coq Require Import Ascii String List ZArith Bool.
From Verif Require Import GoStr Escape Num VTree Ast SpecDoc SpecPrint SpecTokens SpecShape SpecOutline.
Import ListNotations.
Open Scope string_scope.

(** Commas between the items of a list; some conditions write nothing. *)
Definition commas (es : list expr) : list string :=
  repeat "," (length (filter (fun e => negb (silent e)) es) - 1).
Definition items_outline (e : expr) : list string :=
  match e with EExprs _ l | EPattern _ l => commas l | _ => [] end.

Definition part_outline (e : expr) : list string :=
  match e with
  | EWhere _ _ => ["WHERE"]
  | EOrder _ l => "ORDER" :: commas l
  | ESkip _ _ => ["SKIP"]
  | ELimit _ _ => ["LIMIT"]
  | EYield _ l => "YIELD" :: commas l
  | _ => []
  end.
Definition parts_outline (o : option expr) : list string := flat_map part_outline (opt_list o).
Definition body_outline (b : body) : list string :=
  (items_outline (b_items b) ++ parts_outline (b_order b) ++ parts_outline (b_skip b) ++ parts_outline (b_limit b))%list.

Fixpoint clause_outline (q : query) : list string :=
  match q with
  | QMatch _ o p w => ((if o then ["OPTIONAL"] else []) ++ "MATCH" :: items_outline p ++ parts_outline w)%list
  | QCreate _ p => "CREATE" :: items_outline p
  | QMerge _ p evs => ("MERGE" :: items_outline p ++ flat_map clause_outline evs)%list
  | QBlank _ => []
  | QAction _ c s => ("ON" :: (if c then "CREATE" else "MATCH") :: clause_outline s)%list
  | QDelete _ d e => ((if d then ["DETACH"] else []) ++ "DELETE" :: items_outline e)%list
  | QSet _ e => "SET" :: items_outline e
  | QRemove _ e => "REMOVE" :: items_outline e
  | QUnwind _ _ _ => ["UNWIND"]
  | QWith _ _ b w => ("WITH" :: body_outline b ++ parts_outline w)%list
  | QReturn _ _ b => ("RETURN" :: body_outline b)%list
  | QCall _ _ _ _ a y w => ("CALL" :: parts_outline a ++ parts_outline y ++ parts_outline w)%list
  | QSubquery _ _ => ["CALL"]
  | QSingle cs r => (flat_map clause_outline cs ++ match r with Some r => clause_outline r | None => [] end)%list
  | QMulti ps r =>
      (flat_map (fun p : key * list query * query => flat_map clause_outline (snd (fst p)) ++ clause_outline (snd p)) ps
       ++ clause_outline r)%list
  | QUnion _ q qs =>
      (clause_outline q
       ++ flat_map (fun p : key * bool * query => (if snd (fst p) then "UNION ALL" else "UNION") :: clause_outline (snd p)) qs)%list
  end.

Section Calm.
(** [K]: the keys of the expressions that are given an alias. *)
Context (E : env) (K : key -> Prop).

(** A text the caller gave that adds nothing to an outline. *)
Definition calm_text (s : string) : Prop := exists ts, tokens E s = Some ts /\ adds_nothing ts.
Definition calm_inside (s : string) : Prop := exists ts, tokens E s = Some ts /\ adds_nothing_inside ts.
Definition calm_at (top : bool) (s : string) : Prop := if top then calm_text s else calm_inside s.

(** Elements that put brackets around all they write. *)
Definition bracketed (e : expr) : bool :=
  match e with
  | EListLit _ _ | ENested _ _ | EFun _ _ _ _ | EArgs _ _ | EMap _ _ | EListExpr _ _ | EListComp _ _ _ _ _
  | EPatComp _ _ _ _ | EExists _ _ _ _ _ | ENode _ _ _ _ | EDetails _ _ _ _ _ _ => true
  | EOperation _ _ o _ => in_parens o
  | ECompound _ _ l => match l with _ :: _ :: _ => true | _ => false end
  | _ => false
  end.

(** Parts of clauses and lists without brackets. *)
Definition open_part (e : expr) : bool :=
  match e with
  | EWhere _ _ | EOrder _ _ | ESkip _ _ | ELimit _ _ | EYield _ _ | EExprs _ _ | EPattern _ _ | EListPred _ _ _ _ => true
  | _ => false
  end.

(** Names outside of brackets are no keywords; property names are not blank;
    texts written as the caller gave them add nothing. *)
Definition own_calm (top : bool) (e : expr) : Prop :=
  match e with
  | ESym _ n => top = true -> n = "" \/ reserved n = false
  | EParam _ n => calm_at top n
  | ERaw _ s => calm_at top s
  | EFun _ n _ _ => calm_at top n
  | ELookup _ n => blank n = false
  | EOperation _ _ o _ | EComparison _ _ o _ => top = true -> o <> GetProp
  | EAlias _ _ _ a => reserved a = false
  | ENode _ (Some (_, n)) _ _ => calm_inside n
  | EEntry _ n _ => top = true -> reserved n = false
  | _ => True
  end.

(** [top]: outside of brackets. *)
Inductive calm : bool -> expr -> Prop :=
| cm : forall top e, own_calm top e -> (top = true -> open_part e = false) ->
    Forall (calm (top && negb (bracketed e))) (children e) -> calm top e.

(** No clause and no list of a clause is given an alias.  Lists and parts of clauses: what they contain is calm. *)
Definition calm_items (e : expr) : Prop :=
  match e with EExprs k l | EPattern k l => ~ K k /\ Forall (calm true) l | _ => calm true e end.
Definition calm_part (e : expr) : Prop :=
  match e with
  | EWhere _ c | ESkip _ c | ELimit _ c => calm true c
  | EOrder _ l | EYield _ l => Forall (calm true) l
  | _ => calm true e
  end.
Definition calm_parts (o : option expr) : Prop := Forall calm_part (opt_list o).
Definition calm_body (b : body) : Prop :=
  calm_items (b_items b) /\ calm_parts (b_order b) /\ calm_parts (b_skip b) /\ calm_parts (b_limit b).

Inductive calm_q : query -> Prop :=
| cq_match : forall k o p w, ~ K k -> calm_items p -> calm_parts w -> calm_q (QMatch k o p w)
| cq_create : forall k p, ~ K k -> calm_items p -> calm_q (QCreate k p)
| cq_merge : forall k p evs, ~ K k -> calm_items p -> Forall calm_q evs -> calm_q (QMerge k p evs)
| cq_blank : forall k, ~ K k -> calm_q (QBlank k)
| cq_action : forall k c s, ~ K k -> calm_q s -> calm_q (QAction k c s)
| cq_delete : forall k d e, ~ K k -> calm_items e -> calm_q (QDelete k d e)
| cq_set : forall k e, ~ K k -> calm_items e -> calm_q (QSet k e)
| cq_remove : forall k e, ~ K k -> calm_items e -> calm_q (QRemove k e)
| cq_unwind : forall k e v, ~ K k -> calm true e -> calm_text v -> calm_q (QUnwind k e v)
| cq_with : forall k d b w, ~ K k -> calm_body b -> calm_parts w -> calm_q (QWith k d b w)
| cq_return : forall k d b, ~ K k -> calm_body b -> calm_q (QReturn k d b)
| cq_call : forall k kn sp n a y w, ~ K k -> (forall ks x, sp = Some (ks, x) -> calm_text x) -> calm_text n ->
    calm_parts a -> calm_parts y -> calm_parts w -> calm_q (QCall k kn sp n a y w)
| cq_sub : forall k q, ~ K k -> calm_q q -> calm_q (QSubquery k q)
| cq_single : forall cs r, Forall calm_q cs -> Forall calm_q (opt_list r) -> calm_q (QSingle cs r)
| cq_multi : forall ps r, (forall k cs w, In (k, cs, w) ps -> ~ K k /\ Forall calm_q cs /\ calm_q w) -> calm_q r ->
    calm_q (QMulti ps r)
| cq_union : forall k q qs, ~ K k -> calm_q q -> (forall ku a x, In (ku, a, x) qs -> ~ K ku /\ calm_q x) -> calm_q (QUnion k q qs).

End Calm.
