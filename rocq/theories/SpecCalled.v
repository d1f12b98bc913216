(** Specification: when a clause that a Cypher reader reads (SpecGrammar.v) is
    the one that a phrase of builder calls (SpecBuilder.v) asks for, and which
    phrases are written so that it is. *)

From Coq Require Import Ascii String List ZArith Bool.
From Verif Require Import GoStr Escape Num VTree Ast SpecDoc SpecPrint SpecTokens SpecShape SpecOutline SpecGrammar SpecReading GoVal SpecCond Cond Queries
  Builder SpecBuilder SpecPhrases.
Import ListNotations.
Open Scope string_scope.
Open Scope list_scope.

(** ** The aliases that the calls give *)

Definition condition_exprs (c : conditions) : list expr :=
  match c with None => [] | Some (x, l) => map cond_expr (x :: map snd l) end.
Definition item_exprs (i : item) : list expr := match i with Assign a b => [a; b] | Labels _ _ => [] | Plain e => [e] end.
Definition sorting_exprs (s : sorting) : list expr := map fst (s_items s).

(** The expressions of a phrase.  UNWIND of an aliased expression concerns the
    name only. *)
Definition phrase_exprs (p : phrase) : list expr :=
  match p with
  | PMatch _ ps c => ps ++ condition_exprs c
  | PCreate ps => ps
  | PMerge ps actions => ps ++ flat_map (fun a : bool * list item => flat_map item_exprs (snd a)) actions
  | PDelete _ l => l
  | PSet l | PRemove l => flat_map item_exprs l
  | PUnwind (EAlias _ _ _ _) _ => []
  | PUnwind e _ => [e]
  | PSubquery _ => []
  | PCall _ args ys c => args ++ ys ++ condition_exprs c
  | PWith _ l s c => l ++ sorting_exprs s ++ condition_exprs c
  | PReturn _ l s => l ++ sorting_exprs s
  end.
Definition phrase_gives (k : key) (a : string) (p : phrase) : Prop :=
  (exists e, List.In e (phrase_exprs p) /\ gives_alias_in k a e)
  \/ match p with PSubquery q => gives_alias k a q | _ => False end.
(** [called p k a]: one of the calls gives the alias [a] to the element with
    key [k]. *)
Definition called (p : list Builder.call) (k : key) (a : string) : Prop :=
  exists ph, List.In ph (written p) /\ phrase_gives k a ph.

(** The calls give the aliases, and the clauses of the statement that is built
    say what is written again. *)
Definition calls (E : env) (p : list Builder.call) (q : query) : register :=
  Register (called p) (written_again (Cat (map (print_query E) (clauses q)))).

Section Called.
Context (E : env) (A : register).
Notation agrees := (agrees E A).

(** ** What is asked for *)

(** A name, which may be the alias of its element. *)
Definition asks_name (x : string) (t : cx) : Prop := exists k, agrees t (ESym k x).

(** The condition that And and Or make of the conditions given, unless it
    constrains nothing. *)
Definition asks_where (c : conditions) (w : option cx) : Prop :=
  match c with
  | None => w = None
  | Some (x, l) =>
      exists z, chained x l z
        /\ ((no_condition z /\ w = None) \/ (~ no_condition z /\ exists t, w = Some t /\ agrees t (cond_expr z)))
  end.

Definition asks_set (i : item) (s : cset) : Prop :=
  match i, s with
  | Assign a b, SAssign t u => agrees t a /\ agrees u b
  | Labels n ls, SLabels (XLabels t ls') => asks_name n t /\ ls' = ls
  | Plain e, _ => agrees_set E A s e
  | _, _ => False
  end.
Definition asks_removal (i : item) (t : cx) : Prop :=
  match i, t with
  | Labels n ls, XLabels u ls' => asks_name n u /\ ls' = ls
  | Plain e, _ => agrees_removal E A t e
  | _, _ => False
  end.
Definition asks_action (a : bool * list item) (b : bool * list cset) : Prop :=
  fst b = fst a /\ Forall2 asks_set (snd a) (snd b).

Definition number (z : Z) : cx :=
  if (z <? 0)%Z then XNeg (XNum (text_g10 (n_mant (num_of_Z z)) (n_exp (num_of_Z z)))) else XNum (number_text (num_of_Z z)).
Definition asks_sorting (s : sorting) (order : list (cx * option bool)) (skip limit : option cx) : Prop :=
  Forall2 (fun i o => agrees (fst o) (fst i) /\ snd o = snd i) (s_items s) order
  /\ skip = option_map number (s_skip s) /\ limit = option_map number (s_limit s).

Definition asks (p : phrase) (c : cclause) : Prop :=
  match p, c with
  | PMatch o ps w, CMatch o' ts t => o' = o /\ Forall2 (agrees_part E A) ts ps /\ asks_where w t
  | PCreate ps, CCreate ts => Forall2 (agrees_part E A) ts ps
  | PMerge ps actions, CMerge ts l => Forall2 (agrees_part E A) ts ps /\ Forall2 asks_action actions l
  | PDelete d l, CDelete d' ts => d' = d /\ Forall2 agrees ts l
  | PSet l, CSet ts => Forall2 asks_set l ts
  | PRemove l, CRemove ts => Forall2 asks_removal l ts
  | PUnwind e v, CUnwind t v' => v' = v /\ match e with EAlias _ _ _ a => asks_name a t | _ => agrees t e end
  | PSubquery q, CSub l us => agrees_q E A l us q
  | PCall n args ys w, CCall l al yl t =>
      tokens E (String.concat "." n) = Some (spelling l)
      /\ (exists ts, al = Some ts /\ Forall2 agrees ts args)
      /\ match ys with [] => yl = None | _ => exists ts, yl = Some ts /\ Forall2 (agrees_item E A) ts ys end
      /\ asks_where w t
  | PWith d l s w, CWith (CBody d' ts order skip limit) t =>
      d' = d /\ Forall2 (agrees_item E A) ts l /\ asks_sorting s order skip limit /\ asks_where w t
  | PReturn d l s, CReturn (CBody d' ts order skip limit) =>
      d' = d /\ Forall2 (agrees_item E A) ts l /\ asks_sorting s order skip limit
  | _, _ => False
  end.

End Called.

Section Reading.
Context (E : env) (A : key -> string -> Prop).

Notation readable := (readable E A).

(** ** What can be read *)

(** Whatever the addresses of the conditions made by And and Or are. *)
Definition readable_conditions (c : conditions) : Prop :=
  match c with None => True | Some (x, l) => forall z, chained x l z -> ~ no_condition z -> readable (At 0) (cond_expr z) end.
Definition readable_labels (n : string) (ls : list string) : Prop := variable n /\ ls <> [] /\ Forall (fun l => l <> "") ls.
Definition readable_setting (i : item) : Prop :=
  match i with
  | Assign a b => readable (At 10) a /\ readable (At 0) b
  | Labels n ls => readable_labels n ls
  | Plain e => readable_set E A e
  end.
Definition readable_removing (i : item) : Prop :=
  match i with
  | Assign _ _ => False
  | Labels n ls => readable_labels n ls
  | Plain e => readable_removal E A e
  end.
Definition readable_sorting (s : sorting) : Prop := Forall (fun i => readable (At 0) (fst i)) (s_items s).

Definition readable_phrase (p : phrase) : Prop :=
  match p with
  | PMatch _ ps c => ps <> [] /\ Forall (readable PartP) ps /\ readable_conditions c
  | PCreate ps => ps <> [] /\ Forall (readable PartP) ps
  | PMerge ps actions =>
      ps <> [] /\ Forall (readable PartP) ps
      /\ Forall (fun a : bool * list item => snd a <> [] /\ Forall readable_setting (snd a)) actions
  | PDelete _ l => l <> [] /\ Forall (readable (At 0)) l
  | PSet l => l <> [] /\ Forall readable_setting l
  | PRemove l => l <> [] /\ Forall readable_removing l
  | PUnwind e v => match e with EAlias _ _ _ a => variable a | _ => readable (At 0) e end /\ is_identifier E v = true
  | PSubquery q => readable_q E A q
  | PCall n args ys c =>
      (exists x w l, n = [x] /\ tokens E x = Some (spelling (w :: l)))
      /\ Forall (readable (At 0)) args /\ Forall (readable_item E A) ys /\ readable_conditions c
  | PWith _ l s c => l <> [] /\ Forall (readable_item E A) l /\ readable_sorting s /\ readable_conditions c
  | PReturn _ l s => l <> [] /\ Forall (readable_item E A) l /\ readable_sorting s
  end.

(** ** What stands where it may (SpecShape.v)

    Elements stand where Cypher has such elements, and conditions have no
    errors. *)
Definition aliased (k : key) : Prop := exists a, A k a.
Definition in_place (e : expr) : Prop := shaped E aliased e.
Definition in_place_condition (c : cnd) : Prop := sound_cnd c = true /\ in_place (cond_expr c).
Definition in_place_conditions (c : conditions) : Prop :=
  match c with None => True | Some (x, l) => Forall in_place_condition (x :: map snd l) end.
Definition in_place_item (i : item) : Prop :=
  match i with Assign a b => in_place a /\ in_place b | Labels _ _ => True | Plain e => in_place e end.
Definition in_place_phrase (p : phrase) : Prop :=
  match p with
  | PMatch _ ps c => Forall in_place ps /\ in_place_conditions c
  | PCreate ps => Forall in_place ps
  | PMerge ps actions => Forall in_place ps /\ Forall (fun a : bool * list item => Forall in_place_item (snd a)) actions
  | PDelete _ l => Forall in_place l
  | PSet l | PRemove l => Forall in_place_item l
  | PUnwind e v => match e with EAlias _ _ _ _ => True | _ => in_place e end /\ self_contained E v
  | PSubquery q => shaped_q E aliased q
  | PCall n args ys c => (exists x, n = [x] /\ self_contained E x) /\ Forall in_place args /\ Forall in_place ys /\ in_place_conditions c
  | PWith _ l s c => Forall in_place l /\ Forall (fun i => in_place (fst i)) (s_items s) /\ in_place_conditions c
  | PReturn _ l s => Forall in_place l /\ Forall (fun i => in_place (fst i)) (s_items s)
  end.

(** ** More addresses of what the builder makes, beside [clause_keys] *)

Definition operation_key (e : expr) : list key := match e with EOperation k _ _ _ => [k] | _ => [] end.
Definition operation_keys (e : expr) : list key := match e with EExprs _ l => flat_map operation_key l | _ => [] end.
Definition sort_key (e : expr) : list key := match e with ESort k _ _ => [k] | _ => [] end.
Definition number_key (e : expr) : list key := match e with ENum k _ => [k] | _ => [] end.
Definition inner_keys (o : option expr) : list key :=
  match o with Some (EOrder _ l) => flat_map sort_key l | Some (ESkip _ e) | Some (ELimit _ e) => number_key e | _ => [] end.
Definition body_inner_keys (b : body) : list key := inner_keys (b_order b) ++ inner_keys (b_skip b) ++ inner_keys (b_limit b).
Fixpoint inner_clause_keys (q : query) : list key :=
  match q with
  | QSet _ e | QRemove _ e => operation_keys e
  | QMerge _ _ evs => flat_map inner_clause_keys evs
  | QAction k _ s => match s with QSet ks _ => [ks] | _ => [] end ++ inner_clause_keys s
  | QWith _ _ b _ | QReturn _ _ b => body_inner_keys b
  | QCall _ kn space _ _ _ _ => kn :: match space with Some (ks, _) => [ks] | None => [] end
  | _ => []
  end.

(** None of them is the address of an element that is given an alias. *)
Definition kept_apart (q : query) : Prop :=
  apart E (fun k => exists a, A k a) q
  /\ (forall k a, List.In k (flat_map inner_clause_keys (clauses q)) -> ~ A k a).

End Reading.
