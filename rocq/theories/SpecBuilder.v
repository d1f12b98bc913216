(** Specification: what a chain of builder calls says.

    Every call either starts a new phrase at the end or completes the last one.
    [written] lists the phrases in the order of the calls; [says] relates a
    phrase to a clause of a statement, [clauses] lists the clauses of a
    statement in the order in which they are rendered.  Nothing here refers to
    the state of a builder. *)

From Coq Require Import String List ZArith Bool.
From Verif Require Import VTree Ast Num GoVal SpecCond Cond Queries Builder.
Import ListNotations.
Open Scope string_scope.
Open Scope list_scope.

(** ** Phrases *)

(** One item of a SET or REMOVE. *)
Inductive item :=
| Assign (target value : expr)                     (* target = value *)
| Labels (name : string) (labels : list string)    (* name:`label`:`label` *)
| Plain (e : expr).                                (* anything else *)

(** Sorting, in the order of the calls: expression and, if given, whether
    descending. *)
Record sorting := Sorting { s_items : list (expr * option bool); s_skip : option Z; s_limit : option Z }.
Definition unsorted : sorting := Sorting [] None None.

(** The condition given to Where and those then added with And and Or. *)
Definition conditions := option (cnd * list (conn * cnd)).

Inductive phrase :=
| PMatch (optional : bool) (patterns : list expr) (c : conditions)
| PCreate (patterns : list expr)
| PMerge (patterns : list expr) (actions : list (bool * list item))    (* true: ON CREATE *)
| PDelete (detach : bool) (items : list expr)
| PSet (items : list item)
| PRemove (items : list item)
| PUnwind (e : expr) (variable : string)
| PSubquery (q : query)
| PCall (name : list string) (args : list expr) (yields : list expr) (c : conditions)
| PWith (distinct : bool) (items : list expr) (s : sorting) (c : conditions)
| PReturn (distinct : bool) (items : list expr) (s : sorting).

(** ** The phrases of a chain of calls *)

Definition the_exprs (l : list gval) : list expr :=
  flat_map (fun g => match g with GOk e => [e] | GErr _ _ => [] end) l.

(** An operation stands for itself, other expressions are target and value in
    turn. *)
Definition item_of (e : expr) : item :=
  match e with
  | EOperation _ a SetProp b => Assign a b
  | EOperation _ (ESym _ n) SetLabel (ELabels _ ls) | EOperation _ (ESym _ n) RemoveLabel (ELabels _ ls) =>
      Labels n (map snd ls)
  | _ => Plain e
  end.

Fixpoint assignments (l : list expr) : list item :=
  match l with
  | (EOperation _ _ _ _ as o) :: l' => item_of o :: assignments l'
  | a :: b :: l' => Assign a b :: assignments l'
  | _ => []
  end.

Definition name_of (n : node_ref) : string := match n with NodeNamed _ n => n | _ => "" end.

(** The phrase that a call starts; None for calls that complete one. *)
Definition starts (c : call) : option phrase :=
  match c with
  | Match o ps => Some (PMatch o (the_exprs ps) None)
  | Create ps => Some (PCreate (the_exprs ps))
  | Merge ps => Some (PMerge (the_exprs ps) [])
  | Delete b l => Some (PDelete b (the_exprs l))
  | SetItems l => Some (PSet (assignments (the_exprs l)))
  | SetLabels n ls => Some (PSet [Labels (name_of n) ls])
  | RemoveLabels n ls => Some (PRemove [Labels (name_of n) ls])
  | RemoveItems l => Some (PRemove (map item_of (the_exprs l)))
  | Unwind (GOk e) v => Some (PUnwind e v)
  | Sub (StOk q) => Some (PSubquery q)
  | Proc parts => Some (PCall parts [] [] None)
  | With b l => Some (PWith b (the_exprs l) unsorted None)
  | Returning b l => Some (PReturn b (the_exprs l) unsorted)
  | _ => None
  end.

Definition sort_by (s : sorting) (g : gval) : sorting :=
  Sorting (s_items s ++ map (fun e => (e, None)) (the_exprs [g])) (s_skip s) (s_limit s).

(** Descending and Ascending concern the last expression. *)
Definition direct (s : sorting) (desc : bool) : sorting :=
  match rev (s_items s) with
  | (e, _) :: l => Sorting (rev l ++ [(e, Some desc)]) (s_skip s) (s_limit s)
  | [] => s
  end.

Definition sort_completed (s : sorting) (c : call) : sorting :=
  match c with
  | OrderItems l => Sorting (s_items s ++ flat_map (fun i => match i with Sort _ e d => [(e, d)] | _ => [] end) l)
                            (s_skip s) (s_limit s)
  | OrderBy g | Then g => sort_by s g
  | Descending => direct s true
  | Ascending => direct s false
  | Skip z => Sorting (s_items s) (Some z) (s_limit s)
  | Limit z => Sorting (s_items s) (s_skip s) (Some z)
  | _ => s
  end.

Definition conditions_completed (w : conditions) (c : call) : conditions :=
  match c, w with
  | Where x, _ => Some (x, [])
  | AndC x, Some (y, l) => Some (y, l ++ [(CAnd, x)])
  | OrC x, Some (y, l) => Some (y, l ++ [(COr, x)])
  | _, _ => w
  end.

Definition completed (p : phrase) (c : call) : phrase :=
  match p with
  | PMatch o ps w => PMatch o ps (conditions_completed w c)
  | PMerge ps actions =>
      match c with
      | OnAction b l => PMerge ps (actions ++ [(b, assignments (the_exprs l))])
      | _ => p
      end
  | PCall n a y w =>
      match c with
      | Args (Some l) => PCall n (the_exprs l) y w
      | Args None => PCall n [] y w
      | Yield l => PCall n a (the_exprs l) w
      | _ => PCall n a y (conditions_completed w c)
      end
  | PWith b l s w => PWith b l (sort_completed s c) (conditions_completed w c)
  | PReturn b l s => PReturn b l (sort_completed s c)
  | _ => p
  end.

Definition complete_last (ph : list phrase) (c : call) : list phrase :=
  match rev ph with p :: l => rev l ++ [completed p c] | [] => [] end.

Definition write_call (ph : list phrase) (c : call) : list phrase :=
  match starts c with Some p => ph ++ [p] | None => complete_last ph c end.

Definition written (p : list call) : list phrase := fold_left write_call p [].

(** ** Clauses that say what a phrase says *)

(** [chained x l z]: z is what calling And and Or on x with the conditions of l
    returns, one after the other, whatever the addresses of the new conditions
    are. *)
Inductive chained : cnd -> list (conn * cnd) -> cnd -> Prop :=
| ch_done : forall x, chained x [] x
| ch_more : forall ks o x y z l, condition_chain ks (bop_of_conn o) x y = Val z ->
    forall z', chained z l z' -> chained x ((o, y) :: l) z'.

(** Conditions that constrain nothing. *)
Definition no_condition (c : cnd) : Prop := c = Empty \/ exists k o n, c = Comp k o [] n.

(** The WHERE of a clause. *)
Definition says_where (c : conditions) (w : option expr) : Prop :=
  match c with
  | None => w = None
  | Some (x, l) =>
      exists z, chained x l z
        /\ ((no_condition z /\ w = None) \/ (~ no_condition z /\ exists k, w = Some (EWhere k (cond_expr z))))
  end.

Definition says_items (l : list item) (e : expr) : Prop :=
  exists k es, e = EExprs k es /\ map item_of es = l.

Definition says_action (a : bool * list item) (q : query) : Prop :=
  exists k ks e, q = QAction k (fst a) (QSet ks e) /\ says_items (snd a) e.

Definition says_sort (i : expr * option bool) (e : expr) : Prop := exists k, e = ESort k (fst i) (snd i).

(** Order, SKIP and LIMIT of a RETURN or WITH. *)
Definition says_sorting (s : sorting) (b : body) : Prop :=
  (match s_items s with
   | [] => b_order b = None
   | l => exists k es, b_order b = Some (EOrder k es) /\ Forall2 says_sort l es
   end)
  /\ (match s_skip s with
      | None => b_skip b = None
      | Some z => exists k k', b_skip b = Some (ESkip k (ENum k' (num_of_Z z)))
      end)
  /\ (match s_limit s with
      | None => b_limit b = None
      | Some z => exists k k', b_limit b = Some (ELimit k (ENum k' (num_of_Z z)))
      end).

Definition says_body (l : list expr) (s : sorting) (b : body) : Prop :=
  (exists k, b_items b = EExprs k l) /\ says_sorting s b.

(** The name of a procedure, its parts joined by '.'. *)
Definition qualified (space : option (key * string)) (name : string) : string :=
  match space with Some (_, s) => (s ++ "." ++ name)%string | None => name end.

Definition says (p : phrase) (q : query) : Prop :=
  match p, q with
  | PMatch o ps c, QMatch _ o' e w => o' = o /\ (exists k, e = EPattern k ps) /\ says_where c w
  | PCreate ps, QCreate _ e => exists k, e = EPattern k ps
  | PMerge ps actions, QMerge _ e evs =>
      (exists k, e = EPattern k ps) /\ exists kb evs', evs = QBlank kb :: evs' /\ Forall2 says_action actions evs'
  | PDelete b l, QDelete _ b' e => b' = b /\ exists k, e = EExprs k l
  | PSet l, QSet _ e => says_items l e
  | PRemove l, QRemove _ e => says_items l e
  | PUnwind e v, QUnwind _ e' v' =>
      v' = v /\ match e with EAlias _ _ _ a => exists k, e' = ESym k a | _ => e' = e end
  | PSubquery s, QSubquery _ s' => s' = s
  | PCall n args yields c, QCall _ _ space name a y w =>
      qualified space name = String.concat "." n
      /\ (length n = 1 -> space = None)
      /\ (exists k, a = Some (EArgs k args))
      /\ match yields with [] => y = None | _ => exists k, y = Some (EYield k yields) end
      /\ says_where c w
  | PWith b l s c, QWith _ b' bd w => b' = b /\ says_body l s bd /\ says_where c w
  | PReturn b l s, QReturn _ b' bd => b' = b /\ says_body l s bd
  | _, _ => False
  end.

(** The clauses of a statement in the order of its text (single_part_query.go:56-66,
    multi_part_query.go:40-47, multipart_element.go:45-53). *)
Definition clauses_of_part (p : key * list query * query) : list query := snd (fst p) ++ [snd p].

Fixpoint clauses (q : query) : list query :=
  match q with
  | QSingle cs r => cs ++ match r with Some r => [r] | None => [] end
  | QMulti parts r => flat_map clauses_of_part parts ++ clauses r
  | _ => [q]
  end.

(** ** Programs without the misuses that the library does not support *)

Definition no_error (l : list gval) : bool :=
  forallb (fun g => match g with GOk _ => true | GErr _ _ => false end) l.
Definition nonempty {A} (l : list A) : bool := match l with [] => false | _ => true end.

(** Operations come first, the others are an even number and have a name. *)
Fixpoint pairs (l : list expr) : bool :=
  match l with
  | [] => true
  | a :: b :: l' =>
      (negb (is_operation a) && negb (is_operation b) && negb (is_zero a) && negb (is_zero b) && pairs l')%bool
  | [_] => false
  end.
Fixpoint set_list (l : list expr) : bool :=
  match l with
  | EOperation _ _ _ _ :: l' => set_list l'
  | _ => pairs l
  end.

Definition sound_sort (s : sort) : bool := match s with Sort _ _ _ => true | _ => false end.

(** A statement that a subquery may hold: it ends in RETURN, is a procedure call
    with YIELD or a union. *)
Fixpoint returns_something (q : query) : bool :=
  match q with
  | QSingle _ (Some _) => true
  | QMulti _ r => returns_something r
  | QCall _ _ _ _ _ (Some _) _ => true
  | QUnion _ _ _ => true
  | _ => false
  end.

(** Arguments without errors; one pattern per CREATE and MERGE, one part per
    procedure name, at least one item, no LIMIT 0. *)
Definition sound_args (c : call) : bool :=
  match c with
  | Match _ l | Delete _ l | RemoveItems l => no_error l
  | Create l | Merge l => (no_error l && Nat.eqb (length l) 1)%bool
  | Where x | AndC x | OrC x => sound_cnd x
  | With _ l | Returning _ l | Yield l => (no_error l && nonempty l)%bool
  | OnAction _ l | SetItems l => (no_error l && set_list (the_exprs l))%bool
  | SetLabels n ls | RemoveLabels n ls => (nonempty ls && match n with NodeNamed _ _ => true | _ => false end)%bool
  | Unwind g _ | OrderBy g | Then g => no_error [g]
  | Sub s => match s with StOk q => returns_something q | _ => false end
  | Proc parts => Nat.eqb (length parts) 1
  | Args None => true
  | Args (Some l) => (no_error l && nonempty l)%bool
  | OrderItems l => forallb sound_sort l
  | Limit z => negb (Z.eqb z 0)
  | Descending | Ascending | Skip _ => true
  end.

(** What the library does not support after some phrases:
    WHERE after a subquery; And and Or without WHERE, or after the WHERE of a
    procedure; ON CREATE and ON MATCH after anything but MERGE; REMOVE and SET
    of labels after ON CREATE or ON MATCH; SET, REMOVE and UNWIND after the
    WHERE of a procedure; RETURN DISTINCT after SET and REMOVE. *)
Definition fits (before : option phrase) (c : call) : bool :=
  match before, c with
  | Some (PSubquery _), Where _ => false
  | Some (PCall _ _ _ _), (AndC _ | OrC _ | SetItems _ | SetLabels _ _ | RemoveLabels _ _ | RemoveItems _ | Unwind _ _) => false
  | Some (PWith _ _ _ None), (AndC _ | OrC _) => false
  | Some (PMerge _ _), (SetLabels _ _ | RemoveLabels _ _ | RemoveItems _) => false
  | Some (PMerge _ _), OnAction _ _ => true
  | _, OnAction _ _ => false
  | Some (PSet _), Returning true _ | Some (PRemove _), Returning true _ => false
  | _, _ => true
  end.

Definition last_phrase (ph : list phrase) : option phrase := match rev ph with p :: _ => Some p | [] => None end.

Fixpoint orderly_from (ph : list phrase) (p : list call) : bool :=
  match p with
  | [] => true
  | c :: p' => (sound_args c && fits (last_phrase ph) c && orderly_from (write_call ph c) p')%bool
  end.
Definition orderly (p : list call) : bool := orderly_from [] p.
