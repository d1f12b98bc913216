(** Statements: single_part_query.go, multi_part_query.go, multipart_element.go,
    union_query.go, union_part.go, subquery.go and Union, UnionAll (cypher.go).

    Keys of new elements are arguments. *)

From Coq Require Import Ascii String List ZArith Bool.
From Verif Require Import GoStr Escape Num VTree Ast GoVal.
Import ListNotations.
Open Scope string_scope.

(** A clause that a builder has produced. *)
Inductive clause :=
| COk (q : query)
| CErr (is_match : bool) (msg : string)    (* carries an error; whether its type is MatchPhrase *)
| CBroken (is_match : bool).               (* no error, but some part of it is nil or carries one;
                                              what rendering it does is not modelled *)

(** A value of type Statement: a query without error, a value with an error
    (of type UnionQuery or not), one with a broken part, or nil.  Values of
    other Visitable types, which the Go type also accepts, are not modelled. *)
Inductive statement :=
| StOk (q : query)
| StErr (is_union : bool) (msg : string)
| StBroken (is_union : bool)
| StNil.

(** [GetError]; nil has none. *)
Definition statement_error (s : statement) : option string :=
  match s with StErr _ m => Some m | _ => None end.

Definition is_match_clause (c : clause) : bool :=
  match c with
  | COk (QMatch _ _ _ _) => true
  | COk _ => false
  | CErr b _ => b
  | CBroken b => b
  end.

Fixpoint first_clause_error (l : list clause) : option string :=
  match l with
  | [] => None
  | CErr _ m :: _ => Some m
  | _ :: l' => first_clause_error l'
  end.

Definition sound_clauses (l : list clause) : list query :=
  flat_map (fun c => match c with COk q => [q] | _ => [] end) l.

Definition has_broken (l : list clause) : bool :=
  existsb (fun c => match c with CBroken _ => true | _ => false end) l.

Fixpoint last_clause (l : list clause) : option clause :=
  match l with [] => None | [c] => Some c | _ :: l' => last_clause l' end.

(** A RETURN: return.go:11-31 never carries an error, because ReturnBodyCreate
    (return_body.go:13-35) drops those of its parts. *)
Inductive returning := NoReturn | Return (q : query) | BrokenReturn.

Definition return_not_nil (r : returning) : bool := match r with NoReturn => false | _ => true end.

(** single_part_query.go:15-39 [SinglePartQueryCreate]. *)
Definition single_part_create (cs : list clause) (r : returning) : statement :=
  let ends_in_match := match last_clause cs with Some c => is_match_clause c | None => true end in
  if (ends_in_match && negb (return_not_nil r))%bool then StErr false "required return clause"
  else match first_clause_error cs with
       | Some m => StErr false m
       | None =>
           if has_broken cs then StBroken false
           else match r with
                | NoReturn => StOk (QSingle (sound_clauses cs) None)
                | Return q => StOk (QSingle (sound_clauses cs) (Some q))
                | BrokenReturn => StBroken false
                end
       end.

(** A multi-part element. *)
Inductive part :=
| POk (k : key) (clauses : list query) (w : query)
| PErr (msg : string)
| PBroken.

(** multipart_element.go:11-34 [MultiPartElementCreate]. *)
Definition multi_part_element_create (k : key) (cs : list clause) (w : clause) : part :=
  match first_clause_error cs with
  | Some m => PErr m
  | None =>
      match w with
      | CErr _ m => PErr m
      | CBroken _ => PBroken
      | COk q => if has_broken cs then PBroken else POk k (sound_clauses cs) q
      end
  end.

(** multi_part_query.go:28-30 [MultiPartQueryError] calls itself unconditionally. *)
Definition multi_part_query_error (msg : string) : outcome statement := Diverges.

Fixpoint first_part_error (l : list part) : option string :=
  match l with
  | [] => None
  | PErr m :: _ => Some m
  | _ :: l' => first_part_error l'
  end.

Definition sound_parts (l : list part) : list (key * list query * query) :=
  flat_map (fun p => match p with POk k cs w => [(k, cs, w)] | _ => [] end) l.

Definition has_broken_part (l : list part) : bool :=
  existsb (fun p => match p with PBroken => true | _ => false end) l.

(** multi_part_query.go:11-26 [MultiPartQueryCreate]. *)
Definition multi_part_query_create (ps : list part) (remainder : statement) : outcome statement :=
  match first_part_error ps with
  | Some m => multi_part_query_error m
  | None =>
      match remainder with
      | StErr _ m => multi_part_query_error m
      | StOk q => if has_broken_part ps then Returns (StBroken false) else Returns (StOk (QMulti (sound_parts ps) q))
      | StBroken _ | StNil => Returns (StBroken false)
      end
  end.

(** ** Unions *)

Fixpoint first_statement_error (l : list statement) : option string :=
  match l with
  | [] => None
  | s :: l' => match statement_error s with Some m => Some m | None => first_statement_error l' end
  end.

Definition sound_statements (l : list statement) : list query :=
  flat_map (fun s => match s with StOk q => [q] | _ => [] end) l.

Definition is_broken_statement (s : statement) : bool := match s with StOk _ | StErr _ _ => false | _ => true end.

(** union_query.go:16-42, union_part.go:11-22.  [ks 0] is the key of the union,
    [ks (S i)] that of its i-th part. *)
Definition union_query_create (ks : nat -> key) (all : bool) (l : list statement) : statement :=
  if Nat.ltb (length l) 2 then StErr true "at least two queries are needed"
  else match first_statement_error l with
       | Some m => StErr true m
       | None =>
           if existsb is_broken_statement l then StBroken true
           else match sound_statements l with
                | [] => StErr true "at least two queries are needed"
                | q :: qs => StOk (QUnion (ks 0) q (combine (map (fun i => (ks (S i), all)) (seq 0 (length qs))) qs))
                end
       end.

(** The field [all] of a UnionQuery: given to every part (union_query.go:26-28);
    a union with an error has the zero value. *)
Definition union_all_of (more : list (key * bool * query)) : bool :=
  match more with (_, b, _) :: _ => b | [] => false end.

(** union_query.go:50-58 [addAdditionalQueries]. *)
Definition add_additional_queries (ks : nat -> key) (first : query) (more : list (key * bool * query))
  (l : list statement) : statement :=
  union_query_create ks (union_all_of more) (StOk first :: map (fun p => StOk (snd p)) more ++ l).

(** cypher.go:568-594 [unionImpl].  Every value of an interface type but nil is
    a SingleQuery, which has the methods of Statement only. *)
Definition union_impl (ks : nat -> key) (all : bool) (l : list statement) : statement :=
  if Nat.ltb (length l) 2 then StErr true "at least 2 statements are required"
  else
    let single_queries (rest : list statement) (k : statement) : statement :=
      if existsb (fun s => match s with StNil => true | _ => false end) rest
      then StErr true "can only union single queries" else k in
    match l with
    | StOk (QUnion _ q more) :: rest =>
        if negb (Bool.eqb (union_all_of more) all) then StErr true "cannot mix union and union all"
        else single_queries rest (add_additional_queries ks q more rest)
    | StErr true _ :: rest =>
        if negb (Bool.eqb false all) then StErr true "cannot mix union and union all"
        else single_queries rest (union_query_create ks all rest)
    | _ => single_queries l (union_query_create ks all l)
    end.

(** ** Subqueries *)

(** subquery.go:30-39 with the doesReturnElements of single_part_query.go:72-74,
    multi_part_query.go:57-59 and procedure_call.go:70-72. *)
Fixpoint returns_elements (q : query) : bool :=
  match q with
  | QSingle _ (Some _) => true
  | QMulti _ r => returns_elements r
  | QCall _ _ _ _ _ (Some _) _ => true
  | QUnion _ _ _ => true
  | _ => false
  end.

(** subquery.go:14-44 [SubqueryCall]. *)
Definition subquery_call (k : key) (s : statement) : clause :=
  match s with
  | StErr _ m => CErr false m
  | StOk q => if returns_elements q then COk (QSubquery k q)
             else CErr false "only a statement that returns elements, either via return or yield, can be used In a subquery"
  | StBroken _ => CBroken false
  | StNil => CErr false "only a statement that returns elements, either via return or yield, can be used In a subquery"
  end.

(** ** Error constructors that call themselves

    Big-step evaluation of the three functions: [..._returns e v] when the call
    with error [e] returns [v].  The body is a call of the function itself, so
    the only rule is that the call returns what the same call returns. *)

(** multi_part_query.go:28-30. *)
Inductive multi_part_query_error_returns (e : string) : statement -> Prop :=
| mpqe_body : forall v, multi_part_query_error_returns e v -> multi_part_query_error_returns e v.

(** string_literal.go:34-36. *)
Inductive string_literal_error_returns (e : string) : gval -> Prop :=
| sle_body : forall v, string_literal_error_returns e v -> string_literal_error_returns e v.

(** raw_string_literal.go:21-23. *)
Inductive raw_string_literal_error_returns (e : string) : gval -> Prop :=
| rsle_body : forall v, raw_string_literal_error_returns e v -> raw_string_literal_error_returns e v.
