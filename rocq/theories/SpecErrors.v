(** Specification: which arguments of builder calls carry an error. *)

From Coq Require Import String List ZArith Bool.
From Verif Require Import VTree Ast GoVal SpecCond Cond Queries Builder SpecBuilder.
Import ListNotations.
Open Scope list_scope.

(** An odd number of expressions that are no operations. *)
Definition odd_set (l : list gval) : bool :=
  Nat.odd (length (filter (fun e => negb (is_operation e)) (the_exprs l))).

Definition node_error (n : node_ref) : bool := match n with NodeErr _ => true | _ => false end.

(** A statement that returns no rows: it ends without RETURN, or is a procedure
    call without YIELD. *)
Fixpoint returns_nothing (q : query) : bool :=
  match q with
  | QSingle _ None => true
  | QMulti _ r => returns_nothing r
  | QCall _ _ _ _ _ None _ => true
  | _ => false
  end.

(** Arguments that are or must be reported as errors. *)
Definition faulty (c : call) : bool :=
  match c with
  | Match _ l | Create l | Merge l | With _ l | Returning _ l | Delete _ l | RemoveItems l | Yield l
  | Args (Some l) => negb (no_error l)
  | SetItems l | OnAction _ l => (negb (no_error l) || odd_set l)%bool
  | SetLabels n ls | RemoveLabels n ls => (node_error n || negb (nonempty ls))%bool
  | Unwind g _ | OrderBy g | Then g => negb (no_error [g])
  | Sub s => match s with StErr _ _ => true | StOk q => returns_nothing q | _ => false end
  | Where x | AndC x | OrC x => match get_error x with Some _ => true | None => false end
  | OrderItems l => existsb (fun s => match s with SortErr _ => true | _ => false end) l
  | Proc _ | Args None | Descending | Ascending | Skip _ | Limit _ => false
  end.

(** Positions where the library looks at the error.  Not the others: sort
    items, YIELD, the arguments of a call at the start of a statement, AND after
    MATCH, all conditions of WITH and CALL, and RETURN after SET and REMOVE. *)
Definition examined (i : iface) (c : call) : bool :=
  match c, i with
  | Returning _ _, IMatchAndUpdate => false
  | Where _, IReadingWithoutWhere => true
  | OrC _, IReadingWithWhere => true
  | (Where _ | AndC _ | OrC _ | Yield _ | OrderBy _ | Then _ | OrderItems _), _ => false
  | Args _, ICallWithoutArgs => true
  | Args _, _ => false
  | _, _ => true
  end.

(** Build returned a statement that carries no error. *)
Definition made_statement (r : option (outcome built)) : bool :=
  match r with Some (Returns (Built (StErr _ _))) => false | Some (Returns (Built _)) => true | _ => false end.
