(** Abbreviations of the calls of Builder.v: the methods that take names or
    named elements instead of expressions, or patterns instead of conditions,
    and the functions of cypher.go that take the name of a procedure as one
    string. *)

From Coq Require Import Ascii String List ZArith Bool.
From Verif Require Import GoStr Escape Num VTree Ast GoVal Patterns Cond Exprs Functions Builder.
Import ListNotations.
Open Scope string_scope.

(** expressions.go:20-28 [CreateSymbolicNameByString]: empty strings are skipped. *)
Fixpoint names_of_strings (ks : nat -> key) (l : list string) : list gval :=
  match l with
  | [] => []
  | s :: l' => if String.eqb s "" then names_of_strings ks l'
               else GOk (ESym (ks (length l')) s) :: names_of_strings ks l'
  end.

(** A SymbolicName as an expression; the zero SymbolicName is [ESym "" ""]. *)
Definition name_value (s : sym) : gval :=
  match s with
  | Sym k n => GOk (ESym k n)
  | NoSym => GOk (ESym "" "")
  | BadSym m => GErr TSymbolicName m
  end.

(** expressions.go:11-19 [CreateSymbolicNameByNamed]: nil ([None]) is skipped,
    GetSymbolicName does not require a name. *)
Definition names_of_named (l : list (option named)) : list gval :=
  flat_map (fun x => match x with Some n => [name_value (n_sym n)] | None => [] end) l.

(** The first error of the elements, e.g. default_statement_builder.go:84-88. *)
Fixpoint named_error (l : list (option named)) : option string :=
  match l with
  | [] => None
  | Some n :: l' => match n_err n with Some m => Some m | None => named_error l' end
  | None :: l' => named_error l'
  end.

(** A RelationshipPattern: nil, or a relationship or chain.
    relationship_pattern_condition.go:11-28 [RelationshipPatternConditionCreate].
    Simplified: zero values written by hand, as in [Relationship{}], are left out. *)
Definition pattern := option gval.
Definition pattern_error (p : pattern) : option string := match p with Some g => error_of g | None => None end.
Definition pattern_cnd (k : key) (p : pattern) : outcome cnd :=
  match p with
  | None => Panics
  | Some (GErr _ m) => Returns (Bad m)
  | Some (GOk e) => Returns (Atom (ERelCond k e))
  end.

(** cypher.go:295-297 [ListOf], list_expression.go:10-34; the elements are not nil. *)
Definition list_value (ks : nat -> key) (l : list gval) : gval :=
  match first_error l with
  | Some m => GErr TOther m
  | None => GOk (EListExpr (ks 0) (EExprs (ks 1) (sound_exprs l)))
  end.

(** Returning, ReturningDistinct, With, WithDistinct, Delete, DetachDelete. *)
Inductive verb := VReturning (distinct : bool) | VWith (distinct : bool) | VDelete (detach : bool).

Definition verb_call (v : verb) (l : list gval) : call :=
  match v with VReturning b => Returning b l | VWith b => With b l | VDelete b => Delete b l end.

(** ReturningByString, ..., DetachDeleteByString; ReturningByNamed, ...,
    DetachDeleteByNamed; WherePattern, AndPattern, OrPattern; SetWithNamed;
    OnCreate().SetWithNamed, OnMatch().SetWithNamed; Unwinds(l).As(v);
    UnwindByString(s).As(v); YieldString. *)
Inductive short :=
| ByString (v : verb) (names : list string)
| ByNamed (v : verb) (elements : list (option named))
| WherePattern (p : pattern)
| AndPattern (p : pattern)
| OrPattern (p : pattern)
| SetNamed (x : option named) (g : gval)
| OnActionNamed (on_create : bool) (x : option named) (g : gval)
| Unwinds (l : list gval) (variable : string)
| UnwindByString (s variable : string)
| YieldString (l : list string).

(** The errored builder that a method of [verb] returns. *)
Definition verb_error (v : verb) (m : string) : state :=
  match v with VReturning _ => R (r_error m) | VWith _ => W (w_error m) | VDelete _ => D (d_error m) end.

(** A method of the default builder after its error checks on a pattern. *)
Definition with_pattern (k : key) (p : pattern) (f : cnd -> option (outcome state)) : option (outcome state) :=
  match pattern_cnd k p with Returns c => f c | Panics => Some Panics | Diverges => Some Diverges end.

(** default_statement_builder.go; [kn] are the keys of the names, lists and
    conditions that are made, [ks] those of the method that is then called. *)
Definition d_short (kn ks : nat -> key) (d : dbuilder) (c : short) : option (outcome state) :=
  match c with
  | ByString v l => d_step ks d (verb_call v (names_of_strings kn l))   (* 76-78, 92-97, 111-116, 142-147, 187-192, 218-223 *)
  | ByNamed v l =>                                 (* 80-90, 99-109, 118-128, 149-159, 194-204, 225-235 *)
      match d_err d, named_error l with
      | None, Some m => Some (Returns (verb_error v m))
      | _, _ => d_step ks d (verb_call v (names_of_named l))
      end
  | WherePattern p | AndPattern p | OrPattern p => (* 66-74, 401-409, 422-430 *)
      match d_err d, pattern_error p with
      | Some m, _ | None, Some m => Some (Returns (D (d_error m)))
      | None, None =>
          with_pattern (kn 0) p (fun x => d_step ks d (match c with AndPattern _ => AndC x | OrPattern _ => OrC x | _ => Where x end))
      end
  | SetNamed x g | OnActionNamed _ x g =>          (* 274-285, 722-733 *)
      match d_err d with
      | Some m => Some (Returns (D (d_error m)))
      | None =>
          match c, d_update d with
          | OnActionNamed _ _ _, Some (UMerge _ _) | SetNamed _ _, _ =>
              match named_error [x], error_of g, x with
              | Some m, _, _ | None, Some m, _ => Some (Returns (D (d_error m)))
              | None, None, None => Some Panics
              | None, None, Some n =>
                  d_step ks d (match c with
                               | OnActionNamed b _ _ => OnAction b [name_value (n_sym n); g]
                               | _ => SetItems [name_value (n_sym n); g]
                               end)
              end
          | _, _ => Some (Returns (D (d_error "merge must have been invoked before defining an event")))   (* 456-473 *)
          end
      end
  | Unwinds l v =>                                 (* 323-333 *)
      match d_err d, first_error l with
      | Some _, _ | None, Some _ => Some Panics    (* default_ongoing_unwind.go:24-27 *)
      | None, None => d_step ks d (Builder.Unwind (list_value kn l) v)
      end
  | UnwindByString s v =>                          (* 335-340 *)
      match d_err d with
      | Some _ => Some Panics
      | None => d_step ks d (Builder.Unwind (name_value (symbolic_name_create (kn 0) s)) v)
      end
  | YieldString _ => None
  end.

(** default_statement_with_with_builder.go:80-151, 168-170, 187-193, 233-235,
    242-244, 251-253: nothing is checked.  [required] is the name SetWithNamed
    asks for. *)
Definition w_short (kn ks : nat -> key) (w : wbuilder) (c : short) : option (outcome state) :=
  match c with
  | ByString v l => w_step ks w (verb_call v (names_of_strings kn l))
  | ByNamed v l => w_step ks w (verb_call v (names_of_named l))
  | WherePattern p => with_pattern (kn 0) p (fun x => w_step ks w (Where x))
  | AndPattern p => with_pattern (kn 0) p (fun x => w_step ks w (AndC x))
  | OrPattern p => with_pattern (kn 0) p (fun x => w_step ks w (OrC x))
  | SetNamed None _ => Some Panics
  | SetNamed (Some n) g => w_step ks w (SetItems [name_value (required_name n); g])
  | Unwinds l v => w_step ks w (Builder.Unwind (list_value kn l) v)
  | UnwindByString s v => w_step ks w (Builder.Unwind (name_value (symbolic_name_create (kn 0) s)) v)
  | OnActionNamed _ _ _ | YieldString _ => None
  end.

(** default_statement_with_update.go:121-127, 134-140, 148-154, 165-171, 177-183,
    204-210, 226-228: nothing is checked. *)
Definition u_short (kn ks : nat -> key) (u : ubuilder) (c : short) : option (outcome state) :=
  match c with
  | ByString v l => u_step ks u (verb_call v (names_of_strings kn l))
  | ByNamed v l => u_step ks u (verb_call v (names_of_named l))
  | SetNamed None _ => Some Panics
  | SetNamed (Some n) g => u_step ks u (SetItems [name_value (n_sym n); g])
  | _ => None
  end.

(** in_query_call_builder.go:32-55, 75-96, 106-125; procedure_call.go:167-189,
    233-247, 259-277: nothing is checked. *)
Definition call_short (kn ks : nat -> key) (s : state) (c : short) : option (outcome state) :=
  match c with
  | ByString (VDelete _) _ | ByNamed (VDelete _) _ => None
  | ByString v l => step ks s (verb_call v (names_of_strings kn l))
  | ByNamed v l => step ks s (verb_call v (names_of_named l))
  | WherePattern p => with_pattern (kn 0) p (fun x => step ks s (Where x))
  | YieldString l =>
      step ks s (Yield (map (fun x => name_value (symbolic_name_create (kn (fst x)) (snd x))) (combine (seq 0 (length l)) l)))
  | _ => None
  end.

Definition short_step (kn ks : nat -> key) (s : state) (c : short) : option (outcome state) :=
  match s with
  | D d => d_short kn ks d c
  | W w => w_short kn ks w c
  | U u => u_short kn ks u c
  | I _ _ | S _ => call_short kn ks s c
  | R _ => None
  end.

(** cypher.go:207-221 [WithByString], [WithByNamed], 265-267 [UnwindMulti]. *)
Definition short_start (kn ks : nat -> key) (c : short) : option (outcome state) :=
  match c with
  | ByString (VWith false) _ | ByNamed (VWith false) _ => d_short kn ks d_new c
  | Unwinds l v => d_step ks d_new (Builder.Unwind (list_value kn l) v)
  | _ => None
  end.

(** ** Programs of calls and abbreviations *)

Inductive any_call := Full (c : call) | Short (c : short).

Definition any_step (kn ks : nat -> key) (s : state) (c : any_call) : option (outcome state) :=
  match c with Full c => step ks s c | Short c => short_step kn ks s c end.
Definition any_start (kn ks : nat -> key) (c : any_call) : option (outcome state) :=
  match c with Full c => start ks c | Short c => short_start kn ks c end.

(** [KN i] and [K i]: the keys of what the i-th call makes. *)
Fixpoint any_run (KN K : nat -> nat -> key) (s : state) (p : list any_call) : option (outcome state) :=
  match p with
  | [] => Some (Returns s)
  | c :: p' =>
      match any_step (KN (length p')) (K (length p')) s c with
      | Some (Returns s') => any_run KN K s' p'
      | r => r
      end
  end.

Definition any_run_start (KN K : nat -> nat -> key) (p : list any_call) : option (outcome state) :=
  match p with
  | [] => None
  | c :: p' =>
      match any_start (KN (length p')) (K (length p')) c with
      | Some (Returns s') => any_run KN K s' p'
      | r => r
      end
  end.

Definition any_build (KN K : nat -> nat -> key) (ks : nat -> key) (p : list any_call) : option (outcome built) :=
  match any_run_start KN K p with
  | Some (Returns s) => build ks s
  | Some Panics => Some Panics
  | Some Diverges => Some Diverges
  | None => None
  end.

(** Which abbreviations compile: each is declared in the interface of the method
    it abbreviates (exposes_returning.go, exposes_unwind.go, exposes_where.go,
    statement_builder.go:47-55, 74-86, 126-160, procedure_call.go:77-127), so its
    result has the interface that the method gives. *)
Definition full_method (c : short) : call :=
  match c with
  | ByString v _ | ByNamed v _ => verb_call v []
  | WherePattern _ => Where Nil
  | AndPattern _ => AndC Nil
  | OrPattern _ => OrC Nil
  | SetNamed _ _ => SetItems []
  | OnActionNamed b _ _ => OnAction b []
  | Unwinds _ v | UnwindByString _ v => Builder.Unwind (GErr TOther "") v
  | YieldString _ => Yield []
  end.
Definition any_offers (i : iface) (c : any_call) : option iface :=
  match c with
  | Full c => offers i c
  | Short c =>
      match i, c with
      | IStart, ByString (VWith false) _ | IStart, ByNamed (VWith false) _ | IStart, Unwinds _ _ => offers i (full_method c)
      | IStart, _ => None
      | _, _ => offers i (full_method c)
      end
  end.
Fixpoint any_compiles (i : iface) (p : list any_call) : option iface :=
  match p with
  | [] => Some i
  | c :: p' => match any_offers i c with Some i' => any_compiles i' p' | None => None end
  end.

(** ** Procedures by name: cypher.go:430-445 *)

(** strings.Split with the separator of two characters, a backslash and a dot;
    [cur] is the part that is being read. *)
Fixpoint split_dots (cur : string) (s : string) : list string :=
  match s with
  | "" => [cur]
  | String a s' =>
      match s' with
      | String b s'' =>
          if (Ascii.eqb a "\"%char && Ascii.eqb b "."%char)%bool then cur :: split_dots "" s''
          else split_dots (cur ++ String a "") s'
      | "" => split_dots (cur ++ String a "") s'
      end
  end.

(** cypher.go:430-435 [ACallSimple].  An empty name gives a StandaloneCallBuilder
    with an error and a zero name (procedure_call.go:152-156); [None] is its
    error.  Build (195-218) does not look at it. *)
Definition call_simple (k : key) (name : string) : outcome state :=
  if String.eqb name "" then Returns (S (CallB true (None, "") None None Nil))
  else match procedure_name k (split_dots "" name) with
       | Returns n => Returns (S (CallB true n None None Nil))
       | Panics => Panics
       | Diverges => Diverges
       end.

(** procedure_name.go:49-55 [getQualifiedName]; [None] is the zero Namespace. *)
Definition qualified_name (n : option (key * string) * string) : string :=
  ((match fst n with Some (_, s) => s | None => "" end) ++ "." ++ snd n)%string.

(** procedure_call.go:224-231 [AsFunction], [WithArgs], statement.go:15-17:
    ACall(parts...).WithArgs(args...).AsFunction(); function_invocation.go:180-186. *)
Definition as_function (ks : nat -> key) (parts : list string) (args : list value) : outcome value :=
  match procedure_name (ks 2) parts with
  | Returns n => named_function_create ks (qualified_name n) args
  | Panics => Panics
  | Diverges => Diverges
  end.
