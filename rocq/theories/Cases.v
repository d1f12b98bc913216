(** CASE expressions: case.go.

    Arguments of interface types are not nil.  Each call takes the keys of the
    elements it makes.  The embedded container (case.go:50, 173) wraps the
    value itself and is not modelled. *)

From Coq Require Import Ascii String List ZArith Bool.
From Verif Require Import GoStr Escape Num VTree Ast GoVal Slices.
Import ListNotations.
Open Scope string_scope.
Open Scope list_scope.

(** case.go:220-227: a branch, or one with an error. *)
Inductive branch := Branch (k : key) (w t : expr) | BadBranch (m : string).

Definition branch_err (b : branch) : option string := match b with BadBranch m => Some m | _ => None end.

(** case.go:229-243 [CaseWhenThenCreate]. *)
Definition branch_create (k : key) (w t : gval) : branch :=
  match t with
  | GErr _ m => BadBranch m
  | GOk t' => match w with GErr _ m => BadBranch m | GOk w' => Branch k w' t' end
  end.

(** case.go:3-12.  [cs_generic]: the two types GENERIC_CASE and
    ENDING_GENERIC_CASE; the zero value is not generic. *)
Record case := Case { cs_subject : option expr; cs_branches : slice; cs_else : option (key * expr); cs_generic : bool;
                      cs_key : key; cs_err : option string }.

Definition case_error (m : string) : case := Case None NoCells None false "" (Some m).

(** case.go:39-52 [SimpleCaseCreate1]; cypher.go:426-428 [CaseExpression]. *)
Definition simple_case (k : key) (e : gval) : case :=
  match e with GErr _ m => case_error m | GOk x => Case (Some x) NoCells None false k None end.

(** case.go:74-83 [GenericCaseCreate1]; cypher.go:418-420. *)
Definition generic_case (k : key) : case := Case None NoCells None true k None.

Fixpoint first_branch_err (bs : list branch) : option string :=
  match bs with [] => None | b :: bs' => match branch_err b with Some m => Some m | None => first_branch_err bs' end end.

(** case.go:54-72 [EndingSimpleCaseCreate]; the subject has no error. *)
Definition ending_simple (k : key) (h : heap branch) (x : expr) (s : slice) : case :=
  match first_branch_err (read h s) with Some m => case_error m | None => Case (Some x) s None false k None end.

(** case.go:101-115 [EndingGenericCaseCreate]. *)
Definition ending_generic (k : key) (h : heap branch) (s : slice) : case :=
  match first_branch_err (read h s) with Some m => case_error m | None => Case None s None true k None end.

(** case.go:196-207: the case the call was made on (a copy) and the condition,
    or only an error. *)
Inductive ongoing := Ongoing (c : case) (w : expr) | BadWhen (m : string).

(** case.go:117-119, 202-207 [When]: the error of the case is not looked at. *)
Definition case_when (c : case) (w : gval) : ongoing := match w with GErr _ m => BadWhen m | GOk w' => Ongoing c w' end.

(** case.go:209-217 [Then]: appends to the branches of the copy, which it
    changes.  Without a case it dereferences a nil pointer.  Returns memory,
    the changed copy and the result. *)
Definition case_then (grow : nat -> nat -> nat) (kb k : key) (h : heap branch) (o : ongoing) (t : gval) : outcome (heap branch * ongoing * case) :=
  match o with
  | BadWhen _ => Panics
  | Ongoing c w =>
      let (h', s) := append grow (BadBranch "") h (cs_branches c) [branch_create kb (GOk w) t] in
      let c' := Case (cs_subject c) s (cs_else c) (cs_generic c) (cs_key c) (cs_err c) in
      Returns (h', Ongoing c' w, match cs_subject c with Some x => ending_simple k h' x s | None => ending_generic k h' s end)
  end.

(** case.go:167-175 [ElseDefault], 284-291 [CaseElseCreate]. *)
Definition case_else (k : key) (c : case) (e : gval) : case :=
  match e with
  | GErr _ m => case_error m
  | GOk x => Case (cs_subject c) (cs_branches c) (Some (k, x)) (cs_generic c) (cs_key c) (cs_err c)
  end.

(** case.go:125-149, 253-266, 297-308: what is rendered. *)
Definition branch_parts (b : branch) : list (key * expr * expr) := match b with Branch k w t => [(k, w, t)] | BadBranch _ => [] end.
Definition case_expr (h : heap branch) (c : case) : expr :=
  ECase (cs_key c) (cs_generic c) (cs_subject c) (flat_map branch_parts (read h (cs_branches c))) (cs_else c).
Definition case_value (h : heap branch) (c : case) : gval := match cs_err c with Some m => GErr TOther m | None => GOk (case_expr h c) end.

(** A sequence of calls, each on the result of the one before. *)
Inductive case_call := WhenThen (kb k : key) (w t : gval) | Else (k : key) (e : gval).

Definition case_step (grow : nat -> nat -> nat) (h : heap branch) (c : case) (x : case_call) : outcome (heap branch * case) :=
  match x with
  | WhenThen kb k w t => match case_then grow kb k h (case_when c w) t with
                         | Returns (h', _, c') => Returns (h', c')
                         | Panics => Panics
                         | Diverges => Diverges
                         end
  | Else k e => Returns (h, case_else k c e)
  end.

Fixpoint case_run (grow : nat -> nat -> nat) (h : heap branch) (c : case) (xs : list case_call) : outcome (heap branch * case) :=
  match xs with
  | [] => Returns (h, c)
  | x :: xs' => match case_step grow h c x with
                | Returns (h', c') => case_run grow h' c' xs'
                | Panics => Panics
                | Diverges => Diverges
                end
  end.
