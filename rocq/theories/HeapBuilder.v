(** Builder values that share memory.

    The methods of Builder.v again, but on the values that the program really
    has: Go copies a builder struct when a method is called on it, and the copy
    shares with the original the arrays behind its slices and the struct behind
    its pointers.  Slices.v models the slices.

    Shared are: the arrays of currentSinglePartElements and multipartElements
    (default_statement_builder.go:8-15), of mergeActions
    (updating_clause_builder.go:10-13) and of sortItemList
    (order_builder.go:3-9); and the DefaultStatementBuilder to which a
    DefaultStatementWithUpdateBuilder or an InQueryCallBuilder points and which
    their methods change.  The one to which a DefaultStatementWithWithBuilder or
    a DefaultStatementWithReturnBuilder points is never changed, so it is kept as
    a value.  The lists of patterns, returned expressions and arguments are
    never extended after they are made.

    Simplifications: a condition is a value (its slices are in HeapCond.v); so
    is a statement given to Call; the two halves of Unwind(e).As(v) and
    OnCreate().Set(l) are one call, so what is between them is not used twice. *)

From Coq Require Import Ascii String List ZArith Bool.
From Verif Require Import GoStr Escape Num VTree Ast GoVal Cond Queries Builder Slices.
Import ListNotations.
Open Scope string_scope.
Open Scope list_scope.

(** updating_clause_builder.go:10-13, 37-39, 50-52, 63-65, 76-78. *)
Inductive hupdate :=
| HCreate (p : gval)
| HMerge (p : gval) (actions : slice)
| HClause (c : clause).

(** default_statement_builder.go:8-15. *)
Record hdb := HDB {
  h_err : option string;
  h_elements : slice;
  h_parts : slice;
  h_match : match_builder;
  h_update : option hupdate;
  h_call : option call_builder }.

(** order_builder.go:3-9. *)
Record horder := HOrder { ho_items : slice; ho_last : option sort; ho_skip : option Z; ho_limit : option Z }.

(** multipart_element.go:3-9: the WITH of the element has an Order (order.go:3-8)
    that refers to a slice of sort items; [made] tells the element for the items
    that are there. *)
Inductive hpart := HPart (sorts : slice) (made : list sort -> part).

Record store := Store {
  s_clauses : heap clause;
  s_parts : heap hpart;
  s_actions : heap query;
  s_sorts : heap sort;
  s_boxes : list hdb }.

Definition empty_store : store := Store [] [] [] [] [].

(** Builder values.  [HP] is a pointer to a DefaultStatementBuilder, on which
    the methods of the struct can be called too. *)
Inductive hstate :=
| HD (d : hdb)
| HP (box : nat)
| HU (err : option string) (box : option nat) (u : option Builder.update) (returns : list gval) (distinct : bool) (o : horder)
| HW (err : option string) (d : option hdb) (c : cnd) (items : list gval) (o : horder) (distinct : bool)
| HR (err : option string) (d : option hdb) (items : list gval) (distinct : bool) (o : horder)
| HI (box : nat + string) (p : call_builder)
| HS (p : call_builder).

Definition no_horder : horder := HOrder NoCells None None None.
Definition hd_new : hdb := HDB None NoCells NoCells no_match None None.
Definition hd_of_call (p : call_builder) : hdb := HDB None NoCells NoCells no_match None (Some p).
Definition hd_error (m : string) : hdb := HDB (Some m) NoCells NoCells no_match None None.
Definition hu_error (m : string) : hstate := HU (Some m) None None [] false no_horder.
Definition hw_error (m : string) : hstate := HW (Some m) None Nil [] no_horder false.
Definition hr_error (m : string) : hstate := HR (Some m) None [] false no_horder.

(** ** What a value shows at a moment *)

Definition part_now (st : store) (p : hpart) : part := match p with HPart s f => f (read (s_sorts st) s) end.

Definition update_now (st : store) (u : hupdate) : Builder.update :=
  match u with
  | HCreate p => UCreate p
  | HMerge p a => UMerge p (read (s_actions st) a)
  | HClause c => UClause c
  end.

Definition db_now (st : store) (d : hdb) : dbuilder :=
  DB (h_err d) (read (s_clauses st) (h_elements d)) (map (part_now st) (read (s_parts st) (h_parts d)))
     (h_match d) (option_map (update_now st) (h_update d)) (h_call d).

Definition order_now (st : store) (o : horder) : order_builder :=
  OrderB (read (s_sorts st) (ho_items o)) (ho_last o) (ho_skip o) (ho_limit o).

Definition box (st : store) (b : nat) : hdb := nth b (s_boxes st) hd_new.

Definition now (st : store) (v : hstate) : state :=
  match v with
  | HD d => D (db_now st d)
  | HP b => D (db_now st (box st b))
  | HU e b u l x o => U (UB e (option_map (fun b => db_now st (box st b)) b) u l x (order_now st o))
  | HW e d c l o x => W (WB e (option_map (db_now st) d) c l (order_now st o) x)
  | HR e d l x o => R (RB e (option_map (db_now st) d) l x (order_now st o))
  | HI b p => I (match b with inl b => inl (db_now st (box st b)) | inr m => inr m end) p
  | HS p => S p
  end.

Section Methods.
Context (grow : nat -> nat -> nat).

(** append on each kind of slice. *)
Definition push_clause (st : store) (s : slice) (c : clause) : store * slice :=
  let (h, s') := append grow (CBroken false) (s_clauses st) s [c] in
  (Store h (s_parts st) (s_actions st) (s_sorts st) (s_boxes st), s').
Definition push_part (st : store) (s : slice) (p : hpart) : store * slice :=
  let (h, s') := append grow (HPart NoCells (fun _ => PBroken)) (s_parts st) s [p] in
  (Store (s_clauses st) h (s_actions st) (s_sorts st) (s_boxes st), s').
Definition push_action (st : store) (s : slice) (q : query) : store * slice :=
  let (h, s') := append grow (QBlank "") (s_actions st) s [q] in
  (Store (s_clauses st) (s_parts st) h (s_sorts st) (s_boxes st), s').
Definition push_sorts (st : store) (s : slice) (l : list sort) : store * slice :=
  let (h, s') := append grow SortNil (s_sorts st) s l in
  (Store (s_clauses st) (s_parts st) (s_actions st) h (s_boxes st), s').

(** A new DefaultStatementBuilder behind a pointer, and one that is changed. *)
Definition new_box (st : store) (d : hdb) : store * nat :=
  (Store (s_clauses st) (s_parts st) (s_actions st) (s_sorts st) (s_boxes st ++ [d]), length (s_boxes st)).
Definition set_box (st : store) (b : nat) (d : hdb) : store :=
  Store (s_clauses st) (s_parts st) (s_actions st) (s_sorts st) (update (s_boxes st) b d).

(** default_statement_builder.go:503-530; MergeBuilder.build copies the actions
    (merge.go:35-39). *)
Definition h_close_match (ks : nat -> key) (st : store) (d : hdb) : store * hdb :=
  if m_not_nil (h_match d)
  then let (st, s) := push_clause st (h_elements d) (build_match ks (h_match d)) in
       (st, HDB (h_err d) s (h_parts d) no_match (h_update d) (h_call d))
  else (st, d).
Definition h_close_call (ks : nat -> key) (st : store) (d : hdb) : store * hdb :=
  match h_call d with
  | None => (st, d)
  | Some p =>
      match build_call ks p with
      | inr m => (st, HDB (Some m) (h_elements d) (h_parts d) (h_match d) (h_update d) (h_call d))
      | inl c => let (st, s) := push_clause st (h_elements d) c in
                 (st, HDB (h_err d) s (h_parts d) (h_match d) (h_update d) None)
      end
  end.
Definition h_close_update (ks : nat -> key) (st : store) (d : hdb) : store * hdb :=
  match h_update d with
  | None => (st, d)
  | Some u => let (st, s) := push_clause st (h_elements d) (build_update ks (update_now st u)) in
              (st, HDB (h_err d) s (h_parts d) (h_match d) None (h_call d))
  end.

(** default_statement_builder.go:598-602. *)
Definition h_add_clause (st : store) (d : hdb) (c : clause) : store * hdb :=
  let (st, s) := push_clause st (h_elements d) c in
  (st, HDB (h_err d) s (h_parts d) (h_match d) (h_update d) (h_call d)).
Definition h_add_updating_clause (ks : nat -> key) (st : store) (d : hdb) (c : clause) : store * hdb :=
  let (st, d) := h_close_match ks st d in h_add_clause st d c.

(** A new updating clause has no actions. *)
Definition fresh_update (u : Builder.update) : hupdate :=
  match u with UCreate p => HCreate p | UMerge p _ => HMerge p NoCells | UClause c => HClause c end.

(** default_statement_builder.go:604-610. *)
Definition h_update_with (ks : nat -> key) (st : store) (d : hdb) (t : update_type) (l : list gval) : store * hdb :=
  let (st, d) := h_close_match (block ks 0) st d in
  let (st, d) := h_close_call (block ks 1) st d in
  let (st, d) := h_close_update (block ks 2) st d in
  (st, HDB (h_err d) (h_elements d) (h_parts d) (h_match d)
           (match updating_clause_builder (block ks 3) t l with inl u => Some (fresh_update u) | inr _ => None end) (h_call d)).

(** order_builder.go:17-45. *)
Definition h_push_sorts (st : store) (o : horder) (l : list sort) (last : option sort) : store * horder :=
  let (st, s) := push_sorts st (ho_items o) l in (st, HOrder s last (ho_skip o) (ho_limit o)).
Definition h_order_step (ks : nat -> key) (st : store) (o : horder) (c : call) : option (store * horder) :=
  let last := match ho_last o with Some (Sort _ e _) => Some e | _ => None end in
  match c with
  | OrderItems l => Some (h_push_sorts st o l (ho_last o))
  | OrderBy g | Then g => Some (st, HOrder (ho_items o) (Some (sort_create (ks 0) g None)) (ho_skip o) (ho_limit o))
  | Descending => Some (h_push_sorts st o [match last with Some e => Sort "" e (Some true) | None => SortNil end] None)
  | Ascending => Some (h_push_sorts st o [match last with Some e => Sort (ks 0) e (Some false) | None => SortNil end] None)
  | Skip z => Some (st, HOrder (ho_items o) (ho_last o) (Some z) (ho_limit o))
  | Limit z => Some (st, HOrder (ho_items o) (ho_last o) (ho_skip o) (if Z.eqb z 0 then None else Some z))
  | _ => None
  end.

(** order_builder.go:47-55 [BuildOrder] and order.go:10-19: the sort item that
    is not yet in the list is appended to it.  The result is the slice that the
    Order keeps and how the items in it are understood: an Order with an error
    keeps none; the errors of items that are written there later are not
    noticed. *)
Definition unchecked (s : sort) : sort := match s with SortErr _ => SortNil | s => s end.
Definition h_build_order (st : store) (o : horder) : store * (slice * (list sort -> order_builder)) :=
  let (st, s) := push_sorts st (ho_items o) (match ho_last o with Some (Sort k e d) => [Sort k e d] | _ => [] end) in
  let l := read (s_sorts st) s in
  let o l := OrderB l None (ho_skip o) (ho_limit o) in
  if existsb (fun s => match s with SortErr _ => true | _ => false end) l
  then (st, (NoCells, fun _ => o l))
  else (st, (s, fun l => o (map unchecked l))).

(** default_statement_with_return_builder.go:23-28, default_statement_with_update.go:112-117. *)
Definition h_build_return (ks : nat -> key) (st : store) (distinct : bool) (items : list gval) (o : horder)
  : store * (slice * (list sort -> returning)) :=
  match items with
  | [] => (st, (NoCells, fun _ => NoReturn))
  | _ => let '(st, (s, f)) := h_build_order st o in (st, (s, fun l => build_return ks distinct items (f l)))
  end.

(** default_statement_with_with_builder.go:26-44. *)
Definition h_build_with (ks : nat -> key) (st : store) (distinct : bool) (items : list gval) (o : horder) (c : cnd)
  : store * option (slice * (list sort -> clause)) :=
  match items with
  | [] => (st, None)
  | _ =>
      let '(st, (s, f)) := h_build_order st o in
      (st, Some (s, fun l => match build_with ks distinct items (f l) c with Some w => w | None => CBroken false end))
  end.

(** default_statement_builder.go:53-64, 572-596: the elements are copied. *)
Definition h_add_with (ks : nat -> key) (st : store) (d : hdb) (w : option (slice * (list sort -> clause))) : store * hdb :=
  match h_err d with
  | Some m => (st, hd_error m)
  | None =>
      match w with
      | None => (st, d)
      | Some (s, f) =>
          match build_list ks (db_now st d) with
          | inl l =>
              let (st, ps) := push_part st (h_parts d) (HPart s (fun x => multi_part_element_create (ks 3) l (f x))) in
              (st, HDB None NoCells ps no_match None None)
          | inr m =>
              let (st, ps) := push_part st (h_parts d) (HPart s (fun x => multi_part_element_create (ks 3) [] (f x))) in
              (st, HDB (Some m) (h_elements d) ps (h_match d) (h_update d) (h_call d))
          end
      end
  end.

Definition h_set_match (d : hdb) (m : match_builder) : hdb :=
  HDB (h_err d) (h_elements d) (h_parts d) m (h_update d) (h_call d).
Definition h_set_cond (d : hdb) (c : cnd) : hdb :=
  h_set_match d (MatchB (m_not_nil (h_match d)) (m_optional (h_match d)) (m_patterns (h_match d)) c).
Definition h_set_call (d : hdb) (p : call_builder) : hdb :=
  HDB (h_err d) (h_elements d) (h_parts d) (h_match d) (h_update d) (Some p).

(** default_statement_with_update.go:35-62 on a pointer to a new copy; and on
    the pointer that is there. *)
Definition h_create_at (ks : nat -> key) (st : store) (b : nat) (t : update_type) (l : list gval) : hstate :=
  match h_err (box st b) with
  | Some m => hu_error m
  | None =>
      match first_error l with
      | Some m => hu_error m
      | None =>
          match updating_clause_builder ks t l with
          | inr m => hu_error m
          | inl u => HU None (Some b) (Some u) [] false no_horder
          end
      end
  end.
Definition h_create (ks : nat -> key) (st : store) (d : hdb) (t : update_type) (l : list gval) : store * hstate :=
  let (st, b) := new_box st d in (st, h_create_at ks st b t l).

Definition gives (st : store) (v : hstate) : option (outcome (store * hstate)) := Some (Returns (st, v)).

(** default_statement_builder.go, methods as in Builder.v. *)
Definition hd_step (ks : nat -> key) (st : store) (d : hdb) (c : call) : option (outcome (store * hstate)) :=
  match h_err d with
  | Some m =>
      match c with
      | With _ _ => gives st (hw_error m)
      | Returning _ _ => gives st (hr_error m)
      | Unwind _ _ => Some Panics
      | Proc _ => gives st (HI (inr m) (CallB false (None, "") None None Nil))
      | Match _ _ | Where _ | AndC _ | OrC _ | Delete _ _ | Create _ | Merge _ | OnAction _ _
      | SetItems _ | SetLabels _ _ | RemoveLabels _ _ | RemoveItems _ | Sub _ => gives st (HD (hd_error m))
      | _ => None
      end
  | None =>
      let fails (m : string) := gives st (HD (hd_error m)) in
      match c with
      | Match o ps =>
          match first_error ps with
          | Some m => fails m
          | None => let (st, d) := h_close_match (block ks 0) st d in
                    let (st, d) := h_close_call (block ks 1) st d in
                    gives st (HD (h_set_match d (MatchB true o (sound_exprs ps) Nil)))
          end
      | Where c => match get_error c with Some m => fails m | None => gives st (HD (h_set_cond d c)) end
      | AndC c =>
          match builder_add ks BAnd (m_cond (h_match d)) c with
          | Val x => gives st (HD (h_set_cond d x))
          | Panic => Some Panics
          end
      | OrC c =>
          match get_error c with
          | Some m => fails m
          | None =>
              match builder_add ks BOr (m_cond (h_match d)) c with
              | Val x => gives st (HD (h_set_cond d x))
              | Panic => Some Panics
              end
          end
      | With b l =>
          match first_error l with
          | Some m => gives st (hw_error m)
          | None => gives st (HW None (Some d) Nil l no_horder b)
          end
      | Returning b l =>
          match first_error l with
          | Some m => gives st (hr_error m)
          | None => gives st (HR None (Some d) l b no_horder)
          end
      | Delete b l =>
          match first_error l with
          | Some m => fails m
          | None => let (st, d) := h_update_with ks st d (TDelete b) l in gives st (HD d)
          end
      | Create l =>
          match first_error l with
          | Some m => fails m
          | None => let (st, d) := h_update_with ks st d TCreate l in gives st (HD d)
          end
      | Merge l =>
          match first_error l with
          | Some m => fails m
          | None => let (st, d) := h_update_with ks st d TMerge l in gives st (HD d)
          end
      | OnAction b l =>
          match h_update d with
          | Some (HMerge p actions) =>
              match first_error l with
              | Some m => fails m
              | None =>
                  match merge_action ks b (sound_exprs l) with
                  | inr m => gives st (HD (HDB (Some m) (h_elements d) (h_parts d) (h_match d) (h_update d) (h_call d)))
                  | inl a => let (st, s) := push_action st actions a in
                             gives st (HD (HDB None (h_elements d) (h_parts d) (h_match d) (Some (HMerge p s)) (h_call d)))
                  end
              end
          | _ => fails "merge must have been invoked before defining an event"
          end
      | SetItems l =>
          match first_error l with
          | Some m => fails m
          | None => let (st, d) := h_close_update (block ks 0) st d in
                    let (st, v) := h_create (block ks 1) st d TSet l in gives st v
          end
      | SetLabels n ls =>
          match n with
          | NodeErr m => fails m
          | _ => let (st, v) := h_create (block ks 1) st d TSet [label_operation (block ks 0) SetLabel n ls] in gives st v
          end
      | RemoveLabels n ls =>
          match n with
          | NodeErr m => fails m
          | _ => let (st, v) := h_create (block ks 1) st d TRemove [label_operation (block ks 0) RemoveLabel n ls] in gives st v
          end
      | RemoveItems l =>
          match first_error l with
          | Some m => fails m
          | None => let (st, v) := h_create ks st d TRemove l in gives st v
          end
      | Unwind g v =>
          match g with
          | GErr _ _ => Some Panics
          | GOk e => let (st, d) := h_close_match (block ks 0) st d in
                     let (st, d) := h_add_clause st d (unwind_create (block ks 1) e v) in gives st (HD d)
          end
      | Sub s =>
          match statement_error s with
          | Some m => fails m
          | None =>
              let (st, d) := h_close_call (block ks 0) st d in
              let (st, d) := h_close_match (block ks 1) st d in
              let (st, d) := h_close_update (block ks 2) st d in
              match subquery_call (ks 3) s with
              | CErr _ m => gives st (HD (HDB (Some m) (h_elements d) (h_parts d) (h_match d) (h_update d) (h_call d)))
              | c => let (st, d) := h_add_clause st d c in gives st (HD d)
              end
          end
      | Proc parts =>
          let (st, d) := h_close_match (block ks 0) st d in
          let (st, d) := h_close_call (block ks 1) st d in
          match procedure_name (ks 2) parts with
          | Panics => Some Panics
          | Diverges => Some Diverges
          | Returns n =>
              let p := CallB false n None None Nil in
              let (st, b) := new_box st (h_set_call d p) in gives st (HI (inl b) p)
          end
      | _ => None
      end
  end.

(** default_statement_with_with_builder.go:50-258. *)
Definition hw_step (ks : nat -> key) (st : store) (e : option string) (d : option hdb) (x : cnd) (items : list gval)
  (o : horder) (distinct : bool) (c : call) : option (outcome (store * hstate)) :=
  let cond y := gives st (HW e d y items o distinct) in
  match h_order_step ks st o c with
  | Some (st, o) => gives st (HW e d x items o distinct)
  | None =>
      match c with
      | Where y => cond y
      | AndC y => match builder_add ks BAnd x y with Val z => cond z | Panic => Some Panics end
      | OrC y => match builder_add ks BOr x y with Val z => cond z | Panic => Some Panics end
      | OnAction _ _ | Args _ | Yield _ => None
      | _ =>
          match d with
          | None => Some Panics
          | Some d =>
              let (st, w) := h_build_with (block ks 2) st distinct items o x in
              let (st, d) := h_add_with (block ks 1) st d w in
              hd_step (block ks 0) st d c
          end
      end
  end.

(** default_statement_with_update.go:72-255: the updating clause is added to
    the builder behind the pointer; Delete changes it further, Merge, Create and
    With work on a copy. *)
Definition hu_step (ks : nat -> key) (st : store) (e : option string) (b : option nat) (u : option Builder.update)
  (returns : list gval) (distinct : bool) (o : horder) (c : call) : option (outcome (store * hstate)) :=
  match h_order_step ks st o c with
  | Some (st, o) => gives st (HU e b u returns distinct o)
  | None =>
      match c with
      | Returning false l => gives st (HU e b u (returns ++ l) distinct o)
      | Returning true l => gives st (HU e b u returns true o)
      | With _ _ | Delete _ _ | Merge _ | SetItems _ | SetLabels _ _ | RemoveLabels _ _ | RemoveItems _ | Create _ =>
          match b, u with
          | Some b, Some u =>
              let (st, d) := h_add_updating_clause (block ks 0) st (box st b) (build_update (block ks 1) u) in
              let st := set_box st b d in
              let ks := block ks 2 in
              match c with
              | With x l => hd_step ks st d (With x l)
              | Delete x l => let (st, d) := h_update_with ks st d (TDelete x) l in gives (set_box st b d) (HD d)
              | Merge l => hd_step ks st d (Merge l)
              | SetItems l => gives st (h_create_at (block ks 0) st b TSet l)
              | SetLabels n ls => gives st (h_create_at (block ks 0) st b TSet [label_operation (block ks 1) SetLabel n ls])
              | RemoveLabels n ls => gives st (h_create_at (block ks 0) st b TRemove [label_operation (block ks 1) SetLabel n ls])
              | RemoveItems l => gives st (h_create_at (block ks 0) st b TRemove l)
              | Create l => hd_step ks st d (Create l)
              | _ => None
              end
          | _, _ => match c with RemoveLabels _ _ => gives st (HU e b u returns distinct o) | _ => Some Panics end
          end
      | _ => None
      end
  end.

(** default_statement_with_return_builder.go:32-65. *)
Definition hr_step (ks : nat -> key) (st : store) (e : option string) (d : option hdb) (items : list gval) (distinct : bool)
  (o : horder) (c : call) : option (outcome (store * hstate)) :=
  match h_order_step ks st o c with
  | Some (st, o) => gives st (HR e d items distinct o)
  | None => None
  end.

(** in_query_call_builder.go:22-135: the builder behind the pointer gets the
    call; Where gives that pointer. *)
Definition hi_step (ks : nat -> key) (st : store) (b : nat + string) (p : call_builder) (c : call)
  : option (outcome (store * hstate)) :=
  match c with
  | Args l => gives st (HI b (CallB (p_standalone p) (p_name p) l (p_yield p) (p_cond p)))
  | Yield l => gives st (HI b (CallB (p_standalone p) (p_name p) (p_args p) (yield_create (ks 0) l) (p_cond p)))
  | Where x =>
      match b with
      | inr _ => Some Panics
      | inl b => gives (set_box st b (h_set_call (box st b) (CallB (p_standalone p) (p_name p) (p_args p) (p_yield p) x))) (HP b)
      end
  | Returning _ _ | With _ _ | Sub _ =>
      match b with
      | inr _ => Some Panics
      | inl b => let d := h_set_call (box st b) p in hd_step ks (set_box st b d) d c
      end
  | _ => None
  end.

(** procedure_call.go:158-285. *)
Definition hs_step (ks : nat -> key) (st : store) (p : call_builder) (c : call) : option (outcome (store * hstate)) :=
  match c with
  | Args l => gives st (HS (CallB (p_standalone p) (p_name p) l (p_yield p) (p_cond p)))
  | Yield l => gives st (HS (CallB (p_standalone p) (p_name p) (p_args p) (yield_create (ks 0) l) (p_cond p)))
  | Where x => gives st (HD (hd_of_call (CallB (p_standalone p) (p_name p) (p_args p) (p_yield p) x)))
  | Returning _ _ | With _ _ | Sub _ => hd_step ks st (hd_of_call p) c
  | _ => None
  end.

Definition h_step (ks : nat -> key) (st : store) (v : hstate) (c : call) : option (outcome (store * hstate)) :=
  match v with
  | HD d => hd_step ks st d c
  | HP b => hd_step ks st (box st b) c
  | HU e b u l x o => hu_step ks st e b u l x o c
  | HW e d y l o x => hw_step ks st e d y l o x c
  | HR e d l x o => hr_step ks st e d l x o c
  | HI b p => hi_step ks st b p c
  | HS p => hs_step ks st p c
  end.

(** cypher.go, as [start] in Builder.v. *)
Definition h_start (ks : nat -> key) (st : store) (c : call) : option (outcome (store * hstate)) :=
  match c with
  | Match _ _ | Create _ | With _ _ | Merge _ | Unwind _ _ | Returning _ _ | Sub _ => hd_step ks st hd_new c
  | Proc parts =>
      match procedure_name (ks 0) parts with
      | Returns n => gives st (HS (CallB true n None None Nil))
      | Panics => Some Panics
      | Diverges => Some Diverges
      end
  | _ => None
  end.

(** ** Build *)

(** A built statement keeps the slice of the parts (multi_part_query.go:3-9) and,
    in its RETURN, that of the sort items; the clauses are copied.  (An error of
    a part that is written there later would not be noticed; here it is.) *)
Inductive hstatement := HStatement (parts sorts : slice) (single : list sort -> statement).
Inductive hbuilt := HBuilt (s : hstatement) | HFails (msg : string).

Definition statement_now (st : store) (s : hstatement) : outcome statement :=
  match s with
  | HStatement ps ss f =>
      let single := f (read (s_sorts st) ss) in
      match map (part_now st) (read (s_parts st) ps) with
      | [] => Returns single
      | l => multi_part_query_create l single
      end
  end.

Definition built_now (st : store) (b : hbuilt) : outcome built :=
  match b with
  | HBuilt s => built_of (statement_now st s)
  | HFails m => Returns (BuildFails m)
  end.

(** default_statement_builder.go:564-570. *)
Definition h_build_impl (ks : nat -> key) (st : store) (d : hdb) (s : slice) (r : list sort -> returning)
  : outcome (store * hbuilt) :=
  let l := match build_list ks (db_now st d) with inl l => l | inr _ => [] end in
  let h := HStatement (h_parts d) s (fun x => single_part_create l (r x)) in
  match statement_now st h with
  | Returns _ => Returns (st, HBuilt h)
  | Panics => Panics
  | Diverges => Diverges
  end.

Definition hd_build (ks : nat -> key) (st : store) (d : hdb) : outcome (store * hbuilt) :=
  match h_err d with
  | Some m => Returns (st, HFails m)
  | None => h_build_impl ks st d NoCells (fun _ => NoReturn)
  end.

(** default_statement_builder.go:557-562, default_statement_with_update.go:107-119,
    default_statement_with_return_builder.go:19-30, procedure_call.go:195-218. *)
Definition h_build (ks : nat -> key) (st : store) (v : hstate) : option (outcome (store * hbuilt)) :=
  match v with
  | HD d => Some (hd_build ks st d)
  | HP b => Some (hd_build ks st (box st b))
  | HU e b u l x o =>
      Some (match e, b, u with
            | Some m, _, _ => Returns (st, HFails m)
            | None, Some b, Some u =>
                let (st, d) := h_add_updating_clause (block ks 0) st (box st b) (build_update (block ks 1) u) in
                let '(st, (s, r)) := h_build_return (block ks 3) (set_box st b d) x l o in
                h_build_impl (block ks 2) st d s r
            | None, _, _ => Panics
            end)
  | HR e d l x o =>
      Some (match e, d with
            | Some m, _ => Returns (st, HFails m)
            | None, Some d => let '(st, (s, r)) := h_build_return (block ks 1) st x l o in h_build_impl (block ks 0) st d s r
            | None, None => Panics
            end)
  | HS p =>
      Some (Returns (st, match build_call ks p with
                         | inr m => HFails m
                         | inl c => HBuilt (HStatement NoCells NoCells
                             (fun _ => match c with COk q => StOk q | CErr _ m => StErr false m | CBroken _ => StBroken false end))
                         end))
  | HW _ _ _ _ _ _ | HI _ _ => None
  end.

End Methods.
