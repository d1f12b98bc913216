(** Nodes, relationships and chains of relationships: node.go,
    relationship.go, relationship_details.go, relationship_length.go,
    relationship_type.go, relationship_chain.go, properties.go, cypher.go:16-58.

    The structs are modelled with the fields their methods read, including
    [notNil] and [err]: several methods go on with values that carry an error.
    Each call takes the keys of the elements it makes ([ks], arbitrary). *)

From Coq Require Import Ascii String List ZArith Bool.
From Verif Require Import GoStr Escape Num VTree Ast GoVal Maps Slices.
Import ListNotations.
Open Scope string_scope.
Open Scope list_scope.

(** symbolic_name.go:7-42. [NoSym]: the zero value, [BadSym]: with an error. *)
Inductive sym := Sym (k : key) (name : string) | NoSym | BadSym (m : string).

Definition sym_err (s : sym) : option string := match s with BadSym m => Some m | _ => None end.
Definition sym_not_nil (s : sym) : bool := match s with Sym _ _ => true | _ => false end.

(** symbolic_name.go:15-26 [SymbolicNameCreate]. *)
Definition symbolic_name_create (k : key) (name : string) : sym :=
  if String.eqb name "" then BadSym "name must be not empty" else Sym k name.

(** map_expression.go:7-34: a map expression, its zero value, one with an error. *)
Inductive gmap := MapOk (k : key) (es : list expr) | NoMap | BadMap (m : string).

Definition map_err (m : gmap) : option string := match m with BadMap e => Some e | _ => None end.
Definition map_not_nil (m : gmap) : bool := match m with MapOk _ _ => true | _ => false end.
Definition map_expr (m : gmap) : expr := match m with MapOk k es => EMap k es | _ => EMap "" [] end.
Definition gmap_of (g : gval) : gmap :=
  match g with GOk (EMap k es) => MapOk k es | GOk _ => NoMap | GErr _ m => BadMap m end.

(** properties.go:3-23. *)
Inductive props := Props (k : key) (m : gmap) | NoProps | BadProps (m : string).

Definition props_err (p : props) : option string := match p with BadProps m => Some m | _ => None end.
Definition props_not_nil (p : props) : bool := match p with Props _ _ => true | _ => false end.

(** properties.go:10-17 [PropertiesCreate]. *)
Definition properties_create (k : key) (m : gmap) : props :=
  match map_err m with Some e => BadProps e | None => Props k m end.

(** ** Nodes *)

(** node.go:7-14. *)
Record node := Node { nd_sym : sym; nd_labels : list (key * string); nd_props : props; nd_key : key; nd_not_nil : bool; nd_err : option string }.

(** The zero value of Node, and node.go:95-99 [NodeError]. *)
Definition no_node : node := Node NoSym [] NoProps "" false None.
Definition node_error (m : string) : node := Node NoSym [] NoProps "" false (Some m).

(** node.go:16-21 [NodeCreate]; cypher.go:52-54 [AnyNode]. *)
Definition any_node : node := Node NoSym [] NoProps "" true None.

(** cypher.go:16-25 [NewNodeWithLabels]. *)
Definition node_with_labels (primary : string) (more : list string) : node :=
  Node NoSym (map (fun l => ("", l)) (primary :: more)) NoProps "" false None.

(** node.go:46-58 [NodeCreate2]; cypher.go:45-47 [ANode]. *)
Definition a_node (ks : nat -> key) (primary : string) : node :=
  if String.eqb primary "" then node_error "primary label is required"
  else Node NoSym [(ks 1, primary)] NoProps (ks 0) true None.

(** node.go:23-44 [NodeCreate1], 87-89 [NodeCreate5]; cypher.go:37-39 [NewNodeWithProperties]. *)
Definition node_with_properties (ks : nat -> key) (primary : string) (m : gmap) (more : list string) : node :=
  if String.eqb primary "" then node_error "primary label is required"
  else if existsb (fun l => String.eqb l "") more then node_error "empty label is not allowed"
  else Node NoSym (("", primary) :: combine (map (fun i => ks (2 + i)) (seq 0 (length more))) more)
         (properties_create (ks 1) m) (ks 0) true None.

(** node.go:190-193 [NamedByString]: the key stays. *)
Definition node_named_by_string (ks : nat -> key) (n : node) (name : string) : node :=
  Node (symbolic_name_create (ks 0) name) (nd_labels n) (nd_props n) (nd_key n) (nd_not_nil n) (nd_err n).

(** node.go:195-204 [Named]. *)
Definition node_named (n : node) (s : sym) : node :=
  match s with
  | BadSym m => node_error m
  | NoSym => node_error "node named: symbolic name is required"
  | Sym _ _ => Node s (nd_labels n) (nd_props n) (nd_key n) (nd_not_nil n) (nd_err n)
  end.

(** node.go:81-85 [NodeCreate4], 182-184 [WithProperties]: the error of the node is not kept. *)
Definition node_set_properties (ks : nat -> key) (n : node) (m : gmap) : node :=
  Node (nd_sym n) (nd_labels n) (properties_create (ks 1) m) (ks 0) true None.

(** node.go:171-180 [WithRawProperties]. *)
Definition node_raw_properties (K : keys) (ks : nat -> key) (n : node) (objs : list any) : outcome node :=
  match objs with
  | [] => Returns (node_set_properties ks n NoMap)
  | _ => match new_map K objs with
         | Returns (GErr _ m) => Returns (node_error m)
         | Returns g => Returns (node_set_properties ks n (gmap_of g))
         | Panics => Panics
         | Diverges => Diverges
         end
  end.

(** What is rendered, node.go:132-157: [accept] looks at neither [err] nor [notNil]. *)
Definition sym_part (s : sym) : option (key * string) := match s with Sym k n => Some (k, n) | _ => None end.
Definition props_part (p : props) : option expr := match p with Props k m => Some (EProps k (map_expr m)) | _ => None end.
Definition node_expr (n : node) : expr := ENode (nd_key n) (sym_part (nd_sym n)) (nd_labels n) (props_part (nd_props n)).

(** ** Relationships *)

(** relationship_type.go:5-19: [None] is the zero value. *)
Definition rel_types := option (key * list string).

(** relationship_length.go:5-32: key, unbounded, minimum, maximum. *)
Definition rel_length := option (key * bool * option Z * option Z).

(** relationship_details.go:5-14. *)
Record details := Details { dt_dir : direction; dt_sym : sym; dt_types : rel_types; dt_len : rel_length; dt_props : props;
                            dt_key : key; dt_err : option string }.

(** The zero value, and relationship_details.go:70-74 [RelationshipDetailsError]. *)
Definition no_details : details := Details NoDirection NoSym None None NoProps "" None.
Definition details_error (m : string) : details := Details NoDirection NoSym None None NoProps "" (Some m).

(** relationship_details.go:16-27 [RelationshipDetailsCreate1]. *)
Definition details_create1 (k : key) (d : direction) (ts : rel_types) : details := Details d NoSym ts None NoProps k None.

(** relationship_details.go:46-68 [RelationshipDetailsCreate]: no key. *)
Definition details_create (d : direction) (s : sym) (ts : rel_types) (len : rel_length) (p : props) : details :=
  match sym_err s with
  | Some m => details_error m
  | None => match props_err p with
            | Some m => details_error m
            | None => Details d s ts len p "" None
            end
  end.

(** relationship_details.go:90-102 [namedByString], [named]. *)
Definition details_named (k : key) (t : details) (name : string) : details :=
  if String.eqb name "" then details_error "symbolic name is required"
  else details_create (dt_dir t) (symbolic_name_create k name) (dt_types t) (dt_len t) (dt_props t).

(** relationship_details.go:104-106 [with]. *)
Definition details_with (t : details) (p : props) : details := details_create (dt_dir t) (dt_sym t) (dt_types t) (dt_len t) p.

(** relationship_details.go:108-110 [unbounded]; relationship_length.go:14-21. *)
Definition details_unbounded (k : key) (t : details) : details :=
  details_create (dt_dir t) (dt_sym t) (dt_types t) (Some (k, true, None, None)) (dt_props t).

(** relationship_details.go:112-118 [min]; relationship_length.go:23-32. *)
Definition details_min (k : key) (t : details) (z : Z) : details :=
  details_create (dt_dir t) (dt_sym t) (dt_types t)
    (Some (k, false, Some z, match dt_len t with Some (_, _, _, hi) => hi | None => None end)) (dt_props t).

(** relationship_details.go:120-126 [max]. *)
Definition details_max (k : key) (t : details) (z : Z) : details :=
  details_create (dt_dir t) (dt_sym t) (dt_types t)
    (Some (k, false, match dt_len t with Some (_, _, lo, _) => lo | None => None end, Some z)) (dt_props t).

(** relationship_details.go:128-158. *)
Definition details_expr (t : details) : expr :=
  EDetails (dt_key t) (dt_dir t) (option_map (fun x => ESym (fst x) (snd x)) (sym_part (dt_sym t))) (dt_types t) (dt_len t)
    (props_part (dt_props t)).

(** relationship.go:5-12. *)
Record rel := Rel { r_left : node; r_right : node; r_details : details; r_key : key; r_not_nil : bool; r_err : option string }.

(** relationship.go:51-55 [RelationshipError]: both nodes and the details are zero values. *)
Definition rel_error (m : string) : rel := Rel no_node no_node no_details "" false (Some m).

(** The zero value. *)
Definition no_rel : rel := Rel no_node no_node no_details "" false None.

(** relationship.go:31-49 [RelationshipCreate3]. *)
Definition rel_create3 (k : key) (l : node) (t : details) (r : node) : rel :=
  match nd_err l with
  | Some m => rel_error m
  | None => match dt_err t with
            | Some m => rel_error m
            | None => match nd_err r with
                      | Some m => rel_error m
                      | None => Rel l r t k true None
                      end
            end
  end.

(** relationship.go:14-29 [RelationshipCreate]; node.go:159-169 [RelationshipTo],
    [RelationshipFrom], [RelationshipBetween]. *)
Definition rel_create (ks : nat -> key) (l : node) (d : direction) (r : node) (types : list string) : rel :=
  match nd_err l with
  | Some m => rel_error m
  | None => match nd_err r with
            | Some m => rel_error m
            | None => rel_create3 (ks 0) l (details_create1 (ks 1) d (match types with [] => None | _ => Some (ks 2, types) end)) r
            end
  end.

(** Calls that change the name, length or properties of a relationship. *)
Inductive change :=
| SetName (name : string)                (* relationship.go:80-82 NamedByString, 130-132 Named *)
| SetUnbounded                           (* 84-86 Unbounded *)
| SetMin (z : Z)                         (* 88-90 Min *)
| SetMax (z : Z)                         (* 96-98 Max *)
| SetLength (lo hi : Z)                  (* 92-94 Length *)
| SetProps (m : gmap).                   (* 153-162 WithProperties *)

(** None of them looks at the error of the relationship. *)
Definition rel_change (ks : nat -> key) (c : change) (r : rel) : rel :=
  let t := r_details r in
  let make t' := rel_create3 (ks 0) (r_left r) t' (r_right r) in
  match c with
  | SetName n => make (details_named (ks 1) t n)
  | SetUnbounded => make (details_unbounded (ks 1) t)
  | SetMin z => make (details_min (ks 1) t z)
  | SetMax z => make (details_max (ks 1) t z)
  | SetLength lo hi => make (details_max (ks 1) (details_min (ks 2) t lo) hi)
  | SetProps m =>
      if negb (map_not_nil m) && negb (props_not_nil (dt_props t)) then r
      else make (details_with t (if map_not_nil m then properties_create (ks 1) m else NoProps))
  end.

(** relationship.go:142-151 [WithRawProperties]. *)
Definition rel_raw_properties (K : keys) (ks : nat -> key) (r : rel) (objs : list any) : outcome rel :=
  match objs with
  | [] => Returns (rel_change ks (SetProps NoMap) r)
  | _ => match new_map K objs with
         | Returns (GErr _ m) => Returns (rel_error m)
         | Returns g => Returns (rel_change ks (SetProps (gmap_of g)) r)
         | Panics => Panics
         | Diverges => Diverges
         end
  end.

(** relationship.go:100-106 [accept]. *)
Definition rel_expr (r : rel) : expr := ERel (r_key r) (node_expr (r_left r)) (details_expr (r_details r)) (node_expr (r_right r)).

(** What a clause gets: an element or its error (pattern.go:10-23). *)
Definition rel_value (r : rel) : gval := match r_err r with Some m => GErr TOther m | None => GOk (rel_expr r) end.
Definition node_value (n : node) : gval := match nd_err n with Some m => GErr TOther m | None => GOk (node_expr n) end.

(** ** Chains: relationship_chain.go

    A chain holds a slice of relationships; its methods append to it or change
    its last cell in place. *)
Definition arrays := heap rel.

(** relationship_chain.go:12-16 [RelationshipChainCreate]: [make] with length 1. *)
Definition chain_create (h : arrays) (r : rel) : arrays * slice := (h ++ [[r]], Prefix (length h) 1).

(** relationship_chain.go:116-119 [Add]. *)
Definition chain_add (grow : nat -> nat -> nat) (h : arrays) (c : slice) (r : rel) : arrays * slice :=
  append grow no_rel h c [r].

(** The last relationship; [None]: index out of range. *)
Definition chain_last (h : arrays) (c : slice) : option rel :=
  match rev (read h c) with r :: _ => Some r | [] => None end.

(** relationship.go:118-128 [RelationshipTo] and the others: a chain of the
    relationship and a new one from its right node. *)
Definition rel_extend (grow : nat -> nat -> nat) (ks : nat -> key) (h : arrays) (r : rel) (d : direction) (n : node) (types : list string)
  : arrays * slice :=
  let (h1, c) := chain_create h r in chain_add grow h1 c (rel_create ks (r_right r) d n types).

(** relationship_chain.go:34-50 [RelationshipTo], [RelationshipFrom], [RelationshipBetween]. *)
Definition chain_extend (grow : nat -> nat -> nat) (ks : nat -> key) (h : arrays) (c : slice) (d : direction) (n : node) (types : list string)
  : option (arrays * slice) :=
  match chain_last h c with
  | Some r => Some (chain_add grow h c (rel_create ks (r_right r) d n types))
  | None => None
  end.

(** relationship_chain.go:56-96 [NamedC], [Unbounded], [Min], [Length], [Max],
    [Properties]: the last cell is assigned, the same slice is returned. *)
Definition chain_change (ks : nat -> key) (ch : change) (h : arrays) (c : slice) : option (arrays * slice) :=
  match chain_last h c, c with
  | Some r, Prefix a n => Some (update h a (overwrite (cells h a) (n - 1) [rel_change ks ch r]), c)
  | _, _ => None
  end.

(** relationship_chain.go:98-108 [accept]: the left node and the details of
    every relationship, then the right node of the last one, if it is not nil. *)
Definition chain_expr (rs : list rel) : expr :=
  EChain "" (map (fun r => (node_expr (r_left r), details_expr (r_details r))) rs)
    (match rev rs with
     | r :: _ => if nd_not_nil (r_right r) then Some (node_expr (r_right r)) else None
     | [] => None
     end).

(** relationship_chain.go:22-24: the error of a chain is nil unless it was made
    by [RelationshipChainError]. *)
Definition chain_value (h : arrays) (c : slice) : gval := GOk (chain_expr (read h c)).

(** Programs that make chains; results of earlier calls are referred to by
    their numbers. *)
Inductive chain_call :=
| StartChain (ks : nat -> key) (r : rel) (d : direction) (n : node) (types : list string)   (* r.RelationshipTo(n, types...) ... *)
| ExtendChain (ks : nat -> key) (i : nat) (d : direction) (n : node) (types : list string)
| ChangeChain (ks : nat -> key) (i : nat) (c : change)
| AddToChain (i : nat) (r : rel).

Definition chain_step (grow : nat -> nat -> nat) (h : arrays) (env : list slice) (p : chain_call) : option (arrays * slice) :=
  match p with
  | StartChain ks r d n types => Some (rel_extend grow ks h r d n types)
  | ExtendChain ks i d n types => match nth_error env i with Some c => chain_extend grow ks h c d n types | None => None end
  | ChangeChain ks i ch => match nth_error env i with Some c => chain_change ks ch h c | None => None end
  | AddToChain i r => match nth_error env i with Some c => Some (chain_add grow h c r) | None => None end
  end.

(** [None]: an index out of range, in the program or in the slice. *)
Fixpoint chain_run (grow : nat -> nat -> nat) (h : arrays) (env : list slice) (ps : list chain_call) : option (arrays * list slice) :=
  match ps with
  | [] => Some (h, env)
  | p :: ps' => match chain_step grow h env p with
                | Some (h', c) => chain_run grow h' (env ++ [c]) ps'
                | None => None
                end
  end.
