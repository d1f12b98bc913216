(** Specification of patterns: paths of nodes and arrows, the calls that
    describe them, and their text. *)

From Coq Require Import Ascii String List ZArith Bool.
From Verif Require Import GoStr Escape Num VTree Ast GoVal SpecDoc SpecPrint Patterns.
Import ListNotations.
Open Scope string_scope.
Open Scope list_scope.

(** The text of an element none of whose parts has got an alias. *)
Fixpoint plain (d : doc) : doc :=
  match d with
  | Txt s => Txt s
  | Cat l => Cat (map plain l)
  | Commas l => Commas (map plain l)
  | Shared _ d => plain d
  | Once k n d => Once k n (plain d)
  | Aliased k a d => Aliased k a (plain d)
  end.

(** The keys under which parts of a document may have an alias. *)
Fixpoint shared_keys (d : doc) : list string :=
  match d with
  | Txt _ => []
  | Cat l | Commas l => (fix go l := match l with [] => [] | d :: l' => shared_keys d ++ go l' end) l
  | Shared k d => k :: shared_keys d
  | Once _ _ d => shared_keys d
  | Aliased _ _ d => shared_keys d
  end.

(** ** Arrows *)

Inductive hops := OneHop | AnyHops | Between (lo hi : option Z).

Record arrow := Arrow { a_dir : direction; a_name : option string; a_types : list string; a_hops : hops; a_props : option gmap }.

(** A new relationship has a direction and types. *)
Definition new_arrow (d : direction) (types : list string) : arrow := Arrow d None types OneHop None.

Definition lower (h : hops) : option Z := match h with Between lo _ => lo | _ => None end.
Definition upper (h : hops) : option Z := match h with Between _ hi => hi | _ => None end.

(** What each call says about the relationship. *)
Definition described (c : change) (a : arrow) : arrow :=
  match c with
  | SetName n => Arrow (a_dir a) (Some n) (a_types a) (a_hops a) (a_props a)
  | SetUnbounded => Arrow (a_dir a) (a_name a) (a_types a) AnyHops (a_props a)
  | SetMin z => Arrow (a_dir a) (a_name a) (a_types a) (Between (Some z) (upper (a_hops a))) (a_props a)
  | SetMax z => Arrow (a_dir a) (a_name a) (a_types a) (Between (lower (a_hops a)) (Some z)) (a_props a)
  | SetLength lo hi => Arrow (a_dir a) (a_name a) (a_types a) (Between (Some lo) (Some hi)) (a_props a)
  | SetProps m => Arrow (a_dir a) (a_name a) (a_types a) (a_hops a) (match m with MapOk _ _ => Some m | _ => None end)
  end.

Definition hops_text (h : hops) : string :=
  match h with
  | OneHop => ""
  | AnyHops => "*"
  | Between lo hi => "*" ++ (match lo with Some z => itoa z | None => "" end) ++ ".."
                         ++ (match hi with Some z => itoa z | None => "" end)
  end%string.

(** What stands between the brackets, if anything. *)
Definition arrow_content (E : env) (a : arrow) : list doc :=
  (match a_name a with Some n => [Txt (resolve E n)] | None => [] end)
  ++ (match a_types a with [] => [] | ts => [Txt (rel_types_text ts)] end)
  ++ (match a_hops a with OneHop => [] | h => [Txt (hops_text h)] end)
  ++ (match a_props a with Some m => [Txt " "; plain (print E (map_expr m))] | None => [] end).

Definition arrow_doc (E : env) (a : arrow) : doc :=
  let inner := match arrow_content E a with [] => [] | c => [Txt "["] ++ c ++ [Txt "]"] end in
  match a_dir a with
  | LTR => Cat ([Txt "-"] ++ inner ++ [Txt "->"])
  | RTL => Cat ([Txt "<-"] ++ inner ++ [Txt "-"])
  | UNI => Cat ([Txt "-"] ++ inner ++ [Txt "-"])
  | NoDirection => Cat inner
  end.

(** ** Nodes: the name, the labels and the properties, in parentheses; a named
    node is written in full once. *)
Definition node_doc (E : env) (n : node) : doc :=
  let labels := map (fun l => Txt (label_text (snd l))) (nd_labels n) in
  let properties := match nd_props n with Props _ m => [Txt " "; plain (print E (map_expr m))] | _ => [] end in
  match nd_sym n with
  | Sym _ x => Once (nd_key n) x (Cat ([Txt (resolve E x)] ++ labels ++ properties))
  | _ => Cat ([Txt "("] ++ labels ++ properties ++ [Txt ")"])
  end.

(** ** Paths: every node once, with the arrows between them. *)
Definition path_doc (E : env) (first : node) (steps : list (arrow * node)) : doc :=
  Cat (node_doc E first :: flat_map (fun s => [arrow_doc E (fst s); node_doc E (snd s)]) steps).

(** One stretch of calls: a relationship to a node, then what is said about it. *)
Record leg := Leg { l_keys : nat -> key; l_dir : direction; l_node : node; l_types : list string;
                    l_changes : list ((nat -> key) * change) }.

Definition leg_arrow (l : leg) : arrow :=
  fold_left (fun a c => described (snd c) a) (l_changes l) (new_arrow (l_dir l) (l_types l)).

(** Calls that are accepted: names are not empty, maps have no errors, nodes
    have no errors. *)
Definition good_change (c : change) : bool :=
  match c with
  | SetName n => negb (String.eqb n "")
  | SetProps (BadMap _) => false
  | _ => true
  end.
Definition good_node (n : node) : bool :=
  match nd_err n with None => nd_not_nil n | Some _ => false end.
Definition good_leg (l : leg) : bool :=
  good_node (l_node l) && forallb (fun c => good_change (snd c)) (l_changes l).
