(** How elements get their keys: support.go:getAddress and the constructors.

    Every constructor of /repo stores [getAddress(&x)] of a local variable [x]
    in the key field of the element it returns (some leave it empty).  A build
    is a sequence of constructor calls, each using elements built before.

    [entry k t]: an element with key [k] ([getKey]) and visit tree [t].
    Compound conditions with fewer than two parts have a key but visit only
    their parts. *)

From Coq Require Import Ascii String List ZArith Bool.
From Verif Require Import GoStr VTree.
Import ListNotations.
Open Scope string_scope.

Definition entry := (key * vt)%type.

(** A tree all of whose elements have been built. *)
Inductive over (hp : list entry) : vt -> Prop :=
| over_elem : forall k t, In (k, t) hp -> over hp t
| over_text : forall s, over hp (T s)
| over_bare : forall l, overs hp l -> over hp (B l)
with overs (hp : list entry) : list vt -> Prop :=
| overs_nil : overs hp []
| overs_cons : forall t l, over hp t -> overs hp l -> overs hp (t :: l).

(** One constructor call. Named nodes and aliased expressions, and the elements
    they alias, have a key; others may have none. *)
Inductive made (hp : list entry) (k : key) : vt -> Prop :=
| made_plain : forall sb kd kids,
    match kd with KAlias _ _ => False | KNode (Some _) => k <> "" | _ => True end ->
    overs hp kids -> made hp k (V (Head k sb kd) kids)
| made_alias : forall dk d tx,
    In (dk, d) hp -> dk <> "" -> k <> "" -> made hp k (V (Head k false (KAlias dk tx)) [d])
| made_bare : forall kids, overs hp kids -> made hp k (B kids).

(** [reuse]: may the address of a new local be one that was used before?  The
    elements hold the address as a string, which keeps nothing alive: the
    collector may reuse it. *)
Inductive built (reuse : bool) : list entry -> Prop :=
| built_nil : built reuse []
| built_new : forall hp k t,
    built reuse hp -> (k = "" \/ reuse = true \/ ~ In k (map fst hp)) -> made hp k t ->
    built reuse ((k, t) :: hp).

(** ** Builds as programs

    A constructor call refers to elements built before by their position; it
    visits them, texts, and groups of these. *)
Inductive part :=
| Built (i : nat)
| Text (s : string)
| Group (l : list part).

(** [NewPlain keyed ...]: whether the constructor stores an address in the key
    (some leave it empty).  [NewAlias i tx]: alias_expression.go:15-34, of the
    element [i]. *)
Inductive constructor :=
| NewPlain (keyed : bool) (sub : bool) (kd : kind) (kids : list part)
| NewAlias (i : nat) (tx : string)
| NewBare (keyed : bool) (kids : list part).

(** The element at position [i] of the program: [hp] has the newest first. *)
Definition element (hp : list entry) (i : nat) : option entry := nth_error (rev hp) i.

Fixpoint tree (hp : list entry) (p : part) : option vt :=
  match p with
  | Built i => option_map snd (element hp i)
  | Text s => Some (T s)
  | Group l => option_map B ((fix go l := match l with
                                          | [] => Some []
                                          | p :: l' => match tree hp p, go l' with Some t, Some ts => Some (t :: ts) | _, _ => None end
                                          end) l)
  end.
Definition trees (hp : list entry) : list part -> option (list vt) :=
  fix go l := match l with
              | [] => Some []
              | p :: l' => match tree hp p, go l' with Some t, Some ts => Some (t :: ts) | _, _ => None end
              end.

(** Only named nodes and the elements that aliases refer to need keys, and the
    kind KAlias is NewAlias. *)
Definition construct (hp : list entry) (address : key) (c : constructor) : option entry :=
  match c with
  | NewPlain keyed sb kd kids =>
      match kd, keyed with
      | KAlias _ _, _ | KNode (Some _), false => None
      | _, _ => let k := if keyed then address else "" in
                option_map (fun ts => (k, V (Head k sb kd) ts)) (trees hp kids)
      end
  | NewAlias i tx =>
      match element hp i with
      | Some (dk, d) => if String.eqb dk "" then None else Some (address, V (Head address false (KAlias dk tx)) [d])
      | None => None
      end
  | NewBare keyed kids => option_map (fun ts => (if keyed then address else "", B ts)) (trees hp kids)
  end.

(** The address of the local variable of the n-th call is [address n]. *)
Fixpoint construct_all (address : nat -> key) (hp : list entry) (l : list constructor) : option (list entry) :=
  match l with
  | [] => Some hp
  | c :: l' => match construct hp (address (length hp)) c with
               | Some e => construct_all address (e :: hp) l'
               | None => None
               end
  end.

(** The calls whose elements are told apart by the renderer: named nodes,
    aliases, and what they alias. *)
Definition identified (calls : list constructor) (i : nat) : Prop :=
  (exists keyed sb n kids, nth_error calls i = Some (NewPlain keyed sb (KNode (Some n)) kids))
  \/ (exists j tx, nth_error calls i = Some (NewAlias j tx))
  \/ (exists j tx, nth_error calls j = Some (NewAlias i tx)).
