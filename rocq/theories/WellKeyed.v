(** Well-keyed visit trees: the identities of elements are used consistently.

    [well_keyed t] asks, for the elements of [t],
    - that the key of an aliased expression is not empty, belongs to aliased
      expressions of one delegate only, and that no aliased expression occurs
      inside itself or inside its delegate;
    - that no element which is the delegate of an alias contains an element
      with its own key;
    - that a named node contains no element with the node's key.
    Elements that are no aliases, no delegates and no named nodes may share
    keys, including the empty key, in any way.  It is a computable check. *)

From Coq Require Import Ascii String List ZArith Bool.
From Verif Require Import GoStr VTree.
Import ListNotations.
Open Scope string_scope.

(** All keys of a tree. *)
Fixpoint keys (t : vt) : list key :=
  match t with
  | V h kids => h_key h :: (fix go l := match l with [] => [] | k :: l' => (keys k ++ go l')%list end) kids
  | B kids => (fix go l := match l with [] => [] | k :: l' => (keys k ++ go l')%list end) kids
  | T _ => []
  end.
Fixpoint keys_l (l : list vt) : list key := match l with [] => [] | k :: l' => (keys k ++ keys_l l')%list end.

(** All aliased expressions of a tree. *)
Definition own_alias (h : head) : list alias := match as_alias h with Some a => [a] | None => [] end.
Fixpoint aliases (t : vt) : list alias :=
  match t with
  | V h kids => (own_alias h ++ (fix go l := match l with [] => [] | k :: l' => (aliases k ++ go l')%list end) kids)%list
  | B kids => (fix go l := match l with [] => [] | k :: l' => (aliases k ++ go l')%list end) kids
  | T _ => []
  end.
Fixpoint aliases_l (l : list vt) : list alias := match l with [] => [] | k :: l' => (aliases k ++ aliases_l l')%list end.

Definition dkeys (als : list alias) : list key := map al_dkey als.

(** An element whose key is that of an aliased expression is an aliased
    expression of the same delegate. *)
Definition key_clash (als : list alias) (h : head) : bool :=
  existsb (fun a => String.eqb (al_key a) (h_key h)
                    && match h_kind h with KAlias dk _ => negb (String.eqb dk (al_dkey a)) | _ => true end) als.

(** What an aliased expression contains: its delegate, or (for conditions whose
    accept is bare) parts none of which has the delegate's key. *)
Definition alias_shape (dk : key) (kids : list vt) : bool :=
  match kids with
  | [V h _] => String.eqb (h_key h) dk || negb (memk dk (keys_l kids))
  | _ => negb (memk dk (keys_l kids))
  end.

Definition named_ok (h : head) (kids : list vt) : bool :=
  match h_kind h with
  | KNode (Some _) => negb (memk (h_key h) (keys_l kids))
  | _ => true
  end.

(** [anc]: keys of the enclosing elements; [open]: delegates of the enclosing
    aliased expressions. *)
Fixpoint wk (als : list alias) (anc open : list key) (t : vt) : bool :=
  match t with
  | V h kids =>
      let k := h_key h in
      negb (key_clash als h)
      && negb (memk k (dkeys als) && memk k anc)
      && named_ok h kids
      && match h_kind h with
         | KAlias dk _ =>
             memk dk (dkeys als)
             && negb (String.eqb k "") && negb (memk k anc)
             && negb (memk dk (k :: anc)) && negb (memk dk open)
             && alias_shape dk kids && negb (h_sub h)
         | _ => true
         end
      && (fix go l := match l with
                      | [] => true
                      | x :: l' => wk als (k :: anc)
                                      (match h_kind h with KAlias dk _ => dk :: open | _ => open end) x && go l'
                      end) kids
  | B kids => (fix go l := match l with [] => true | x :: l' => wk als anc open x && go l' end) kids
  | T _ => true
  end.
Fixpoint wk_l (als : list alias) (anc open : list key) (l : list vt) : bool :=
  match l with [] => true | x :: l' => wk als anc open x && wk_l als anc open l' end.

(** One key, one delegate. *)
Definition als_ok (als : list alias) : bool :=
  forallb (fun a => forallb (fun b => negb (String.eqb (al_key a) (al_key b))
                                      || String.eqb (al_dkey a) (al_dkey b)) als) als.

Definition well_keyed (t : vt) : bool := als_ok (aliases t) && wk (aliases t) [] [] t.

(** Nothing is appended directly inside named nodes and aliased expressions:
    the direct appends of list literals are not suppressed there. *)
Fixpoint has_append (t : vt) : bool :=
  match t with
  | V _ kids => (fix go l := match l with [] => false | x :: l' => has_append x || go l' end) kids
  | B kids => (fix go l := match l with [] => false | x :: l' => has_append x || go l' end) kids
  | T s => negb (String.eqb s "")
  end.

(** Elements that may be abbreviated: named nodes, aliased expressions, and the
    elements aliases stand for ([ds]: their keys). *)
Definition abbreviable (ds : list key) (h : head) : bool :=
  memk (h_key h) ds || match h_kind h with KNode (Some _) | KAlias _ _ => true | _ => false end.

(** No direct append inside an element that may be abbreviated. *)
Fixpoint quiet (ds : list key) (t : vt) : bool :=
  match t with
  | V h kids =>
      negb (abbreviable ds h && has_append (V h kids))
      && (fix go l := match l with [] => true | x :: l' => quiet ds x && go l' end) kids
  | B kids => (fix go l := match l with [] => true | x :: l' => quiet ds x && go l' end) kids
  | T _ => true
  end.
Fixpoint quiet_l (ds : list key) (l : list vt) : bool :=
  match l with [] => true | x :: l' => quiet ds x && quiet_l ds l' end.

Definition well_quiet (t : vt) : bool := quiet (dkeys (aliases t)) t.
