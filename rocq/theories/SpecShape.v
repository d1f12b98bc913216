(** Specification: the pieces a document is written from, and the statements
    whose elements stand where the library's constructors put them. *)

From Coq Require Import Ascii String List ZArith Bool.
From Verif Require Import GoStr Num VTree Ast SpecDoc SpecPrint SpecTokens SpecLeaves.
Import ListNotations.
Open Scope string_scope.

Fixpoint glue (l : list string) : string := match l with [] => "" | s :: l' => s ++ glue l' end.

(** The texts that [write] (SpecDoc.v) puts one after the other. *)
Fixpoint pieces (d : doc) (m : memory) : list string * memory :=
  match d with
  | Txt s => ([s], m)
  | Cat l =>
      (fix go l m := match l with
                     | [] => ([], m)
                     | d :: l' => let (x, m1) := pieces d m in let (y, m2) := go l' m1 in ((x ++ y)%list, m2)
                     end) l m
  | Commas l =>
      match l with
      | [] => ([], m)
      | d :: l' =>
          let (x, m1) := pieces d m in
          let (y, m2) := (fix go l m := match l with
                                        | [] => ([], m)
                                        | d :: l' => let (x, m1) := pieces d m in
                                                     let (y, m2) := go l' m1 in (", " :: x ++ y, m2)%list
                                        end) l' m1 in
          ((x ++ y)%list, m2)
      end
  | Shared k d =>
      match alias_of k (introduced m) with
      | Some a => ([a], introduce_all d m)
      | None => pieces d m
      end
  | Once k n d =>
      if existsb (String.eqb k) (written m)
      then (["("; n; ")"], introduce_all d (mark k m))
      else let (x, m1) := pieces d (mark k m) in (("(" :: x ++ [")"])%list, m1)
  | Aliased k a d =>
      match alias_of k (introduced m) with
      | Some _ => ([a], introduce k a (introduce_all d m))
      | None => let (x, m1) := pieces d m in ((x ++ [" AS "; a])%list, introduce k a m1)
      end
  end.

Section Shape.

(** [K]: the keys of the expressions that are given an alias. *)
Context (E : env) (K : key -> Prop).

(** No alias is given to operators and to the other parts every statement
    shares. *)
Definition shared_parts : Prop :=
  (forall o, ~ K (op_key E o)) /\ ~ K "" /\ ~ K (e_dotkey E) /\ ~ K "DISTINCT_INSTANCE".

(** Elements that are written right behind another element. *)
Definition attached (e : expr) : Prop :=
  match e with
  | ELookup k _ | EProps k _ | EWhere k _ | EOrder k _ | ESkip k _ | ELimit k _ | EYield k _ | EArgs k _
  | ELabels k _ | EDetails k _ _ _ _ _ | ENode k _ _ _ | EMap k _ => ~ K k
  | _ => False
  end.

(** Operators with an operand on either side. *)
Definition infix (o : op) : bool :=
  match o with Not | IsNull | IsNotNull | SetLabel | RemoveLabel => false | _ => true end.

Definition no_label_aliased (ls : list (key * string)) : Prop := Forall (fun l => ~ K (fst l)) ls.
Definition all_attached (o : option expr) : Prop := Forall attached (opt_list o).

(** Names of properties are not empty.  Texts written as the caller gave them
    are self-contained. *)
Definition own_shape (e : expr) : Prop :=
  match e with
  | EParam _ n => self_contained E n
  | ERaw _ s => self_contained E s
  | EFun _ n _ _ => self_contained E n
  | ENum _ n => (0 <= n_mant n)%Z
  | ELookup _ n => n <> ""
  | EProp _ _ n => attached n
  | EOperation _ _ o r => infix o = true \/ ((o = SetLabel \/ o = RemoveLabel) /\ attached r)
  | EComparison _ l o r =>
      infix o = true \/ (o = Not /\ l = None) \/ ((o = IsNull \/ o = IsNotNull) /\ r = None)
  | ECompound _ o _ => infix o = true
  | EAlias _ dk _ _ => K dk
  | EMapProj _ _ m => attached m
  | EListOp _ _ kd s dots x => ~ K kd /\ (dots = false -> s = None \/ x = None)
  | EListPred _ _ _ w => attached w
  | EListComp _ _ _ w _ => all_attached w
  | EPatComp _ _ w _ => all_attached w
  | EHasLabel _ _ ls => no_label_aliased ls
  | EExists _ km _ _ w => ~ K km /\ all_attached w
  | ELabels _ ls => no_label_aliased ls
  | ENode _ n ls ps =>
      (forall k x, n = Some (k, x) -> self_contained E x) /\ no_label_aliased ls /\ all_attached ps
  | EDetails _ _ _ ts len ps =>
      (forall k v, ts = Some (k, v) -> ~ K k) /\ (forall k u lo hi, len = Some (k, u, lo, hi) -> ~ K k)
      /\ all_attached ps
  | ERel _ _ d r => attached d /\ attached r
  | EChain _ rels last => Forall (fun p => attached (fst p) /\ attached (snd p)) rels /\ all_attached last
  | ECase _ g s bs d =>
      (g = true -> s = None) /\ Forall (fun b => ~ K (fst (fst b))) bs /\ (forall k x, d = Some (k, x) -> ~ K k)
  | _ => True
  end.

Inductive shaped : expr -> Prop :=
| sh : forall e, own_shape e -> Forall shaped (children e) -> shaped e.

Definition shaped_body (b : body) : Prop :=
  shaped (b_items b)
  /\ Forall (fun e => attached e /\ shaped e) (opt_list (b_order b) ++ opt_list (b_skip b) ++ opt_list (b_limit b)).

Definition shaped_behind (o : option expr) : Prop := Forall (fun e => attached e /\ shaped e) (opt_list o).

(** Clauses: they end with a blank. *)
Fixpoint clause (q : query) : Prop :=
  match q with
  | QMatch k _ _ _ | QCreate k _ | QMerge k _ _ | QBlank k | QDelete k _ _ | QSet k _ | QRemove k _ | QUnwind k _ _
  | QWith k _ _ _ | QCall k _ _ _ _ _ _ | QSubquery k _ => ~ K k
  | QAction k _ s => ~ K k /\ clause s
  | _ => False
  end.

(** The name of a procedure behind its name space. *)
Definition adjoin (x n : string) : Prop :=
  exists tx tn, tokens E x = Some tx /\ tokens E n = Some tn
    /\ forall b tb, stop b -> tokens E b = Some tb -> tokens E (x ++ n ++ b) = Some (tx ++ tn ++ tb)%list.

Inductive shaped_q : query -> Prop :=
| sq_match : forall k o p w, shaped p -> shaped_behind w -> shaped_q (QMatch k o p w)
| sq_create : forall k p, shaped p -> shaped_q (QCreate k p)
| sq_merge : forall k p, shaped p -> shaped_q (QMerge k p [])
| sq_merge_on : forall k p kb evs, shaped p -> ~ K kb -> Forall clause evs -> Forall shaped_q evs ->
    shaped_q (QMerge k p (QBlank kb :: evs))
| sq_blank : forall k, shaped_q (QBlank k)
| sq_action : forall k c s, shaped_q s -> shaped_q (QAction k c s)
| sq_delete : forall k d e, shaped e -> shaped_q (QDelete k d e)
| sq_set : forall k e, shaped e -> shaped_q (QSet k e)
| sq_remove : forall k e, shaped e -> shaped_q (QRemove k e)
| sq_unwind : forall k e v, shaped e -> self_contained E v -> shaped_q (QUnwind k e v)
| sq_with : forall k d b w, shaped_body b -> shaped_behind w -> shaped_q (QWith k d b w)
| sq_return : forall k d b, shaped_body b -> shaped_q (QReturn k d b)
| sq_call : forall k kn sp n a y w,
    match sp with Some (ks, x) => ~ K ks /\ adjoin x n | None => self_contained E n end ->
    shaped_behind a -> shaped_behind y -> shaped_behind w -> shaped_q (QCall k kn sp n a y w)
| sq_sub : forall k q, shaped_q q -> shaped_q (QSubquery k q)
| sq_single : forall cs r, Forall clause cs -> Forall shaped_q cs -> Forall shaped_q (opt_list r) ->
    shaped_q (QSingle cs r)
| sq_multi : forall ps r,
    (forall k cs w, In (k, cs, w) ps -> ~ K k /\ Forall clause cs /\ Forall shaped_q cs /\ clause w /\ shaped_q w) ->
    shaped_q r -> shaped_q (QMulti ps r)
| sq_union : forall k q qs, shaped_q q -> (forall ku a x, In (ku, a, x) qs -> ~ K ku /\ shaped_q x) ->
    shaped_q (QUnion k q qs).

End Shape.
