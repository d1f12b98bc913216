(** Goroutines that render: any number of goroutines call [Render] one
    statement after the other, each on a renderer of its own or on one that
    they share.

    [Render] has a value receiver (cypher_renderer.go:42): the maps of the
    renderer stay those of the caller's, everything else is a copy that belongs
    to the call.  A goroutine runs in steps: the call, every [enter], [leave]
    and [append] of the traversal, the return.  A schedule says which goroutine
    makes the next step.  Simplification: a step is not interrupted, so what the
    Go runtime does when two goroutines write a map at the same time (it may end
    the program) is not modelled; goroutines with renderers of their own touch
    no common memory, so for them nothing is lost. *)

From Coq Require Import String List ZArith Bool.
From Verif Require Import GoStr VTree.
Import ListNotations.
Open Scope string_scope.
Open Scope list_scope.

(** The calls that the [accept] methods make on the visitor, in their order. *)
Inductive event :=
| OnEnter (h : head)      (* cypher_renderer.go:81-87 *)
| OnLeave (h : head)      (* cypher_renderer.go:89-101 *)
| OnText (s : string).    (* cypher_renderer.go:23-26 *)

(** visitable.go: every [accept] visits all parts, whatever the visitor does. *)
Fixpoint events (t : vt) : list event :=
  match t with
  | V h kids => OnEnter h :: flat_map events kids ++ [OnLeave h]
  | B kids => flat_map events kids
  | T s => [OnText s]
  end.

Definition happen (e : event) (r : rst) : rst :=
  match e with OnEnter h => enter h r | OnLeave h => leave h r | OnText s => append_out s r end.

(** cypher_renderer.go:11-14: the maps of a renderer. *)
Record maps := Maps { m_aliased : list (key * alias); m_seps : list (Z * string); m_named : list key }.
Definition maps_of (r : rst) : maps := Maps (r_aliased r) (r_seps r) (r_named r).

(** The receiver of a call: the maps as they are now, the rest as copied. *)
Definition with_maps (m : maps) (r : rst) : rst :=
  Rst (m_aliased m) (m_seps m) (m_named m) (r_stack r) (r_alstack r) (r_level r) (r_skip r) (r_out r).

Definition new_maps : maps := maps_of new_renderer.

Section Goroutines.
Context {err : Type}.

Inductive action :=
| ACall                                                          (* cypher_renderer.go:42: the receiver is copied *)
| AEvent (e : event)
| AReturn                                                        (* cypher_renderer.go:50 *)
| AFail (e : render_error err).                                  (* cypher_renderer.go:43-48 *)

(** cypher_renderer.go:42-51. *)
Definition actions (s : stmt_value err) : list action :=
  match s with
  | SNil => [AFail NilStatement]
  | SErr e => [AFail (Carried e)]
  | SOk t => ACall :: map AEvent (events t) ++ [AReturn]
  end.

(** [g_renderer]: the renderer it uses; [g_copy]: the receiver of the running
    call, of which only what is not a map counts; [g_results]: what its calls
    have returned. *)
Record goroutine := Go {
  g_renderer : nat;
  g_todo : list action;
  g_copy : rst;
  g_results : list (string * option (render_error err)) }.

Definition go (renderer : nat) (statements : list (stmt_value err)) : goroutine :=
  Go renderer (flat_map actions statements) new_renderer [].

(** One step: the maps and the goroutine behind it.  The fields of the caller's
    renderer that are no maps are those of [NewRenderer] (cypher_renderer.go:28-40):
    no method but those running on the copy changes them. *)
Definition perform (m : maps) (g : goroutine) : maps * goroutine :=
  match g_todo g with
  | [] => (m, g)
  | ACall :: l => (m, Go (g_renderer g) l new_renderer (g_results g))
  | AEvent e :: l => let r := happen e (with_maps m (g_copy g)) in (maps_of r, Go (g_renderer g) l r (g_results g))
  | AReturn :: l => (m, Go (g_renderer g) l (g_copy g) (g_results g ++ [(trim_space (r_out (g_copy g)), None)]))
  | AFail e :: l => (m, Go (g_renderer g) l (g_copy g) (g_results g ++ [("", Some e)]))
  end.

(** The heap: the maps of each renderer. *)
Definition memory : Type := nat -> maps.
Definition put (mem : memory) (i : nat) (m : maps) : memory := fun j => if Nat.eqb j i then m else mem j.

Fixpoint replace {A} (l : list A) (i : nat) (x : A) : list A :=
  match l, i with
  | [], _ => []
  | _ :: l', O => x :: l'
  | y :: l', S i' => y :: replace l' i' x
  end.

(** The i-th goroutine makes a step. *)
Definition turn (c : memory * list goroutine) (i : nat) : memory * list goroutine :=
  match nth_error (snd c) i with
  | None => c
  | Some g =>
      let (m, g') := perform (fst c (g_renderer g)) g in
      (put (fst c) (g_renderer g) m, replace (snd c) i g')
  end.

Definition schedule (c : memory * list goroutine) (turns : list nat) : memory * list goroutine :=
  fold_left turn turns c.

End Goroutines.
Arguments action err : clear implicits.
Arguments goroutine err : clear implicits.
