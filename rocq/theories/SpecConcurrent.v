(** Specification: what goroutines that render should get. *)

From Coq Require Import String List ZArith Bool.
From Verif Require Import GoStr VTree Concurrent.
Import ListNotations.
Open Scope string_scope.
Open Scope list_scope.

Section Goroutines.
Context {err : Type}.

(** Nobody else uses the renderer of the i-th goroutine. *)
Definition owner (gs : list (goroutine err)) (i : nat) (rd : nat) : Prop :=
  forall j g, nth_error gs j = Some g -> g_renderer g = rd -> j = i.

(** One call after the other on the same renderer. *)
Fixpoint in_turn (ss : list (stmt_value err)) (r : rst) : list (string * option (render_error err)) :=
  match ss with
  | [] => []
  | s :: ss' => let '(t, e, r') := render s r in (t, e) :: in_turn ss' r'
  end.

Definition idle (m : maps) : rst := with_maps m new_renderer.

End Goroutines.
