(** Properties of CASE expressions: C36. *)

From Coq Require Import Ascii String List ZArith Bool Arith Lia.
From Verif Require Import GoStr Escape Num VTree Ast GoVal Slices HeapCondProofs SpecDoc SpecPrint DocProofs RenderProofs BuilderText SpecPattern PatternProofs Cases PropertiesText.
Import ListNotations.
Open Scope string_scope.
Open Scope list_scope.

(** ** Specification *)

(** The branches and the ELSE that a sequence of calls names. *)
Fixpoint branches_said (xs : list case_call) : list (expr * expr) :=
  match xs with
  | WhenThen _ _ (GOk w) (GOk t) :: xs' => (w, t) :: branches_said xs'
  | _ :: xs' => branches_said xs'
  | [] => []
  end.
Fixpoint else_said (xs : list case_call) (before : option expr) : option expr :=
  match xs with
  | Else _ (GOk e) :: xs' => else_said xs' (Some e)
  | _ :: xs' => else_said xs' before
  | [] => before
  end.

(** The text: CASE, the subject, the branches, the ELSE, END. *)
Definition case_doc (E : env) (subject : option expr) (bs : list (expr * expr)) (e : option expr) : doc :=
  Cat ([Txt "CASE"] ++ (match subject with Some s => [Txt " "; plain (print E s)] | None => [] end)
       ++ flat_map (fun b => [Txt " WHEN "; plain (print E (fst b)); Txt " THEN "; plain (print E (snd b))]) bs
       ++ (match e with Some x => [Txt " ELSE "; plain (print E x)] | None => [] end)
       ++ [Txt " END"]).

(** Calls without errors; ELSE comes last. *)
Definition good_call (x : case_call) : bool :=
  match x with WhenThen _ _ (GOk _) (GOk _) | Else _ (GOk _) => true | _ => false end.
Definition is_else (x : case_call) : bool := match x with Else _ _ => true | _ => false end.
Fixpoint else_last (xs : list case_call) : bool :=
  match xs with
  | [] => true
  | Else _ _ :: xs' => forallb is_else xs'
  | _ :: xs' => else_last xs'
  end.

(** The two constructors. *)
Definition start (k : key) (subject : option expr) : case := match subject with Some s => simple_case k (GOk s) | None => generic_case k end.

(** ** Proofs *)

Definition whole {A} (h : heap A) (s : slice) : Prop :=
  match s with NoCells => True | Prefix a n => a < length h /\ n <= length (cells h a) end.

Lemma append_read : forall A grow (z : A) h s xs h' s', whole h s -> append grow z h s xs = (h', s') -> whole h' s' /\ read h' s' = read h s ++ xs.
Proof.
  intros A grow z h s xs h' s' W E. destruct xs as [|x xs]; [inversion E; subst; rewrite app_nil_r; auto|].
  assert (E' : match s with
      | Prefix a l =>
          if Nat.leb (slice_len s + length (x :: xs)) (length (cells h a))
          then (update h a (overwrite (cells h a) l (x :: xs)), Prefix a (slice_len s + length (x :: xs)))
          else (h ++ [read h s ++ (x :: xs) ++ repeat z (grow (capacity h s) (slice_len s + length (x :: xs)) - (slice_len s + length (x :: xs)))], Prefix (length h) (slice_len s + length (x :: xs)))
      | NoCells => (h ++ [(x :: xs) ++ repeat z (grow 0 (slice_len s + length (x :: xs)) - (slice_len s + length (x :: xs)))], Prefix (length h) (slice_len s + length (x :: xs)))
      end = (h', s')) by exact E.
  clear E. generalize dependent (x :: xs). clear x xs. intros ys E.
  assert (New : forall l r, cells (h ++ [l ++ ys ++ r]) (length h) = l ++ ys ++ r).
  { intros l r. unfold cells. rewrite app_nth2, Nat.sub_diag by lia. reflexivity. }
  assert (Take : forall l r, firstn (length l + length ys) (l ++ ys ++ r) = l ++ ys).
  { intros l r. rewrite firstn_app_2. f_equal. rewrite firstn_app, firstn_all2, Nat.sub_diag by lia. cbn [firstn]. apply app_nil_r. }
  destruct s as [|a n]; cbn [slice_len] in E.
  - apply pair_equal_spec in E as [<- <-]. cbn [whole read]. rewrite app_length. cbn [length].
    change (ys ++ ?r) with ([] ++ ys ++ r). rewrite New. split; [rewrite !app_length; cbn [length]; lia|]. apply (Take []).
  - destruct W as [La Ln]. assert (L : length (firstn n (cells h a)) = n) by (rewrite firstn_length; lia).
    destruct (Nat.leb_spec (n + length ys) (length (cells h a))); apply pair_equal_spec in E as [<- <-]; cbn [whole read].
    + rewrite update_length. assert (C : cells (update h a (overwrite (cells h a) n ys)) a = overwrite (cells h a) n ys).
      { unfold cells at 1. rewrite nth_update, Nat.eqb_refl. replace (Nat.ltb a (length h)) with true by (symmetry; now apply Nat.ltb_lt). reflexivity. }
      rewrite C. unfold overwrite. split; [rewrite !app_length, L; lia|]. rewrite <- L at 1. apply Take.
    + rewrite app_length, New. cbn [length]. split; [rewrite !app_length, L; lia|]. rewrite <- L at 1. apply Take.
Qed.

Definition pairs (bs : list branch) : list (expr * expr) := map (fun p => (snd (fst p), snd p)) (flat_map branch_parts bs).

(** The state after some calls. *)
Definition case_is (h : heap branch) (c : case) (subject : option expr) (bs : list (expr * expr)) (e : option expr) : Prop :=
  whole h (cs_branches c) /\ first_branch_err (read h (cs_branches c)) = None /\ pairs (read h (cs_branches c)) = bs
  /\ option_map snd (cs_else c) = e /\ cs_subject c = subject /\ cs_err c = None
  /\ cs_generic c = match subject with Some _ => false | None => true end.

Lemma first_err_app : forall a b, first_branch_err a = None -> first_branch_err b = None -> first_branch_err (a ++ b) = None.
Proof. induction a as [|x a IH]; intros b A B; [exact B|]. cbn in *. destruct (branch_err x); [discriminate|auto]. Qed.

Lemma when_then_is : forall grow kb k w t h c subject bs e, case_is h c subject bs e ->
  exists h' c', case_step grow h c (WhenThen kb k (GOk w) (GOk t)) = Returns (h', c') /\ case_is h' c' subject (bs ++ [(w, t)]) None.
Proof.
  intros grow kb k w t h c subject bs e (W & F & P & Ee & S & Er & G). cbn [case_step case_when case_then branch_create].
  destruct (append grow (BadBranch "") h (cs_branches c) [Branch kb w t]) as [h' s] eqn:A.
  destruct (append_read _ _ _ _ _ _ _ _ W A) as [W' R].
  assert (F' : first_branch_err (read h' s) = None) by (rewrite R; apply first_err_app; auto).
  assert (P' : pairs (read h' s) = bs ++ [(w, t)]) by (rewrite R; unfold pairs; rewrite flat_map_app, map_app; cbn; now rewrite <- P).
  rewrite S. destruct subject as [x|]; eexists; eexists; (split; [reflexivity|]).
  - unfold ending_simple. rewrite F'. repeat split; auto.
  - unfold ending_generic. rewrite F'. repeat split; auto.
Qed.

Lemma elses_is : forall grow xs h c subject bs e, forallb good_call xs = true -> forallb is_else xs = true -> case_is h c subject bs e ->
  exists h' c', case_run grow h c xs = Returns (h', c') /\ case_is h' c' subject (bs ++ branches_said xs) (else_said xs e).
Proof.
  induction xs as [|x xs IH]; intros h c subject bs e G L I; [exists h, c; cbn; rewrite app_nil_r; auto|].
  cbn in G, L. apply andb_prop in G as [G1 G2]. apply andb_prop in L as [L1 L2]. destruct x as [kb k w t|k [x|t m]]; try discriminate.
  cbn [case_run case_step case_else branches_said else_said]. destruct I as (A & B & C & D & F & H & J).
  apply (IH h (Case (cs_subject c) (cs_branches c) (Some (k, x)) (cs_generic c) (cs_key c) (cs_err c)) subject bs (Some x) G2 L2).
  repeat split; auto.
Qed.

Lemma calls_is : forall grow xs h c subject bs, forallb good_call xs = true -> else_last xs = true -> case_is h c subject bs None ->
  exists h' c', case_run grow h c xs = Returns (h', c') /\ case_is h' c' subject (bs ++ branches_said xs) (else_said xs None).
Proof.
  induction xs as [|x xs IH]; intros h c subject bs G L I; [exists h, c; cbn; rewrite app_nil_r; auto|].
  destruct x as [kb k w t|k e].
  - cbn in G, L. apply andb_prop in G as [G1 G2]. destruct w as [w|], t as [t|]; try discriminate.
    destruct (when_then_is grow kb k w t h c subject bs None I) as (h1 & c1 & R1 & I1).
    cbn [case_run branches_said else_said]. rewrite R1. destruct (IH h1 c1 subject (bs ++ [(w, t)]) G2 L I1) as (h' & c' & R & I').
    exists h', c'. split; [exact R|]. now rewrite <- app_assoc in I'.
  - apply elses_is; auto.
Qed.

Lemma case_print : forall E h c subject bs e, case_is h c subject bs e -> deq (plain (print E (case_expr h c))) (case_doc E subject bs e).
Proof.
  intros E h c subject bs e (W & F & P & Ee & S & Er & G). unfold case_expr, case_doc. cbn [print plain]. rewrite G, S. apply leq_deq.
  rewrite !map_app. subst bs.
  assert (Hb : leq (map plain (flat_map (fun b : key * expr * expr => [Shared (fst (fst b)) (Cat [Txt " WHEN "; print E (snd (fst b)); Txt " THEN "]); print E (snd b)])
                                 (flat_map branch_parts (read h (cs_branches c)))))
                   (flat_map (fun b => [Txt " WHEN "; plain (print E (fst b)); Txt " THEN "; plain (print E (snd b))]) (pairs (read h (cs_branches c))))).
  { unfold pairs. induction (flat_map branch_parts (read h (cs_branches c))) as [|b l IH]; [apply leq_refl|]. cbn [flat_map map plain fst snd app].
    eapply leq_trans; [apply leq_nest|]. cbn [map app]. do 4 (apply leq_cons; [apply deq_refl|]). exact IH. }
  assert (He : leq (map plain (match cs_else c with Some x => [Shared (fst x) (Cat [Txt " ELSE "; print E (snd x)])] | None => [] end))
                   (match e with Some x => [Txt " ELSE "; plain (print E x)] | None => [] end)).
  { destruct (cs_else c) as [[k x]|]; cbn in Ee; subst e; [|apply leq_refl]. cbn [map plain fst snd]. eapply leq_trans; [apply leq_nest|]. rewrite app_nil_r. apply leq_refl. }
  destruct subject as [x|]; cbn [option_map maybe map plain app].
  - assert (T : forall l, leq (Txt "CASE " :: l) (Txt "CASE" :: Txt " " :: l)) by (intros l; split; intros m; cbn; destruct (wcat l m); reflexivity).
    eapply leq_trans; [apply T|]. do 3 (apply leq_cons; [apply deq_refl|]). apply leq_app; [exact Hb|]. apply leq_app; [exact He|apply leq_refl].
  - apply leq_cons; [apply deq_refl|]. apply leq_app; [exact Hb|]. apply leq_app; [exact He|apply leq_refl].
Qed.

(** ** C36: CASE expressions keep every branch *)

(** Every sequence of When/Then calls without errors, with ELSE at its end or
    without, gives a CASE expression without error that is written with its
    subject, its branches in the order of the calls and its ELSE (the last one
    given). *)
Theorem C36_branches_in_order_partial : forall grow k subject xs,
  forallb good_call xs = true -> else_last xs = true ->
  exists h c, case_run grow [] (start k subject) xs = Returns (h, c) /\ cs_err c = None
  /\ forall E m, transparent (print E (case_expr h c)) m ->
     write (print E (case_expr h c)) m = write (case_doc E subject (branches_said xs) (else_said xs None)) m.
Proof.
  intros grow k subject xs G L. destruct (calls_is grow xs [] (start k subject) subject [] G L) as (h & c & R & I).
  { destruct subject; repeat split; reflexivity. }
  exists h, c. split; [exact R|]. split; [apply I|]. intros E m T. rewrite plain_write by assumption. now apply case_print.
Qed.
Print Assumptions C36_branches_in_order_partial.

Definition sy (n : string) : expr := ESym ("s" ++ n)%string n.
Definition nu (z : Z) : expr := ENum ("n" ++ itoa z)%string (num_of_Z z).
Definition two_branches : list case_call :=
  [WhenThen "b1" "k1" (GOk (nu 1)) (GOk (sy "a")); WhenThen "b2" "k2" (GOk (nu 2)) (GOk (sy "b"))].
Definition run_text (xs : list case_call) : option string :=
  match case_run go_grow [] (start "k" (Some (sy "x"))) xs with
  | Returns (h, c) => match case_value h c with GOk e => Some (text (print env0 e)) | GErr _ _ => None end
  | _ => None
  end.

Example C36_case : forallb good_call (two_branches ++ [Else "e" (GOk (sy "c"))]) = true /\ else_last (two_branches ++ [Else "e" (GOk (sy "c"))]) = true
  /\ run_text (two_branches ++ [Else "e" (GOk (sy "c"))]) = Some "CASE x WHEN 1 THEN a WHEN 2 THEN b ELSE c END".
Proof. repeat split; vm_compute; reflexivity. Qed.

(** A When after ELSE: the ELSE is lost. *)
Theorem C36_else_lost_refuted :
  run_text ([WhenThen "b1" "k1" (GOk (nu 1)) (GOk (sy "a")); Else "e" (GOk (sy "c")); WhenThen "b2" "k2" (GOk (nu 2)) (GOk (sy "b"))])
  = Some "CASE x WHEN 1 THEN a WHEN 2 THEN b END".
Proof. vm_compute. reflexivity. Qed.
Print Assumptions C36_else_lost_refuted.

(** An error in a THEN is forgotten by the next When/Then, together with the
    subject and all branches before. *)
Theorem C36_error_forgotten_refuted :
  run_text (two_branches ++ [WhenThen "b3" "k3" (GOk (nu 3)) (GErr TOther "bad")]) = None
  /\ run_text (two_branches ++ [WhenThen "b3" "k3" (GOk (nu 3)) (GErr TOther "bad"); WhenThen "b4" "k4" (GOk (nu 4)) (GOk (sy "d"))])
     = Some "CASE WHEN 4 THEN d END".
Proof. split; vm_compute; reflexivity. Qed.
Print Assumptions C36_error_forgotten_refuted.

(** An error in a WHEN: Then panics. *)
Theorem C36_bad_when_panics_refuted : forall grow h c kb k t m ty, case_step grow h c (WhenThen kb k (GErr ty m) t) = Panics.
Proof. reflexivity. Qed.
Print Assumptions C36_bad_when_panics_refuted.

(** The result of When used twice: the second expression has the branch of the
    first. *)
Theorem C36_then_twice_refuted : exists h1 o1 c1 h2 o2 c2,
  case_then go_grow "b1" "k1" [] (case_when (generic_case "k") (GOk (nu 1))) (GOk (sy "a")) = Returns (h1, o1, c1)
  /\ case_then go_grow "b2" "k2" h1 o1 (GOk (sy "b")) = Returns (h2, o2, c2)
  /\ text (print env0 (case_expr h2 c2)) = "CASE WHEN 1 THEN a WHEN 1 THEN b END".
Proof. do 6 eexists. split; [vm_compute; reflexivity|]. split; [vm_compute; reflexivity|]. vm_compute. reflexivity. Qed.
Print Assumptions C36_then_twice_refuted.

(** Two continuations of the same CASE of three branches: the second replaces
    the last branch of the first. *)
Theorem C36_two_continuations_refuted : exists h0 c0 h1 c1 h2 c2,
  case_run go_grow [] (generic_case "k") (two_branches ++ [WhenThen "b3" "k3" (GOk (nu 3)) (GOk (sy "c"))]) = Returns (h0, c0)
  /\ case_step go_grow h0 c0 (WhenThen "b4" "k4" (GOk (nu 4)) (GOk (sy "d"))) = Returns (h1, c1)
  /\ case_step go_grow h1 c0 (WhenThen "b5" "k5" (GOk (nu 5)) (GOk (sy "e"))) = Returns (h2, c2)
  /\ text (print env0 (case_expr h1 c1)) = "CASE WHEN 1 THEN a WHEN 2 THEN b WHEN 3 THEN c WHEN 4 THEN d END"
  /\ text (print env0 (case_expr h2 c1)) = "CASE WHEN 1 THEN a WHEN 2 THEN b WHEN 3 THEN c WHEN 5 THEN e END".
Proof.
  do 6 eexists. split; [vm_compute; reflexivity|]. split; [vm_compute; reflexivity|]. split; [vm_compute; reflexivity|]. split; vm_compute; reflexivity.
Qed.
Print Assumptions C36_two_continuations_refuted.
