(** The renderer: the visitor [CypherRenderer] of cypher_renderer.go run on
    visit trees.

    A visit tree records what the [accept] methods of /repo do to the visitor:
    [V h kids] is [visitor.enter(x)], the visits of the parts, [visitor.leave(x)];
    [B kids] is an [accept] that only visits parts; [T s] is a direct
    [visitor.append(s)] outside of enter and leave (list_literal.go:42). *)

From Coq Require Import Ascii String List ZArith Bool.
From Verif Require Import GoStr.
Import ListNotations.
Open Scope string_scope.

(** Identities of elements: the result of [getKey], derived from an address. *)
Definition key := string.

(** What the renderer needs of an [AliasedExpression] (alias_expression.go:7-13):
    its key, the key of its delegate and its alias after EscapeIfNecessary. *)
Record alias := Alias { al_key : key; al_dkey : key; al_text : string }.

(** The three ways in which [enter] and [leave] of an element behave:
    fixed texts; node.go:142-157; alias_expression.go:71-82. *)
Inductive kind :=
| KText (before after : string)
| KNode (name : option string)
| KAlias (dkey : key) (text : string).

(** [h_sub]: the Go type implements SubVisitable (visitable.go). *)
Record head := Head { h_key : key; h_sub : bool; h_kind : kind }.

Inductive vt :=
| V (h : head) (kids : list vt)
| B (kids : list vt)
| T (s : string).

(** ** State: cypher_renderer.go:10-21.  resolvedSymbolicNames is never
    written and guid is in the environment.  Maps are association lists whose
    first entry for a key counts; the slices used as stacks have their top
    first. *)
Record rst := Rst {
  r_aliased : list (key * alias);      (* visitableToAliased *)
  r_seps : list (Z * string);          (* separatorOnLevel *)
  r_named : list key;                  (* visitedNamed *)
  r_stack : list key;                  (* currentVisitedElements *)
  r_alstack : list alias;              (* currentAliasedElements *)
  r_level : Z;                         (* currentLevel *)
  r_skip : bool;                       (* skipNodeContent *)
  r_out : string                       (* builder *)
}.

Definition set_aliased x r := Rst x (r_seps r) (r_named r) (r_stack r) (r_alstack r) (r_level r) (r_skip r) (r_out r).
Definition set_seps x r := Rst (r_aliased r) x (r_named r) (r_stack r) (r_alstack r) (r_level r) (r_skip r) (r_out r).
Definition set_named x r := Rst (r_aliased r) (r_seps r) x (r_stack r) (r_alstack r) (r_level r) (r_skip r) (r_out r).
Definition set_stack x r := Rst (r_aliased r) (r_seps r) (r_named r) x (r_alstack r) (r_level r) (r_skip r) (r_out r).
Definition set_alstack x r := Rst (r_aliased r) (r_seps r) (r_named r) (r_stack r) x (r_level r) (r_skip r) (r_out r).
Definition set_level x r := Rst (r_aliased r) (r_seps r) (r_named r) (r_stack r) (r_alstack r) x (r_skip r) (r_out r).
Definition set_skip x r := Rst (r_aliased r) (r_seps r) (r_named r) (r_stack r) (r_alstack r) (r_level r) x (r_out r).

(** cypher_renderer.go:23-26 [append]. *)
Definition append_out (s : string) r :=
  Rst (r_aliased r) (r_seps r) (r_named r) (r_stack r) (r_alstack r) (r_level r) (r_skip r) (r_out r ++ s).

(** cypher_renderer.go:28-40 [NewRenderer]. *)
Definition new_renderer : rst := Rst [] [] [] [] [] 0%Z false "".

(** Go maps. *)
Fixpoint assoc {A} (k : key) (m : list (key * A)) : option A :=
  match m with
  | [] => None
  | (k', v) :: m' => if String.eqb k k' then Some v else assoc k m'
  end.

Fixpoint get_sep (l : Z) (m : list (Z * string)) : option string :=
  match m with
  | [] => None
  | (l', v) :: m' => if Z.eqb l l' then Some v else get_sep l m'
  end.

Definition del_sep (l : Z) (m : list (Z * string)) : list (Z * string) :=
  filter (fun e => negb (Z.eqb l (fst e))) m.

Definition memk (k : key) (l : list key) : bool := existsb (String.eqb k) l.

Definition is_some {A} (o : option A) : bool := match o with Some _ => true | None => false end.

(** cypher_renderer.go:53-59 [enableSeparator]. *)
Definition enable_separator (l : Z) (on : bool) (r : rst) : rst :=
  if on then set_seps ((l, "") :: r_seps r) r else set_seps (del_sep l (r_seps r)) r.

(** cypher_renderer.go:143-148 [getAliasedIfSeen]. *)
Definition head_of (a : alias) : head := Head (al_key a) false (KAlias (al_dkey a) (al_text a)).

Definition used (r : rst) (h : head) : head :=
  match assoc (h_key h) (r_aliased r) with Some a => head_of a | None => h end.

(** The type assertion to AliasedExpression (cypher_renderer.go:97, 112). *)
Definition as_alias (h : head) : option alias :=
  match h_kind h with KAlias dk tx => Some (Alias (h_key h) dk tx) | _ => None end.

(** cypher_renderer.go:104-108: the expression being aliased was written before. *)
Definition top_visited (r : rst) : bool :=
  match r_alstack r with
  | [] => false
  | a :: _ => is_some (assoc (al_dkey a) (r_aliased r))
  end.

(** cypher_renderer.go:103-126 [PreEnter]. *)
Definition pre_enter (h : head) (r : rst) : rst * bool :=
  if (r_skip r || top_visited r)%bool then (r, false)
  else
    let r1 := match as_alias h with Some a => set_alstack (a :: r_alstack r) r | None => r end in
    let r2 := set_level (r_level r1 + 1)%Z r1 in
    let r3 := if h_sub h then enable_separator (r_level r2 + 1)%Z true r2 else r2 in
    let r4 := match get_sep (r_level r3) (r_seps r3) with
              | Some s => set_seps ((r_level r3, "") :: r_seps r3) (append_out s r3)
              | None => r3
              end in
    (r4, negb (r_skip r4)).

(** The [enter] methods: texts in Ast.v; node.go:142-152; alias_expression.go:71-75. *)
Definition el_enter (h : head) (r : rst) : rst :=
  match h_kind h with
  | KText b _ => append_out b r
  | KNode None => append_out "(" r
  | KNode (Some n) =>
      let r1 := append_out "(" r in
      let seen := memk (h_key h) (r_named r1) in
      let r2 := set_named (h_key h :: r_named r1) (set_skip seen r1) in
      if r_skip r2 then append_out n r2 else r2
  | KAlias dk tx => if is_some (assoc dk (r_aliased r)) then append_out tx r else r
  end.

(** The [leave] methods: node.go:154-157; alias_expression.go:77-82. *)
Definition el_leave (h : head) (r : rst) : rst :=
  match h_kind h with
  | KText _ a => append_out a r
  | KNode _ => set_skip false (append_out ")" r)
  | KAlias dk tx => if is_some (assoc dk (r_aliased r)) then r else append_out tx (append_out " AS " r)
  end.

(** cypher_renderer.go:81-87 [enter]. *)
Definition enter (h : head) (r : rst) : rst :=
  let u := used r h in
  let (r1, go) := pre_enter u r in
  if go then el_enter u (set_stack (h_key u :: r_stack r1) r1) else r1.

(** cypher_renderer.go:128-141 [postLeave]. *)
Definition post_leave (h : head) (r : rst) : rst :=
  let r1 := match get_sep (r_level r) (r_seps r) with
            | Some _ => set_seps ((r_level r, ", ") :: r_seps r) r
            | None => r
            end in
  let r2 := if h_sub h then enable_separator (r_level r1 + 1)%Z false r1 else r1 in
  let r3 := match r_alstack r2 with
            | a :: rest => if String.eqb (al_key a) (h_key h) then set_alstack rest r2 else r2
            | [] => r2
            end in
  set_level (r_level r3 - 1)%Z r3.

(** cypher_renderer.go:166-171 [peek], 159-164 [pop]. *)
Definition peek (l : list key) : key := match l with k :: _ => k | [] => "" end.
Definition pop (l : list key) : list key := match l with _ :: l' => l' | [] => [] end.

(** cypher_renderer.go:89-101 [leave]. *)
Definition leave (h : head) (r : rst) : rst :=
  let u := used r h in
  let r1 := if String.eqb (peek (r_stack r)) (h_key u) then
              let r' := post_leave u (el_leave u r) in
              set_stack (pop (r_stack r')) r'
            else r in
  match as_alias h with
  | Some a => set_aliased ((al_dkey a, a) :: r_aliased r1) r1
  | None => r1
  end.

(** The [accept] methods. *)
Fixpoint accept (t : vt) (r : rst) : rst :=
  match t with
  | V h kids =>
      leave h ((fix accepts (l : list vt) (r : rst) : rst :=
                  match l with [] => r | k :: l' => accepts l' (accept k r) end) kids (enter h r))
  | B kids =>
      (fix accepts (l : list vt) (r : rst) : rst :=
         match l with [] => r | k :: l' => accepts l' (accept k r) end) kids r
  | T s => append_out s r
  end.

Fixpoint accepts (l : list vt) (r : rst) : rst :=
  match l with [] => r | k :: l' => accepts l' (accept k r) end.

(** ** Render: cypher_renderer.go:42-51.  A statement is nil, carries an error,
    or is visited. *)
Inductive stmt_value (err : Type) :=
| SNil
| SErr (e : err)
| SOk (t : vt).
Arguments SNil {err}.
Arguments SErr {err} e.
Arguments SOk {err} t.

(** The errors of Render. *)
Inductive render_error (err : Type) := NilStatement | Carried (e : err).
Arguments NilStatement {err}.
Arguments Carried {err} e.

(** [Render] has a value receiver: slices, level, flag and builder of the
    caller's renderer are not changed by the traversal, its maps are.  The
    result is the text, the error, and the renderer the caller is left with. *)
Definition render {err} (s : stmt_value err) (r : rst) : string * option (render_error err) * rst :=
  match s with
  | SNil => ("", Some NilStatement, r)
  | SErr e => ("", Some (Carried e), r)
  | SOk t =>
      let r' := accept t r in
      (trim_space (r_out r'), None,
       Rst (r_aliased r') (r_seps r') (r_named r')
           (r_stack r) (r_alstack r) (r_level r) (r_skip r) (r_out r))
  end.
