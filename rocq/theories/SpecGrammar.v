(** Specification: how a Cypher reader understands a text.

    Syntax trees of Cypher and a reader for the tokens of SpecTokens.v: a
    recursive descent parser for the part of openCypher that has to do with
    MATCH, CREATE, MERGE, SET, REMOVE, DELETE, UNWIND, WITH, RETURN, CALL and
    UNION, with the precedences of openCypher.  Nothing here refers to the
    elements of the library or to what it writes. *)

From Coq Require Import Ascii String List Bool Arith.
From Verif Require Import GoStr SpecTokens SpecOutline.
Import ListNotations.
Open Scope string_scope.
Open Scope list_scope.

(** ** Syntax trees *)

Inductive binop :=
| OOr | OXor | OAnd
| OEq | ONe | OLt | OGt | OLe | OGe
| OAdd | OSub | OMul | ODiv | OMod | OPow
| OStarts | OEnds | OContains | OLike | OIn.

Inductive heading := ToRight | ToLeft | Undirected.

(** Expressions and patterns.  [XFilter]: all, any, none and single, with
    v IN list WHERE condition; [XListComp] and [XPatComp]: comprehensions. *)
Inductive cx :=
| XVar (n : string)
| XParam (n : string)
| XStar
| XBool (b : bool)
| XNull
| XNum (s : string)
| XStr (s : string)
| XList (l : list cx)
| XMap (l : list (string * cx))
| XProp (x : cx) (n : string)
| XIndex (x i : cx)
| XSlice (x : cx) (lo hi : option cx)
| XLabels (x : cx) (ls : list string)
| XNeg (x : cx)
| XNot (x : cx)
| XIsNull (yes : bool) (x : cx)
| XBin (o : binop) (x y : cx)
| XCall (f : list string) (distinct : bool) (args : list cx)
| XFilter (f v : string) (l : cx) (w : option cx)
| XCase (subject : option cx) (branches : list (cx * cx)) (default : option cx)
| XListComp (v : string) (l : cx) (w d : option cx)
| XPatComp (path : option string) (n : cnode) (hops : list (crel * cnode)) (w d : option cx)
| XProject (n : string) (ps : list cproj)
| XPattern (n : cnode) (hops : list (crel * cnode))
| XExists (optional : bool) (ps : list cpart) (w : option cx)
with cproj := PAll | PProp (n : string) | PEntry (n : string) (x : cx) | PVar (n : string)
with cnode := CNode (name : option string) (labels : list string) (props : option (list (string * cx)))
with crel := CRel (h : heading) (name : option string) (types : list string)
                  (len : option (option string * bool * option string)) (props : option (list (string * cx)))
with cpart := CPart (path : option string) (f : option string) (n : cnode) (hops : list (crel * cnode)).

Record citem := CItem { ci_value : cx; ci_alias : option string }.
Record cbody := CBody {
  cb_distinct : bool; cb_items : list citem; cb_order : list (cx * option bool);   (* true: descending *)
  cb_skip : option cx; cb_limit : option cx }.
Inductive cset := SAssign (x y : cx) | SMutate (x y : cx) | SLabels (x : cx).

Inductive cclause :=
| CMatch (optional : bool) (ps : list cpart) (w : option cx)
| CCreate (ps : list cpart)
| CMerge (ps : list cpart) (on : list (bool * list cset))                          (* true: ON CREATE *)
| CDelete (detach : bool) (xs : list cx)
| CSet (l : list cset)
| CRemove (l : list cx)
| CUnwind (x : cx) (v : string)
| CWith (b : cbody) (w : option cx)
| CReturn (b : cbody)
| CCall (name : list string) (args : option (list cx)) (yield : option (list citem)) (w : option cx)
| CSub (first : list cclause) (others : list (bool * list cclause)).               (* true: UNION ALL *)

Record cquery := CQuery { cq_first : list cclause; cq_others : list (bool * list cclause) }.

(** ** Reading *)

Definition reader (A : Type) : Type := list token -> option (A * list token).

Definition bind {A B} (o : option (A * list token)) (k : A -> list token -> option B) : option B :=
  match o with Some (x, r) => k x r | None => None end.

(** What follows a keyword (in capital or small letters), or a mark. *)
Definition is_word (w : string) (ts : list token) : option (list token) :=
  match ts with Word v :: r => if one_of [w] v then Some r else None | _ => None end.
Definition is_mark (m : string) (ts : list token) : option (list token) :=
  match ts with Mark v :: r => if String.eqb v m then Some r else None | _ => None end.

Definition a_name : reader string :=
  fun ts => match ts with Word n :: r | Name n :: r => Some (n, r) | _ => None end.
Definition maybe_name (ts : list token) : option string * list token :=
  match ts with Word n :: r | Name n :: r => (Some n, r) | _ => (None, ts) end.

(** An expression, if there is a keyword before it. *)
Definition maybe_after {A} (w : string) (p : reader A) : reader (option A) :=
  fun ts => match is_word w ts with
            | Some r => bind (p r) (fun x r => Some (Some x, r))
            | None => Some (None, ts)
            end.

(** One or more, separated by commas. *)
Fixpoint more {A} (n : nat) (p : reader A) (ts : list token) : option (list A * list token) :=
  match is_mark "," ts with
  | None => Some ([], ts)
  | Some r =>
      match n with
      | O => None
      | S n' => bind (p r) (fun x r => bind (more n' p r) (fun xs r => Some (x :: xs, r)))
      end
  end.
Definition items {A} (p : reader A) : reader (list A) :=
  fun ts => bind (p ts) (fun x r => bind (more (length r) p r) (fun xs r => Some (x :: xs, r))).
(** None or more, up to a mark. *)
Definition items_until {A} (m : string) (p : reader A) : reader (list A) :=
  fun ts => match is_mark m ts with
            | Some r => Some ([], r)
            | None => bind (items p ts) (fun xs r => match is_mark m r with Some r => Some (xs, r) | None => None end)
            end.

(** :A:B *)
Fixpoint labels_of (ts : list token) : list string * list token :=
  match ts with
  | Mark m :: t :: r =>
      if String.eqb m ":" then
        match t with
        | Word v | Name v => let (l, r') := labels_of r in (v :: l, r')
        | _ => ([], ts)
        end
      else ([], ts)
  | _ => ([], ts)
  end.

(** :A|B *)
Fixpoint types_more (ts : list token) : list string * list token :=
  match ts with
  | Mark m :: t :: r =>
      if String.eqb m "|" then
        match t with
        | Word v | Name v => let (l, r') := types_more r in (v :: l, r')
        | _ => ([], ts)
        end
      else ([], ts)
  | _ => ([], ts)
  end.
Definition types_of (ts : list token) : option (list string * list token) :=
  match is_mark ":" ts with
  | None => Some ([], ts)
  | Some r => bind (a_name r) (fun n r => let (l, r') := types_more r in Some (n :: l, r'))
  end.

(** *, *1.., *..2, *1..2 *)
Definition numeral (ts : list token) : option string * list token :=
  match ts with
  | Number s :: r => (Some s, r)
  | Mark m :: Number s :: r => if String.eqb m "-" then (Some (m ++ s)%string, r) else (None, ts)
  | _ => (None, ts)
  end.
Definition length_of (ts : list token) : option (option string * bool * option string) * list token :=
  match is_mark "*" ts with
  | None => (None, ts)
  | Some r =>
      let (lo, r) := numeral r in
      match is_mark ".." r with
      | None => (Some (lo, false, None), r)
      | Some r => let (hi, r) := numeral r in (Some (lo, true, hi), r)
      end
  end.

(** Words that are no variables unless they are quoted. *)
Definition keywords : list string :=
  ["ALL"; "AND"; "AS"; "ASC"; "ASCENDING"; "BY"; "CALL"; "CASE"; "CONTAINS"; "CREATE"; "DELETE"; "DESC"; "DESCENDING"; "DETACH";
   "DISTINCT"; "ELSE"; "END"; "ENDS"; "EXISTS"; "FALSE"; "IN"; "IS"; "LIMIT"; "MATCH"; "MERGE"; "NOT"; "NULL"; "ON"; "OPTIONAL";
   "OR"; "ORDER"; "REMOVE"; "RETURN"; "SET"; "SKIP"; "STARTS"; "THEN"; "TRUE"; "UNION"; "UNWIND"; "WHEN"; "WHERE"; "WITH";
   "XOR"; "YIELD"].

(** ** Parts that contain expressions: [p] reads an expression *)

Section Parts.
Context (p : reader cx).

Definition entry : reader (string * cx) :=
  fun ts => bind (a_name ts) (fun n r =>
    match is_mark ":" r with
    | Some r => bind (p r) (fun x r => Some ((n, x), r))
    | None => None
    end).
Definition entries : reader (list (string * cx)) := items_until "}" entry.
Definition properties : reader (option (list (string * cx))) :=
  fun ts => match is_mark "{" ts with
            | Some r => bind (entries r) (fun l r => Some (Some l, r))
            | None => Some (None, ts)
            end.

Definition projection : reader cproj :=
  fun ts => match is_mark "." ts with
            | Some r => match is_mark "*" r with
                        | Some r => Some (PAll, r)
                        | None => bind (a_name r) (fun n r => Some (PProp n, r))
                        end
            | None => bind (a_name ts) (fun n r =>
                match is_mark ":" r with
                | Some r => bind (p r) (fun x r => Some (PEntry n x, r))
                | None => Some (PVar n, r)
                end)
            end.

Definition a_node : reader cnode :=
  fun ts => match is_mark "(" ts with
            | None => None
            | Some r =>
                let (n, r) := maybe_name r in
                let (ls, r) := labels_of r in
                bind (properties r) (fun ps r =>
                  match is_mark ")" r with Some r => Some (CNode n ls ps, r) | None => None end)
            end.

(** What stands in the brackets of a relationship. *)
Definition details (h : heading) : reader crel :=
  fun ts => match is_mark "[" ts with
            | None => Some (CRel h None [] None None, ts)
            | Some r =>
                let (n, r) := maybe_name r in
                bind (types_of r) (fun ty r =>
                let (le, r) := length_of r in
                bind (properties r) (fun ps r =>
                  match is_mark "]" r with Some r => Some (CRel h n ty le ps, r) | None => None end))
            end.
Definition turned (h : heading) (x : crel) : crel := match x with CRel _ n ty le ps => CRel h n ty le ps end.
Definition a_rel : reader crel :=
  fun ts => match is_mark "<" ts with
            | Some r => match is_mark "-" r with
                        | Some r => bind (details ToLeft r) (fun x r =>
                            match is_mark "-" r with Some r => Some (x, r) | None => None end)
                        | None => None
                        end
            | None => match is_mark "-" ts with
                      | Some r => bind (details Undirected r) (fun x r =>
                          match is_mark "-" r with
                          | Some r => match is_mark ">" r with Some r => Some (turned ToRight x, r) | None => Some (x, r) end
                          | None => None
                          end)
                      | None => None
                      end
            end.

(** Tokens that go on with a relationship: -[, --, <-[ and <--. *)
Definition arrow (ts : list token) : bool :=
  match (match is_mark "<" ts with Some r => is_mark "-" r | None => is_mark "-" ts end) with
  | Some (Mark m :: _) => (String.eqb m "-" || String.eqb m "[")%bool
  | _ => false
  end.

Fixpoint hops (n : nat) (ts : list token) : option (list (crel * cnode) * list token) :=
  if arrow ts then
    match n with
    | O => None
    | S n' => bind (a_rel ts) (fun x r => bind (a_node r) (fun y r => bind (hops n' r) (fun l r => Some ((x, y) :: l, r))))
    end
  else Some ([], ts).
Definition a_chain : reader (cnode * list (crel * cnode)) :=
  fun ts => bind (a_node ts) (fun n r => bind (hops (length r) r) (fun l r => Some ((n, l), r))).

Definition a_part_of (path : option string) : reader cpart :=
  fun ts => match ts with
            | Word w :: Mark m :: r =>
                if (String.eqb m "(" && one_of ["SHORTESTPATH"; "ALLSHORTESTPATHS"] w)%bool
                then bind (a_chain r) (fun c r => match is_mark ")" r with
                                                  | Some r => Some (CPart path (Some w) (fst c) (snd c), r)
                                                  | None => None
                                                  end)
                else None
            | _ => bind (a_chain ts) (fun c r => Some (CPart path None (fst c) (snd c), r))
            end.
Definition a_part : reader cpart :=
  fun ts => match ts with
            | Word n :: Mark m :: r | Name n :: Mark m :: r =>
                if String.eqb m "=" then a_part_of (Some n) r else a_part_of None ts
            | _ => a_part_of None ts
            end.

(** The arguments of a function. *)
Definition arguments : reader (bool * list cx) :=
  fun ts => match is_word "DISTINCT" ts with
            | Some r => bind (items_until ")" p r) (fun l r => Some ((true, l), r))
            | None => bind (items_until ")" p ts) (fun l r => Some ((false, l), r))
            end.

(** v IN list WHERE condition *)
Definition a_filter : reader (string * cx * option cx) :=
  fun ts => bind (a_name ts) (fun v r =>
    match is_word "IN" r with
    | Some r => bind (p r) (fun l r => bind (maybe_after "WHERE" p r) (fun w r => Some ((v, l, w), r)))
    | None => None
    end).

Fixpoint whens (n : nat) (ts : list token) : option (list (cx * cx) * list token) :=
  match is_word "WHEN" ts with
  | None => Some ([], ts)
  | Some r =>
      match n with
      | O => None
      | S n' => bind (p r) (fun c r =>
          match is_word "THEN" r with
          | Some r => bind (p r) (fun x r => bind (whens n' r) (fun l r => Some ((c, x) :: l, r)))
          | None => None
          end)
      end
  end.
Definition a_case : reader cx :=
  fun ts => bind (match is_word "WHEN" ts with
                  | Some _ => Some (None, ts)
                  | None => bind (p ts) (fun s r => Some (Some s, r))
                  end) (fun s r =>
    bind (whens (length r) r) (fun bs r =>
    bind (maybe_after "ELSE" p r) (fun d r =>
      match is_word "END" r with Some r => Some (XCase s bs d, r) | None => None end))).

(** Behind an opening bracket: a list comprehension, if a name and IN follow;
    a pattern comprehension, if a condition or a bar follows what comes first. *)
Definition filter_ahead (ts : list token) : bool :=
  match ts with
  | Word v :: Word w :: _ => (one_of ["IN"] w && negb (one_of keywords v))%bool
  | Name _ :: Word w :: _ => one_of ["IN"] w
  | _ => false
  end.
Definition maybe_result : reader (option cx) :=
  fun ts => match is_mark "|" ts with
            | Some r => bind (p r) (fun d r => Some (Some d, r))
            | None => Some (None, ts)
            end.
Definition comprehension (x : cx) (w d : option cx) : option cx :=
  match w, d with
  | None, None => Some (XList [x])
  | _, _ => match x with
            | XPattern n h => Some (XPatComp None n h w d)
            | XBin OEq (XVar v) (XPattern n h) => Some (XPatComp (Some v) n h w d)
            | _ => None
            end
  end.
Definition a_list : reader cx :=
  fun ts =>
    match is_mark "]" ts with
    | Some r => Some (XList [], r)
    | None =>
        if filter_ahead ts then
          bind (a_filter ts) (fun x r => bind (maybe_result r) (fun d r =>
            match is_mark "]" r with Some r => Some (XListComp (fst (fst x)) (snd (fst x)) (snd x) d, r) | None => None end))
        else
          bind (p ts) (fun x r =>
          match is_mark "," r with
          | Some _ => bind (more (length r) p r) (fun xs r =>
              match is_mark "]" r with Some r => Some (XList (x :: xs), r) | None => None end)
          | None =>
              bind (maybe_after "WHERE" p r) (fun w r => bind (maybe_result r) (fun d r =>
                match is_mark "]" r, comprehension x w d with Some r, Some t => Some (t, r) | _, _ => None end))
          end)
    end.

(** Behind an opening bracket that follows an expression. *)
Definition subscript (x : cx) : reader cx :=
  fun ts =>
    bind (match is_mark ".." ts with
          | Some _ => Some (None, ts)
          | None => bind (p ts) (fun lo r => Some (Some lo, r))
          end) (fun lo r =>
    match is_mark ".." r with
    | Some r =>
        match is_mark "]" r with
        | Some r => Some (XSlice x lo None, r)
        | None => bind (p r) (fun hi r => match is_mark "]" r with Some r => Some (XSlice x lo (Some hi), r) | None => None end)
        end
    | None =>
        match lo, is_mark "]" r with
        | Some i, Some r => Some (XIndex x i, r)
        | _, _ => None
        end
    end).

(** Behind EXISTS and an opening brace. *)
Definition an_exists : reader cx :=
  fun ts =>
    let (o, r) := match is_word "OPTIONAL" ts with Some r => (true, r) | None => (false, ts) end in
    match is_word "MATCH" r with
    | Some r =>
        bind (items a_part r) (fun ps r =>
        bind (maybe_after "WHERE" p r) (fun w r =>
          match is_mark "}" r with Some r => Some (XExists o ps w, r) | None => None end))
    | None => None
    end.

End Parts.

(** ** Expressions *)

(** Operators between operands, with their levels: 0 OR, 1 XOR, 2 AND, (3 NOT,)
    4 comparisons, 5 sums, 6 products, 7 powers, (8 signs,) 9 operators for
    strings and lists (and IS NULL); 10: operands. *)
Definition mark_operator (m : string) : option (nat * binop) :=
  if String.eqb m "=" then Some (4, OEq) else if String.eqb m "<>" then Some (4, ONe)
  else if String.eqb m "<" then Some (4, OLt) else if String.eqb m ">" then Some (4, OGt)
  else if String.eqb m "<=" then Some (4, OLe) else if String.eqb m ">=" then Some (4, OGe)
  else if String.eqb m "+" then Some (5, OAdd) else if String.eqb m "-" then Some (5, OSub)
  else if String.eqb m "*" then Some (6, OMul) else if String.eqb m "/" then Some (6, ODiv)
  else if String.eqb m "%" then Some (6, OMod) else if String.eqb m "^" then Some (7, OPow)
  else if String.eqb m "=~" then Some (9, OLike) else None.

Definition infix_of (ts : list token) : option (nat * binop * list token) :=
  match ts with
  | Mark m :: r => match mark_operator m with Some (l, o) => Some (l, o, r) | None => None end
  | Word w :: r =>
      if one_of ["OR"] w then Some (0, OOr, r) else if one_of ["XOR"] w then Some (1, OXor, r)
      else if one_of ["AND"] w then Some (2, OAnd, r)
      else if one_of ["CONTAINS"] w then Some (9, OContains, r) else if one_of ["IN"] w then Some (9, OIn, r)
      else if one_of ["STARTS"] w then match is_word "WITH" r with Some r => Some (9, OStarts, r) | None => None end
      else if one_of ["ENDS"] w then match is_word "WITH" r with Some r => Some (9, OEnds, r) | None => None end
      else None
  | _ => None
  end.

Definition null_test (ts : list token) : option (bool * list token) :=
  match is_word "IS" ts with
  | Some r =>
      match is_word "NULL" r with
      | Some r => Some (true, r)
      | None => match is_word "NOT" r with
                | Some r => match is_word "NULL" r with Some r => Some (false, r) | None => None end
                | None => None
                end
      end
  | None => None
  end.

(** A name that functions and projections are called by. *)
Fixpoint path_of (x : cx) : option (list string) :=
  match x with
  | XVar n => Some [n]
  | XProp x n => option_map (fun l => l ++ [n]) (path_of x)
  | _ => None
  end.

Definition quantifier (l : list string) : option string :=
  match l with
  | [f] => if one_of ["ALL"; "ANY"; "NONE"; "SINGLE"] f then Some f else None
  | _ => None
  end.

(** A node in parentheses: whether what is opened looks like one, and what
    follows it.  [Inside d]: in its properties. *)
Inductive look := Start | Named | Colon | Inside (d : nat) | Closed | Dead.
Definition opening (t : token) : bool := match t with Mark m => opens m | _ => false end.
Definition closing (t : token) : bool := match t with Mark m => closes m | _ => false end.
Definition called (m : string) (t : token) : bool := match t with Mark v => String.eqb v m | _ => false end.
Definition naming (t : token) : bool := match t with Word _ | Name _ => true | _ => false end.

Definition step (s : look) (t : token) : look :=
  match s with
  | Start => if naming t then Named else if called ":" t then Colon else if called "{" t then Inside 0 else Dead
  | Named => if called ":" t then Colon else if called "{" t then Inside 0 else Dead
  | Colon => if naming t then Named else Dead
  | Inside d => if opening t then Inside (S d)
                else if closing t then match d with O => Closed | S d' => Inside d' end
                else Inside d
  | Closed | Dead => Dead
  end.
Definition may_end (s : look) : bool := match s with Start | Named | Closed => true | _ => false end.

Fixpoint node_ahead (s : look) (ts : list token) : option (list token) :=
  match ts with
  | [] => None
  | t :: r => if (may_end s && called ")" t)%bool then Some r else node_ahead (step s t) r
  end.

(** What follows an opening parenthesis is a pattern: a node and an arrow. *)
Definition pattern_ahead (ts : list token) : bool :=
  match node_ahead Start ts with Some r => arrow r | None => false end.

Definition word (w : string) (r : list token) : option (cx * list token) :=
  if one_of ["TRUE"] w then Some (XBool true, r) else if one_of ["FALSE"] w then Some (XBool false, r)
  else if one_of ["NULL"] w then Some (XNull, r)
  else if one_of keywords w then None else Some (XVar w, r).

(** [f]: a bound for the depth of calls. *)
Fixpoint expr_at (f n : nat) (ts : list token) {struct f} : option (cx * list token) :=
  match f with
  | O => None
  | S f =>
      match n with
      | 3 => match is_word "NOT" ts with
             | Some r => bind (expr_at f 3 r) (fun x r => Some (XNot x, r))
             | None => expr_at f 4 ts
             end
      | 4 => bind (expr_at f 5 ts) (fun x r =>
               match infix_of r with
               | Some (l, o, r') => if Nat.eqb l 4 then bind (expr_at f 5 r') (fun y r => Some (XBin o x y, r)) else Some (x, r)
               | None => Some (x, r)
               end)
      | 8 => match is_mark "-" ts with
             | Some r => bind (expr_at f 8 r) (fun x r => Some (XNeg x, r))
             | None => expr_at f 9 ts
             end
      | 9 => bind (expr_at f 10 ts) (tests f)
      | 10 => bind (atom f ts) (postfix f)
      | 0 | 1 | 2 | 5 | 6 | 7 => bind (expr_at f (S n) ts) (operators f n)
      | _ => None
      end
  end
with operators (f n : nat) (x : cx) (ts : list token) {struct f} : option (cx * list token) :=
  match f with
  | O => None
  | S f =>
      match infix_of ts with
      | Some (l, o, r) =>
          if Nat.eqb l n then bind (expr_at f (S n) r) (fun y r => operators f n (XBin o x y) r) else Some (x, ts)
      | None => Some (x, ts)
      end
  end
with tests (f : nat) (x : cx) (ts : list token) {struct f} : option (cx * list token) :=
  match f with
  | O => None
  | S f =>
      match null_test ts with
      | Some (b, r) => tests f (XIsNull b x) r
      | None =>
          match infix_of ts with
          | Some (l, o, r) =>
              if Nat.eqb l 9 then bind (expr_at f 10 r) (fun y r => tests f (XBin o x y) r) else Some (x, ts)
          | None => Some (x, ts)
          end
      end
  end
with postfix (f : nat) (x : cx) (ts : list token) {struct f} : option (cx * list token) :=
  match f with
  | O => None
  | S f =>
      match ts with
      | Mark m :: r =>
          if String.eqb m "." then bind (a_name r) (fun n r => postfix f (XProp x n) r)
          else if String.eqb m "[" then bind (subscript (expr_at f 0) x r) (postfix f)
          else if String.eqb m "(" then
            match path_of x with
            | Some l =>
                match quantifier l with
                | Some n => bind (a_filter (expr_at f 0) r) (fun a r =>
                    match is_mark ")" r with
                    | Some r => postfix f (XFilter n (fst (fst a)) (snd (fst a)) (snd a)) r
                    | None => None
                    end)
                | None => bind (arguments (expr_at f 0) r) (fun a r => postfix f (XCall l (fst a) (snd a)) r)
                end
            | None => None
            end
          else if String.eqb m "{" then
            match x with
            | XVar n => bind (items_until "}" (projection (expr_at f 0)) r) (fun l r => postfix f (XProject n l) r)
            | _ => None
            end
          else match labels_of ts with
               | ([], _) => Some (x, ts)
               | (ls, r) => Some (XLabels x ls, r)
               end
      | _ => Some (x, ts)
      end
  end
with atom (f : nat) (ts : list token) {struct f} : option (cx * list token) :=
  match f with
  | O => None
  | S f =>
      match ts with
      | Number s :: r => Some (XNum s, r)
      | Literal s :: r => Some (XStr s, r)
      | Name n :: r => Some (XVar n, r)
      | Word w :: r =>
          if one_of ["CASE"] w then a_case (expr_at f 0) r
          else match r with
               | Mark m :: r' =>
                   if String.eqb m "(" then Some (XVar w, r)
                   else if (String.eqb m "{" && one_of ["EXISTS"] w)%bool then an_exists (expr_at f 0) r'
                   else word w r
               | _ => word w r
               end
      | Mark m :: r =>
          if String.eqb m "$" then bind (a_name r) (fun n r => Some (XParam n, r))
          else if String.eqb m "*" then Some (XStar, r)
          else if String.eqb m "[" then a_list (expr_at f 0) r
          else if String.eqb m "{" then bind (entries (expr_at f 0) r) (fun l r => Some (XMap l, r))
          else if String.eqb m "(" then
            (if pattern_ahead r then bind (a_chain (expr_at f 0) ts) (fun c r => Some (XPattern (fst c) (snd c), r))
             else bind (expr_at f 0 r) (fun x r => match is_mark ")" r with Some r => Some (x, r) | None => None end))
          else None
      | [] => None
      end
  end.

(** ** Clauses *)

Section Clauses.
(** [p] reads an expression, [q] an operand. *)
Context (p q : reader cx).

Definition an_item : reader citem :=
  fun ts => bind (p ts) (fun x r => bind (maybe_after "AS" a_name r) (fun a r => Some (CItem x a, r))).

Definition a_sort : reader (cx * option bool) :=
  fun ts => bind (p ts) (fun x r =>
    match r with
    | Word w :: r' =>
        if one_of ["DESC"; "DESCENDING"] w then Some ((x, Some true), r')
        else if one_of ["ASC"; "ASCENDING"] w then Some ((x, Some false), r')
        else Some ((x, None), r)
    | _ => Some ((x, None), r)
    end).

Definition an_order : reader (list (cx * option bool)) :=
  fun ts => match is_word "ORDER" ts with
            | None => Some ([], ts)
            | Some r => match is_word "BY" r with Some r => items a_sort r | None => None end
            end.

Definition maybe_distinct (ts : list token) : bool * list token :=
  match is_word "DISTINCT" ts with Some r => (true, r) | None => (false, ts) end.

Definition a_body : reader cbody :=
  fun ts =>
    let (d, r) := maybe_distinct ts in
    bind (items an_item r) (fun l r =>
    bind (an_order r) (fun o r =>
    bind (maybe_after "SKIP" p r) (fun s r =>
    bind (maybe_after "LIMIT" p r) (fun n r => Some (CBody d l o s n, r))))).

Definition a_set : reader cset :=
  fun ts => bind (q ts) (fun x r =>
    match is_mark "=" r with
    | Some r => bind (p r) (fun y r => Some (SAssign x y, r))
    | None =>
        match is_mark "+=" r with
        | Some r => bind (p r) (fun y r => Some (SMutate x y, r))
        | None => match x with XLabels _ _ => Some (SLabels x, r) | _ => None end
        end
    end).

(** ON CREATE SET and ON MATCH SET. *)
Fixpoint actions (n : nat) (ts : list token) : option (list (bool * list cset) * list token) :=
  match is_word "ON" ts with
  | None => Some ([], ts)
  | Some r =>
      match n with
      | O => None
      | S n' =>
          bind (match is_word "CREATE" r with
                | Some r => Some (true, r)
                | None => match is_word "MATCH" r with Some r => Some (false, r) | None => None end
                end) (fun c r =>
          match is_word "SET" r with
          | Some r => bind (items a_set r) (fun l r => bind (actions n' r) (fun more r => Some ((c, l) :: more, r)))
          | None => None
          end)
      end
  end.

Fixpoint dotted (ts : list token) : list string * list token :=
  match ts with
  | Mark m :: t :: r =>
      if String.eqb m "." then
        match t with
        | Word v | Name v => let (l, r') := dotted r in (v :: l, r')
        | _ => ([], ts)
        end
      else ([], ts)
  | _ => ([], ts)
  end.

(** Behind CALL. *)
Definition a_call : reader cclause :=
  fun ts => bind (a_name ts) (fun n r =>
    let (l, r) := dotted r in
    bind (match is_mark "(" r with
          | Some r => bind (items_until ")" p r) (fun a r => Some (Some a, r))
          | None => Some (None, r)
          end) (fun a r =>
    bind (maybe_after "YIELD" (items an_item) r) (fun y r =>
    bind (maybe_after "WHERE" p r) (fun w r => Some (CCall (n :: l) a y w, r))))).

Definition a_match (optional : bool) : reader cclause :=
  fun ts => bind (items (a_part p) ts) (fun ps r => bind (maybe_after "WHERE" p r) (fun w r => Some (CMatch optional ps w, r))).

(** A clause whose first word has been read; not CALL. *)
Definition clause_of (w : string) : reader cclause :=
  fun r =>
    if one_of ["MATCH"] w then a_match false r
    else if one_of ["OPTIONAL"] w then match is_word "MATCH" r with Some r => a_match true r | None => None end
    else if one_of ["CREATE"] w then bind (items (a_part p) r) (fun ps r => Some (CCreate ps, r))
    else if one_of ["MERGE"] w then
      bind (items (a_part p) r) (fun ps r => bind (actions (length r) r) (fun l r => Some (CMerge ps l, r)))
    else if one_of ["DETACH"] w then
      match is_word "DELETE" r with Some r => bind (items p r) (fun l r => Some (CDelete true l, r)) | None => None end
    else if one_of ["DELETE"] w then bind (items p r) (fun l r => Some (CDelete false l, r))
    else if one_of ["SET"] w then bind (items a_set r) (fun l r => Some (CSet l, r))
    else if one_of ["REMOVE"] w then bind (items q r) (fun l r => Some (CRemove l, r))
    else if one_of ["UNWIND"] w then
      bind (p r) (fun x r => match is_word "AS" r with
                             | Some r => bind (a_name r) (fun v r => Some (CUnwind x v, r))
                             | None => None
                             end)
    else if one_of ["WITH"] w then
      bind (a_body r) (fun b r => bind (maybe_after "WHERE" p r) (fun c r => Some (CWith b c, r)))
    else if one_of ["RETURN"] w then bind (a_body r) (fun b r => Some (CReturn b, r))
    else None.

End Clauses.

(** The end of a query: nothing, UNION or a closing brace. *)
Definition query_ends (ts : list token) : bool :=
  match ts with
  | [] => true
  | Word w :: _ => one_of ["UNION"] w
  | Mark m :: _ => String.eqb m "}"
  | _ => false
  end.

Fixpoint clauses (f : nat) (ts : list token) {struct f} : option (list cclause * list token) :=
  match f with
  | O => None
  | S f =>
      if query_ends ts then Some ([], ts)
      else bind (a_clause f ts) (fun c r => bind (clauses f r) (fun l r => Some (c :: l, r)))
  end
with a_clause (f : nat) (ts : list token) {struct f} : option (cclause * list token) :=
  match f with
  | O => None
  | S f =>
      match ts with
      | Word w :: r =>
          if one_of ["CALL"] w then
            match is_mark "{" r with
            | Some r => bind (clauses f r) (fun l r => bind (unions f r) (fun us r =>
                match is_mark "}" r with Some r => Some (CSub l us, r) | None => None end))
            | None => a_call (expr_at f 0) r
            end
          else clause_of (expr_at f 0) (expr_at f 10) w r
      | _ => None
      end
  end
with unions (f : nat) (ts : list token) {struct f} : option (list (bool * list cclause) * list token) :=
  match f with
  | O => None
  | S f =>
      match is_word "UNION" ts with
      | None => Some ([], ts)
      | Some r =>
          let (a, r) := match is_word "ALL" r with Some r => (true, r) | None => (false, r) end in
          bind (clauses f r) (fun l r => bind (unions f r) (fun us r => Some ((a, l) :: us, r)))
      end
  end.

Definition a_query (f : nat) : reader cquery :=
  fun ts => bind (clauses f ts) (fun l r => bind (unions f r) (fun us r => Some (CQuery l us, r))).

(** A text is a statement: its tokens, all of them, are read as one, with
    every bound that is large enough. *)
Definition is_statement (E : env) (s : string) (q : cquery) : Prop :=
  exists ts n, tokens E s = Some ts /\ forall f, n <= f -> a_query f ts = Some (q, []).
