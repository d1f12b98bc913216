(** Specification: the Cypher text of a statement.

    A pretty printer for the elements of Ast.v, one equation per construct, as
    documents (SpecDoc.v).  Texts of names, literals, labels, types and lengths
    are those of Escape.v and Num.v, characterised in PropertiesText.v. *)

From Coq Require Import Ascii String List ZArith Bool.
From Verif Require Import GoStr Escape Num VTree Ast SpecDoc.
Import ListNotations.
Open Scope string_scope.

(** Operators between their operands. *)
Definition op_word (o : op) : string :=
  match o with
  | Addition => " + " | Subtraction => " - " | Multiplication => " * " | Division => " / "
  | ModuloDivision => " % " | Exponentiation => "^" | Equality => " = " | Inequality => " <> "
  | LessThan => " < " | GreaterThan => " > " | LessThanOrEqualTo => " <= " | GreaterThanOrEqualTo => " >= "
  | StartsWith => " STARTS WITH " | EndsWith => " ENDS WITH " | Contains => " CONTAINS "
  | And => " AND " | Or => " OR " | Xor => " XOR " | Concat => " + " | Matches => " =~ " | InList => " IN "
  | Assignment => " = " | Pipe => " | " | IsNull => " IS NULL" | IsNotNull => " IS NOT NULL" | Not => "NOT "
  | SetProp => " = " | GetProp => " . " | Mutate => " += " | SetLabel => "" | RemoveLabel => ""
  end.

(** Operations in parentheses: all but assignments, label changes, powers and pipes. *)
Definition in_parens (o : op) : bool :=
  match o with
  | SetProp | GetProp | Mutate | SetLabel | RemoveLabel | Exponentiation | Pipe => false
  | _ => true
  end.

Definition maybe (o : option doc) : list doc := match o with Some d => [d] | None => [] end.

Definition print_op (E : env) (o : op) : doc := Shared (op_key E o) (Txt (op_word o)).
Definition print_label (l : key * string) : doc := Shared (fst l) (Txt (label_text (snd l))).

(** Conditions that write nothing: compound conditions without parts. *)
Fixpoint silent (e : expr) : bool :=
  match e with
  | ECompound _ _ [] => true
  | ECompound _ _ [c] => silent c
  | EBoolFun e => silent e
  | _ => false
  end.

(** A comma-separated list, without the elements that write nothing. *)
Definition listing (f : expr -> doc) (es : list expr) : doc :=
  Commas (flat_map (fun e => if silent e then [] else [f e]) es).

(** The parts of a list literal are separated by commas. *)
Definition literals (ds : list doc) : doc :=
  match ds with
  | [] => Txt ""
  | d :: ds' => Cat (d :: flat_map (fun x => [Txt ", "; x]) ds')
  end.

Fixpoint print (E : env) (e : expr) : doc :=
  match e with
  | ESym k n => Shared k (Txt (resolve E n))
  | EParam k n => Shared k (Txt ("$" ++ n))
  | EAsterisk k => Shared k (Txt "*")
  | EBool k b => Shared k (Txt (if b then "true" else "false"))
  | ENull k => Shared k (Txt "NULL")
  | ENum k n => Shared k (Txt (number_text n))
  | EStr k s => Shared k (Txt (string_literal s))
  | ERaw k s => Shared k (Txt s)
  | EListLit k es => Shared k (Cat [Txt "["; literals (map (print E) es); Txt "]"])
  | ELookup k n => Shared k (Txt (lookup_text E n))
  | EProp k c n => Shared k (Cat [print E c; print E n])
  | EOperation k l o r =>
      Shared k (if in_parens o
                then Cat [Txt "("; print E l; print_op E o; print E r; Txt ")"]
                else Cat [print E l; print_op E o; print E r])
  | EComparison k l o r =>
      Shared k (Cat (maybe (option_map (print E) l) ++ [print_op E o] ++ maybe (option_map (print E) r)))
  | ENested k e => Shared k (Cat [Txt "("; print E e; Txt ")"])
  | EConst k e => Shared k (print E e)
  | ECompound k o cs =>
      match cs with
      | [] => Txt ""
      | [c] => print E c
      | c :: rest =>
          Shared k (Cat [Txt "("; print E c;
                         Cat (flat_map (fun d => [print_op E (match d with ECompound _ o' _ => o' | _ => o end);
                                                  print E d]) rest);
                         Txt ")"])
      end
  | EBoolFun e => print E e
  | EFun k n ka es => Shared k (Cat [Txt n; Txt "("; Shared ka (listing (print E) es); Txt ")"])
  | EArgs k es => Shared k (Cat [Txt "("; listing (print E) es; Txt ")"])
  | EDistinct k e => Shared k (Cat [Shared "" (Txt "DISTINCT "); print E e])
  | EAlias k dk e a => Shared k (Aliased dk (escape_if_necessary E a) (print E e))
  | EEntry k n e => Shared k (Cat [Txt (escape_if_necessary E n); Txt ": "; print E e])
  | EMap k es => Shared k (Cat [Txt "{"; listing (print E) es; Txt "}"])
  | EProps k m => Shared k (Cat [Txt " "; print E m])
  | EMapProj k n m => Shared k (Cat [print E n; print E m])
  | EExprs k es => Shared k (listing (print E) es)
  | EListExpr k c => Shared k (Cat [Txt "["; print E c; Txt "]"])
  | EListOp k t kd s dots x =>
      Shared k (Cat [print E t;
                     Shared kd (Cat ([Txt "["] ++ maybe (option_map (print E) s)
                                     ++ (if dots then [Shared (e_dotkey E) (Txt "..")] else [])
                                     ++ maybe (option_map (print E) x) ++ [Txt "]"]))])
  | EListPred k v l w => Shared k (Cat [print E v; print_op E InList; print E l; print E w])
  | EListComp k v l w d =>
      Shared k (Cat ([Txt "["; print E v; print_op E InList; print E l] ++ maybe (option_map (print E) w)
                     ++ match d with Some d => [print_op E Pipe; print E d] | None => [] end ++ [Txt "]"]))
  | EPatComp k p w d =>
      Shared k (Cat ([Txt "["; print E p] ++ maybe (option_map (print E) w)
                     ++ [print_op E Pipe; print E d; Txt "]"]))
  | EExcluded k p => Shared k (Cat [print_op E Not; print E p])
  | EHasLabel k n ls => Shared k (Cat (print E n :: map print_label ls))
  | EExists k km o p w =>
      Shared k (Cat [Txt "EXISTS {";
                     Shared km (Cat ([Txt (if o then "OPTIONAL MATCH " else "MATCH "); print E p]
                                     ++ maybe (option_map (print E) w) ++ [Txt " "]));
                     Txt "}"])
  | ERelCond k p => Shared k (print E p)
  | ENamedPath k n p => Shared k (Cat [print E n; print_op E Assignment; print E p])
  | ELabels k ls => Shared k (Cat (map print_label ls))
  | ENode k n ls ps =>
      let parts := (match n with Some (kn, x) => [Shared kn (Txt (resolve E x))] | None => [] end
                    ++ map print_label ls ++ maybe (option_map (print E) ps))%list in
      match n with
      | Some (_, x) => Shared k (Once k x (Cat parts))
      | None => Shared k (Cat [Txt "("; Cat parts; Txt ")"])
      end
  | EDetails k d n ts len ps =>
      let parts := (maybe (option_map (print E) n)
                    ++ match ts with Some (kt, v) => [Shared kt (Txt (rel_types_text v))] | None => [] end
                    ++ match len with Some (kl, u, lo, hi) => [Shared kl (Txt (rel_length_text u lo hi))] | None => [] end
                    ++ maybe (option_map (print E) ps))%list in
      let inner := match parts with [] => Txt "" | _ => Cat [Txt "["; Cat parts; Txt "]"] end in
      Shared k (match d with
                | LTR => Cat [Txt "-"; inner; Txt "->"]
                | RTL => Cat [Txt "<-"; inner; Txt "-"]
                | UNI => Cat [Txt "-"; inner; Txt "-"]
                | NoDirection => inner
                end)
  | ERel k l d r => Shared k (Cat [print E l; print E d; print E r])
  | EChain k rels last =>
      Shared k (Cat (flat_map (fun p => [print E (fst p); print E (snd p)]) rels ++ maybe (option_map (print E) last)))
  | ECase k g s bs d =>
      Shared k (Cat ([Txt (if g then "CASE" else "CASE ")] ++ maybe (option_map (print E) s)
                     ++ flat_map (fun b => [Shared (fst (fst b)) (Cat [Txt " WHEN "; print E (snd (fst b)); Txt " THEN "]);
                                            print E (snd b)]) bs
                     ++ match d with Some x => [Shared (fst x) (Cat [Txt " ELSE "; print E (snd x)])] | None => [] end
                     ++ [Txt " END"]))
  | EPattern k ps => Shared k (listing (print E) ps)
  | EWhere k c => Shared k (Cat [Txt " WHERE "; print E c])
  | EOrder k es => Shared k (Cat [Txt " ORDER BY "; listing (print E) es])
  | ESort k e d =>
      Shared k (Cat (print E e :: match d with
                                  | Some desc => [Shared "" (Txt (if desc then " DESC" else " ASC"))]
                                  | None => []
                                  end))
  | ESkip k e => Shared k (Cat [Txt " SKIP "; print E e])
  | ELimit k e => Shared k (Cat [Txt " LIMIT "; print E e])
  | EYield k es => Shared k (Cat [Txt " YIELD "; listing (print E) es])
  end.

(** [RETURN] and [WITH] bodies. *)
Definition print_body (E : env) (distinct : bool) (b : body) : doc :=
  Cat ((if distinct then [Shared "DISTINCT_INSTANCE" (Txt "DISTINCT ")] else [])
       ++ [print E (b_items b)] ++ maybe (option_map (print E) (b_order b))
       ++ maybe (option_map (print E) (b_skip b)) ++ maybe (option_map (print E) (b_limit b))).

Fixpoint print_query (E : env) (q : query) : doc :=
  match q with
  | QMatch k o p w =>
      Shared k (Cat ([Txt (if o then "OPTIONAL MATCH " else "MATCH "); print E p]
                     ++ maybe (option_map (print E) w) ++ [Txt " "]))
  | QCreate k p => Shared k (Cat [Txt "CREATE "; print E p; Txt " "])
  | QMerge k p evs =>
      Shared k (Cat ([Txt "MERGE "; print E p] ++ map (print_query E) evs
                     ++ match evs with [] => [Txt " "] | _ => [] end))
  | QBlank k => Shared k (Txt " ")
  | QAction k c s => Shared k (Cat [Txt (if c then "ON CREATE " else "ON MATCH "); print_query E s])
  | QDelete k d e => Shared k (Cat [Txt (if d then "DETACH DELETE " else "DELETE "); print E e; Txt " "])
  | QSet k e => Shared k (Cat [Txt "SET "; print E e; Txt " "])
  | QRemove k e => Shared k (Cat [Txt "REMOVE "; print E e; Txt " "])
  | QUnwind k e v => Shared k (Cat [Txt "UNWIND "; print E e; Txt " AS "; Txt v; Txt " "])
  | QWith k d b w =>
      Shared k (Cat ([Txt "WITH "; print_body E d b] ++ maybe (option_map (print E) w) ++ [Txt " "]))
  | QReturn k d b => Shared k (Cat [Txt "RETURN "; print_body E d b])
  | QCall k kn sp n a y w =>
      Shared k (Cat ([Txt "CALL ";
                      Shared kn (Cat (match sp with Some (ks, x) => [Shared ks (Txt x)] | None => [] end ++ [Txt n]))]
                     ++ maybe (option_map (print E) a) ++ maybe (option_map (print E) y)
                     ++ maybe (option_map (print E) w) ++ [Txt " "]))
  | QSubquery k q => Shared k (Cat [Txt "CALL {"; print_query E q; Txt "} "])
  | QSingle cs r => Cat (map (print_query E) cs ++ maybe (option_map (print_query E) r))
  | QMulti ps r =>
      Cat (map (fun p : key * list query * query => Shared (fst (fst p)) (Cat (map (print_query E) (snd (fst p)) ++ [print_query E (snd p)]))) ps
           ++ [print_query E r])
  | QUnion k q qs =>
      Shared k (Cat (print_query E q
                     :: map (fun p : key * bool * query => Shared (fst (fst p))
                                        (Cat [Txt (if snd (fst p) then " UNION ALL " else " UNION ");
                                              print_query E (snd p)])) qs))
  end.

(** The text of a statement: the document, without white space at its ends. *)
Definition statement_text (E : env) (q : query) : string := trim_space (text (print_query E q)).
