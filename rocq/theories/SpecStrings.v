(** Specification: tokens, syntax trees and elements of the library without the
    values of their string literals. *)

From Coq Require Import Ascii String List Bool.
From Verif Require Import VTree Ast SpecTokens SpecGrammar.
Import ListNotations.
Open Scope string_scope.

(** A token without the value, if it is a string literal. *)
Definition erase (t : token) : token := match t with Literal _ => Literal "" | _ => t end.

(** ** Syntax trees of Cypher (SpecGrammar.v) *)

Fixpoint hollow (x : cx) : cx :=
  match x with
  | XStr _ => XStr ""
  | XVar _ | XParam _ | XStar | XBool _ | XNull | XNum _ => x
  | XList l => XList (map hollow l)
  | XMap l => XMap (map (fun p => (fst p, hollow (snd p))) l)
  | XProp x n => XProp (hollow x) n
  | XIndex x i => XIndex (hollow x) (hollow i)
  | XSlice x lo hi => XSlice (hollow x) (option_map hollow lo) (option_map hollow hi)
  | XLabels x ls => XLabels (hollow x) ls
  | XNeg x => XNeg (hollow x)
  | XNot x => XNot (hollow x)
  | XIsNull b x => XIsNull b (hollow x)
  | XBin o x y => XBin o (hollow x) (hollow y)
  | XCall f d l => XCall f d (map hollow l)
  | XFilter f v l w => XFilter f v (hollow l) (option_map hollow w)
  | XCase s bs d => XCase (option_map hollow s) (map (fun b => (hollow (fst b), hollow (snd b))) bs) (option_map hollow d)
  | XListComp v l w d => XListComp v (hollow l) (option_map hollow w) (option_map hollow d)
  | XPatComp p n h w d =>
      XPatComp p (hollow_node n) (map (fun s => (hollow_rel (fst s), hollow_node (snd s))) h) (option_map hollow w) (option_map hollow d)
  | XProject n ps => XProject n (map hollow_proj ps)
  | XPattern n h => XPattern (hollow_node n) (map (fun s => (hollow_rel (fst s), hollow_node (snd s))) h)
  | XExists o ps w => XExists o (map hollow_part ps) (option_map hollow w)
  end
with hollow_proj (x : cproj) : cproj := match x with PEntry n x => PEntry n (hollow x) | _ => x end
with hollow_node (x : cnode) : cnode :=
  match x with CNode n ls ps => CNode n ls (option_map (map (fun p => (fst p, hollow (snd p)))) ps) end
with hollow_rel (x : crel) : crel :=
  match x with CRel h n ts len ps => CRel h n ts len (option_map (map (fun p => (fst p, hollow (snd p)))) ps) end
with hollow_part (x : cpart) : cpart :=
  match x with CPart p f n h => CPart p f (hollow_node n) (map (fun s => (hollow_rel (fst s), hollow_node (snd s))) h) end.

Definition hollow_item (i : citem) : citem := CItem (hollow (ci_value i)) (ci_alias i).
Definition hollow_body (b : cbody) : cbody :=
  CBody (cb_distinct b) (map hollow_item (cb_items b)) (map (fun o => (hollow (fst o), snd o)) (cb_order b))
        (option_map hollow (cb_skip b)) (option_map hollow (cb_limit b)).
Definition hollow_set (s : cset) : cset :=
  match s with SAssign x y => SAssign (hollow x) (hollow y) | SMutate x y => SMutate (hollow x) (hollow y) | SLabels x => SLabels (hollow x) end.

Fixpoint hollow_clause (c : cclause) : cclause :=
  match c with
  | CMatch o ps w => CMatch o (map hollow_part ps) (option_map hollow w)
  | CCreate ps => CCreate (map hollow_part ps)
  | CMerge ps on => CMerge (map hollow_part ps) (map (fun a => (fst a, map hollow_set (snd a))) on)
  | CDelete d xs => CDelete d (map hollow xs)
  | CSet l => CSet (map hollow_set l)
  | CRemove l => CRemove (map hollow l)
  | CUnwind x v => CUnwind (hollow x) v
  | CWith b w => CWith (hollow_body b) (option_map hollow w)
  | CReturn b => CReturn (hollow_body b)
  | CCall n a y w => CCall n (option_map (map hollow) a) (option_map (map hollow_item) y) (option_map hollow w)
  | CSub l us => CSub (map hollow_clause l) (map (fun u => (fst u, map hollow_clause (snd u))) us)
  end.
Definition hollow_tree (c : cquery) : cquery :=
  CQuery (map hollow_clause (cq_first c)) (map (fun u => (fst u, map hollow_clause (snd u))) (cq_others c)).

(** ** Elements of the library (Ast.v) *)

Fixpoint hollowed (e : expr) : expr :=
  match e with
  | EStr k _ => EStr k ""
  | ESym _ _ | EParam _ _ | EAsterisk _ | EBool _ _ | ENull _ | ENum _ _ | ERaw _ _ | ELookup _ _ | ELabels _ _ => e
  | EListLit k l => EListLit k (map hollowed l)
  | EProp k a b => EProp k (hollowed a) (hollowed b)
  | EOperation k a o b => EOperation k (hollowed a) o (hollowed b)
  | EComparison k a o b => EComparison k (option_map hollowed a) o (option_map hollowed b)
  | ENested k a => ENested k (hollowed a)
  | EConst k a => EConst k (hollowed a)
  | ECompound k o l => ECompound k o (map hollowed l)
  | EBoolFun a => EBoolFun (hollowed a)
  | EFun k n ka l => EFun k n ka (map hollowed l)
  | EArgs k l => EArgs k (map hollowed l)
  | EDistinct k a => EDistinct k (hollowed a)
  | EAlias k dk a x => EAlias k dk (hollowed a) x
  | EEntry k n a => EEntry k n (hollowed a)
  | EMap k l => EMap k (map hollowed l)
  | EProps k a => EProps k (hollowed a)
  | EMapProj k a b => EMapProj k (hollowed a) (hollowed b)
  | EExprs k l => EExprs k (map hollowed l)
  | EListExpr k a => EListExpr k (hollowed a)
  | EListOp k a kd b d c => EListOp k (hollowed a) kd (option_map hollowed b) d (option_map hollowed c)
  | EListPred k a b c => EListPred k (hollowed a) (hollowed b) (hollowed c)
  | EListComp k a b c d => EListComp k (hollowed a) (hollowed b) (option_map hollowed c) (option_map hollowed d)
  | EPatComp k a b c => EPatComp k (hollowed a) (option_map hollowed b) (hollowed c)
  | EExcluded k a => EExcluded k (hollowed a)
  | EHasLabel k a ls => EHasLabel k (hollowed a) ls
  | EExists k km o a b => EExists k km o (hollowed a) (option_map hollowed b)
  | ERelCond k a => ERelCond k (hollowed a)
  | ENamedPath k a b => ENamedPath k (hollowed a) (hollowed b)
  | ENode k n ls a => ENode k n ls (option_map hollowed a)
  | EDetails k d n ts len a => EDetails k d (option_map hollowed n) ts len (option_map hollowed a)
  | ERel k a b c => ERel k (hollowed a) (hollowed b) (hollowed c)
  | EChain k l a => EChain k (map (fun p => (hollowed (fst p), hollowed (snd p))) l) (option_map hollowed a)
  | ECase k g s bs d =>
      ECase k g (option_map hollowed s) (map (fun b => (fst (fst b), hollowed (snd (fst b)), hollowed (snd b))) bs)
            (option_map (fun x => (fst x, hollowed (snd x))) d)
  | EPattern k l => EPattern k (map hollowed l)
  | EWhere k a => EWhere k (hollowed a)
  | EOrder k l => EOrder k (map hollowed l)
  | ESort k a d => ESort k (hollowed a) d
  | ESkip k a => ESkip k (hollowed a)
  | ELimit k a => ELimit k (hollowed a)
  | EYield k l => EYield k (map hollowed l)
  end.

Definition hollowed_body (b : body) : body :=
  Body (hollowed (b_items b)) (option_map hollowed (b_order b)) (option_map hollowed (b_skip b)) (option_map hollowed (b_limit b)).

Fixpoint hollowed_query (q : query) : query :=
  match q with
  | QMatch k o p w => QMatch k o (hollowed p) (option_map hollowed w)
  | QCreate k p => QCreate k (hollowed p)
  | QMerge k p evs => QMerge k (hollowed p) (map hollowed_query evs)
  | QBlank k => QBlank k
  | QAction k c s => QAction k c (hollowed_query s)
  | QDelete k d e => QDelete k d (hollowed e)
  | QSet k e => QSet k (hollowed e)
  | QRemove k e => QRemove k (hollowed e)
  | QUnwind k e v => QUnwind k (hollowed e) v
  | QWith k d b w => QWith k d (hollowed_body b) (option_map hollowed w)
  | QReturn k d b => QReturn k d (hollowed_body b)
  | QCall k kn sp n a y w => QCall k kn sp n (option_map hollowed a) (option_map hollowed y) (option_map hollowed w)
  | QSubquery k q => QSubquery k (hollowed_query q)
  | QSingle cs r => QSingle (map hollowed_query cs) (option_map hollowed_query r)
  | QMulti ps r => QMulti (map (fun p => (fst (fst p), map hollowed_query (snd (fst p)), hollowed_query (snd p))) ps) (hollowed_query r)
  | QUnion k q qs => QUnion k (hollowed_query q) (map (fun u => (fst u, hollowed_query (snd u))) qs)
  end.
