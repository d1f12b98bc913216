(** The outline of printed statements: one case per element. *)

From Coq Require Import Ascii String List ZArith Bool Lia.
From Verif Require Import GoStr Escape Num VTree SpecLex SpecNum SpecSpace SpecTokens EscapeProofs GoStrProofs TokenProofs TokenTexts
  Ast SpecDoc SpecPrint SpecShape PrintProofs TokenDocs SpecOutline SpecClauses OutlineProofs.
Import ListNotations.
Open Scope string_scope.

Section Printed.
Context (E : env) (NS : no_space_in_names E) (K : key -> Prop) (SH : shared_parts E K) (GD : calm_text E (e_guid E)).

Notation says := (says E K).
Notation "'next'" := Datatypes.S.

Ltac one_token :=
  first [ apply shift_open; reflexivity | apply shift_close; reflexivity | apply shift_mark; reflexivity
        | apply shift_word; reflexivity | apply shift_word_inside | apply shift_mark_inside; reflexivity ].
Ltac tokens_shift :=
  lazymatch goal with
  | |- shift _ _ [] => apply shift_nil
  | |- shift ?a _ (Word "STARTS" :: Word "WITH" :: ?r) => apply (shift_app a a a [Word "STARTS"; Word "WITH"] r); [apply shift_ends_with; reflexivity|tokens_shift]
  | |- shift ?a _ (Word "ENDS" :: Word "WITH" :: ?r) => apply (shift_app a a a [Word "ENDS"; Word "WITH"] r); [apply shift_ends_with; reflexivity|tokens_shift]
  | |- shift _ _ (_ :: _) => eapply shift_cons; [one_token|tokens_shift]
  end.
Ltac literally s := lazymatch s with EmptyString => idtac | String _ ?r => literally r end.
Ltac fixed :=
  match goal with |- OutlineProofs.says _ _ (shift ?a _) (Txt ?s) =>
    literally s;
    let x := eval vm_compute in (tokens E s) in
    match x with Some ?ts => apply (says_txt E K _ s ts); [vm_compute; reflexivity|tokens_shift] end
  end.

Lemma says_more : forall a d, says (shift 0 0) d -> says (shift a a) d.
Proof.
  intros a d. apply says_weaken. intros x X. apply shift_adds. now apply shift_calm.
Qed.
Lemma says_inside : forall a d, says (shift 1 1) d -> says (shift (next a) (next a)) d.
Proof.
  intros a d. apply says_weaken. intros x X. induction a as [|a IH]; [exact X|now apply shift_up].
Qed.

Lemma say_text : forall a s, calm_text E s -> says (shift a a) (Txt s).
Proof. intros a s (ts & T & Q). apply (says_txt E K _ s ts T). now apply shift_adds. Qed.
Lemma say_text_inside : forall a s, calm_inside E s -> says (shift (next a) (next a)) (Txt s).
Proof. intros a s (ts & T & Q). apply says_inside. apply (says_txt E K _ s ts T). now apply inside_shift. Qed.

Lemma name_calm : forall n, reserved n = false -> calm_text E (escape_if_necessary E n).
Proof.
  intros n R. exists (name_tokens E n). split; [apply soft_tokens, (name_soft E NS)|]. apply shift_calm. unfold name_tokens.
  destruct (blank n); [apply shift_nil|]. destruct (is_identifier E n); [now apply shift_word|apply shift_name].
Qed.
Lemma name_inside : forall n, calm_inside E (escape_if_necessary E n).
Proof.
  intros n. exists (name_tokens E n). split; [apply soft_tokens, (name_soft E NS)|]. apply shift_inside. unfold name_tokens.
  destruct (blank n); [apply shift_nil|]. destruct (is_identifier E n); [apply shift_word_inside|apply shift_name].
Qed.
Lemma calm_is_inside : forall s, calm_text E s -> calm_inside E s.
Proof. intros s (ts & T & Q). exists ts. split; [exact T|]. intros d r. apply Q. Qed.
Lemma resolve_calm : forall n, n = "" \/ reserved n = false -> calm_text E (resolve E n).
Proof.
  intros n H. unfold resolve. destruct (String.eqb_spec n "") as [->|N]; [exact GD|]. apply name_calm. destruct H; [contradiction|assumption].
Qed.
Lemma resolve_inside : forall n, calm_inside E (resolve E n).
Proof.
  intros n. unfold resolve. destruct (String.eqb n ""); [now apply calm_is_inside|apply name_inside].
Qed.
Lemma lookup_calm : forall n, blank n = false -> calm_text E (lookup_text E n).
Proof.
  intros n B. unfold lookup_text. destruct (String.eqb_spec n "*") as [->|N].
  - exists [Mark "."; Mark "*"]. split; [vm_compute; reflexivity|]. apply shift_calm. apply shift_property_star.
  - exists (Mark "." :: name_tokens E n). split.
    + apply soft_tokens. apply dot_hard; [apply (name_soft E NS)|]. apply name_first. intros ->. discriminate B.
    + apply shift_calm. unfold name_tokens. rewrite B. destruct (is_identifier E n); apply shift_property; eauto.
Qed.
Lemma number_calm : forall n, (0 <= n_mant n)%Z -> calm_text E (number_text n).
Proof.
  intros n H. exists (number_tokens n). split; [apply soft_tokens; now apply number_soft|]. apply shift_calm. unfold number_tokens.
  destruct (n_neg n); cbn [app]; [eapply shift_cons; [now apply shift_mark|]|]; apply shift_number.
Qed.
Lemma literal_calm : forall s, calm_text E (string_literal s).
Proof.
  intros s. exists [Literal s]. split; [apply soft_tokens, hard_soft, literal_hard|]. apply shift_calm, shift_literal.
Qed.
Lemma label_calm : forall v, calm_text E (label_text v).
Proof.
  intros v. destruct (String.eqb_spec v "") as [->|N].
  - exists []. split; [reflexivity|intros d r; reflexivity].
  - exists [Mark ":"; Name v]. split; [now apply soft_tokens, label_soft|]. apply shift_calm.
    eapply shift_cons; [now apply shift_mark|apply shift_name].
Qed.
Lemma types_calm : forall vs, calm_text E (rel_types_text vs).
Proof.
  intros vs. unfold rel_types_text. destruct vs as [|v vs]; [exists []; split; [reflexivity|intros d r; reflexivity]|].
  generalize (filter (fun x => negb (String.eqb x "")) (v :: vs)). intros l.
  assert (J : exists ts, soft E (join "|" (map escape_name l)) ts /\ shift 0 0 ts).
  { induction l as [|x l (ts & IH & Q)]; [exists []; split; [apply hard_soft, hard_nil|apply shift_nil]|].
    destruct l as [|y l]; [exists [Name x]; split; [apply quoted_soft|apply shift_name]|].
    cbn [map]. rewrite join_cons2. cbn [map] in IH. exists ([Name x] ++ [Mark "|"] ++ ts)%list. split.
    - apply soft_led_soft; [apply quoted_soft|right; apply strong_app; apply bar_strong|].
      apply hard_soft_app; [apply mark_bar|exact IH].
    - eapply shift_app; [apply shift_name|]. eapply shift_app; [now apply shift_mark|exact Q]. }
  destruct J as (ts & J & Q). exists ([Mark ":"] ++ ts)%list. split.
  - apply soft_tokens. apply hard_soft_app; [apply mark_colon|exact J].
  - apply shift_calm. eapply shift_app; [now apply shift_mark|exact Q].
Qed.
Lemma length_calm : forall u lo hi, calm_text E (rel_length_text u lo hi).
Proof.
  intros u lo hi. unfold rel_length_text.
  destruct u; [exists [Mark "*"]; split; [reflexivity|apply shift_calm; now apply shift_mark]|].
  assert (I : forall z, exists ts, soft E (itoa z) ts /\ shift 0 0 ts).
  { intros z. unfold itoa. destruct (Z.ltb_spec z 0).
    - exists ([Mark "-"] ++ [Number (digits (- z))])%list. split; [apply hard_soft_app; [apply mark_minus|apply digits_soft; lia]|].
      eapply shift_app; [now apply shift_mark|apply shift_number].
    - exists [Number (digits z)]. split; [now apply digits_soft|apply shift_number]. }
  assert (O : forall o : option Z, exists ts, soft E (match o with Some m => itoa m | None => "" end) ts /\ shift 0 0 ts).
  { intros [m|]; [apply I|exists []; split; [apply hard_soft, hard_nil|apply shift_nil]]. }
  destruct (O lo) as (t1 & H1 & Q1). destruct (O hi) as (t2 & H2 & Q2).
  assert (G : calm_text E ("*" ++ (match lo with Some m => itoa m | None => "" end) ++ ".." ++ (match hi with Some m => itoa m | None => "" end))).
  { exists ([Mark "*"] ++ t1 ++ [Mark ".."] ++ t2)%list. split.
    - apply soft_tokens. apply hard_soft_app; [apply mark_star|]. apply soft_led_soft; [exact H1|right; apply strong_app, dots_strong|].
      apply hard_soft_app; [apply dots_hard|exact H2].
    - apply shift_calm. eapply shift_app; [now apply shift_mark|]. eapply shift_app; [exact Q1|]. eapply shift_app; [now apply shift_mark|exact Q2]. }
  destruct lo, hi; try exact G. exists []. split; [reflexivity|intros d r; reflexivity].
Qed.

Lemma say_op : forall a o, o <> GetProp -> says (shift a a) (print_op E o).
Proof.
  intros a o N. unfold print_op. apply says_shared_not; [apply SH|]. destruct o; try contradiction; cbn [op_word]; fixed.
Qed.
Lemma say_op_inside : forall a o, says (shift (next a) (next a)) (print_op E o).
Proof.
  intros a o. unfold print_op. apply says_shared_not; [apply SH|]. destruct o; cbn [op_word]; fixed.
Qed.
Lemma say_label : forall a l, says (shift a a) (print_label l).
Proof. intros a l. unfold print_label. apply says_shared. apply say_text, label_calm. Qed.

Lemma say_list : forall a ds, Forall (says (shift a a)) ds -> says (shift a a) (Cat ds).
Proof.
  intros a ds H. induction H as [|d ds Hd _ IH]; [apply says_nil, shift_nil|].
  eapply says_cons; [exact Hd|exact IH|]. intros x y. apply shift_app.
Qed.
Lemma say_labels : forall a ls, says (shift a a) (Cat (map print_label ls)).
Proof. intros a ls. apply say_list. induction ls; constructor; [apply say_label|assumption]. Qed.
Lemma say_maybe : forall a o, Forall (fun e => says (shift a a) (print E e)) (opt_list o) -> says (shift a a) (Cat (maybe (option_map (print E) o))).
Proof. intros a [e|] H; apply say_list; cbn in *; [inversion H; subst|]; auto. Qed.
Lemma say_listing : forall a es, Forall (fun e => says (shift (next a) (next a)) (print E e)) es -> says (shift (next a) (next a)) (listing (print E) es).
Proof.
  intros a es H. apply says_commas_inside. induction H as [|e es He _ IH]; cbn [flat_map]; [constructor|].
  destruct (silent e); [exact IH|]. constructor; assumption.
Qed.
Lemma say_listing_top : forall es, Forall (fun e => says (shift 0 0) (print E e)) es -> says (emits (commas es)) (listing (print E) es).
Proof.
  intros es H. unfold listing, commas.
  replace (length (filter (fun e => negb (silent e)) es)) with (length (flat_map (fun e => if silent e then [] else [print E e]) es)).
  - apply says_commas_top. induction H as [|e es He _ IH]; cbn [flat_map]; [constructor|]. destruct (silent e); [exact IH|]. constructor; assumption.
  - clear H. induction es as [|e es IH]; [reflexivity|]. cbn [flat_map filter]. destruct (silent e); cbn [negb app length]; auto.
Qed.
Lemma say_literals : forall a ds, Forall (says (shift (next a) (next a))) ds -> says (shift (next a) (next a)) (literals ds).
Proof.
  intros a [|d ds] H; cbn [literals]; [fixed|]. apply say_list. inversion H as [|? ? Hd Hs]; subst. constructor; [exact Hd|].
  clear - Hs. induction Hs as [|x ds Hx _ IH]; cbn [flat_map app]; [constructor|]. constructor; [fixed|]. constructor; assumption.
Qed.

(** What holds of the parts of an element in brackets, and outside of them. *)
Definition depth (top : bool) : nat := if top then 0 else 1.
Definition placed (e : expr) : Prop :=
  shaped E K e -> forall top, calm E top e -> says (shift (depth top) (depth top)) (print E e).

Lemma kids : forall top es, Forall placed es -> Forall (shaped E K) es -> Forall (calm E top) es ->
  Forall (fun e => says (shift (depth top) (depth top)) (print E e)) es.
Proof. intros top es P S C. rewrite Forall_forall in *. intros e I. now apply P; auto. Qed.
Lemma kids_inside : forall top a es, Forall placed es -> Forall (shaped E K) es -> Forall (calm E top) es ->
  Forall (fun e => says (shift (next a) (next a)) (print E e)) es.
Proof.
  intros top a es P S C. pose proof (kids top es P S C) as H. rewrite Forall_forall in *. intros e I. specialize (H e I).
  destruct top; [now apply says_more|now apply says_inside].
Qed.

Lemma say_cons : forall a b c d l, says (shift a b) d -> says (shift b c) (Cat l) -> says (shift a c) (Cat (d :: l)).
Proof. intros a b c d l D L. eapply says_cons; [exact D|exact L|]. intros x y. apply shift_app. Qed.
Lemma say_app : forall a b c x y, says (shift a b) (Cat x) -> says (shift b c) (Cat y) -> says (shift a c) (Cat (x ++ y)).
Proof. intros a b c x y X Y. eapply says_app; [exact X|exact Y|]. intros u v. apply shift_app. Qed.

Ltac go :=
  lazymatch goal with
  | |- OutlineProofs.says _ _ _ (Cat []) => apply says_nil, shift_nil
  | |- OutlineProofs.says _ _ (shift ?a ?c) (Cat (_ :: _)) => eapply say_cons; [go|go]
  | |- OutlineProofs.says _ _ (shift ?a ?c) (Cat (_ ++ _)) => eapply say_app; [go|go]
  | |- OutlineProofs.says _ _ _ (Shared _ _) => first [eassumption | apply says_shared; go]
  | |- OutlineProofs.says _ _ _ (print_op _ _) => first [apply say_op; first [discriminate|assumption] | apply say_op_inside]
  | |- OutlineProofs.says _ _ (shift ?a _) (Txt _) =>
      first [ fixed | eassumption
            | apply say_text; first [ eassumption | apply number_calm; assumption | apply literal_calm | apply lookup_calm; assumption
                                    | apply resolve_calm; solve [auto] | apply name_calm; solve [auto] | apply types_calm | apply length_calm ]
            | apply say_text_inside; first [ eassumption | apply resolve_inside | apply name_inside ] ]
  | |- OutlineProofs.says _ _ _ (Cat (map print_label _)) => apply say_labels
  | |- OutlineProofs.says _ _ _ (listing _ _) => apply say_listing; eassumption
  | |- _ => first [eassumption | apply says_more; eassumption | apply says_inside; eassumption]
  end.

Ltac split_all :=
  repeat match goal with
  | H : Forall _ (_ :: _) |- _ => inversion H; clear H; subst
  | H : Forall _ (_ ++ _) |- _ => apply Forall_app in H; destruct H
  | H : Forall _ [] |- _ => clear H
  | H : _ /\ _ |- _ => destruct H
  end.
Ltac use_kids :=
  repeat match goal with
  | P : placed ?e, S : shaped E K ?e, C : calm E ?top ?e |- _ => pose proof (P S top C); clear P
  | P : Forall placed (opt_list ?e), S : Forall (shaped E K) (opt_list ?e), C : Forall (calm E ?top) (opt_list ?e) |- _ =>
      pose proof (kids top _ P S C); pose proof (say_maybe _ e (kids top _ P S C)); clear P
  | P : Forall placed ?e, S : Forall (shaped E K) ?e, C : Forall (calm E ?top) ?e |- _ =>
      pose proof (kids_inside top 0 _ P S C); pose proof (kids_inside top 1 _ P S C); pose proof (kids top _ P S C); clear P
  end.

Lemma say_param : forall top n, self_contained E n -> calm_at E top n -> says (shift (depth top) (depth top)) (Txt ("$" ++ n)).
Proof.
  intros top n C Q. apply contained_soft in C. destruct C as [ts C].
  assert (Q' : shift (depth top) (depth top) ts).
  { pose proof (soft_tokens _ _ _ C) as T. destruct top; cbn [calm_at depth] in *; destruct Q as (ts' & T' & Q); assert (ts = ts') by congruence; subst ts'.
    - now apply shift_adds.
    - now apply inside_shift. }
  apply (says_txt E K _ _ (Mark "$" :: ts)).
  - apply soft_tokens. apply (hard_soft_app E "$" [Mark "$"]); [apply one_hard; reflexivity|exact C].
  - eapply shift_cons; [now apply shift_mark|exact Q'].
Qed.

Ltac cases :=
  repeat match goal with
  | |- context [if ?b then _ else _] => destruct b eqn:?
  | |- context [match ?l with [] => _ | _ => _ end] => is_var l; destruct l
  | |- context [match ?l with Some _ => _ | None => _ end] => is_var l; destruct l as [?|] eqn:?
  end.

Ltac prep :=
  cbn [andb depth children own_shape own_calm opt_list open_part bracketed negb calm_at] in *;
  split_all; use_kids; cbn [print depth] in *.
Ltac finish := try apply says_shared; go.

Lemma print_says : forall e, placed e.
Proof.
  apply expr_ind'. intros e P S top C. inversion S as [e' O Sk]. subst e'. clear S. inversion C as [t' e' Q T Ck]. subst t' e'. clear C.
  destruct SH as (_ & Kn & Kd & Kdi).
  destruct e; cbn [print].
  all: try (destruct top; cbn [andb depth] in *; cbn [children own_shape own_calm opt_list open_part bracketed negb] in *; try (discriminate (T eq_refl)); clear T; split_all; use_kids; cbn [print depth] in *;
    apply says_shared; go; fail).
  - (* parameter *) apply says_shared. now apply say_param.
  - (* boolean *) destruct b; finish.
  - (* list literal *) cbn [bracketed negb] in Ck. rewrite andb_false_r in Ck. cbn [children] in *. apply says_shared.
    assert (L : forall a, says (shift (next a) (next a)) (literals (map (print E) items))).
    { intros a. apply say_literals. rewrite Forall_map. now apply (kids_inside false). }
    eapply say_cons; [fixed|eapply say_cons; [apply L|go]].
  - (* operation *) cbn [bracketed own_calm] in *. destruct (in_parens o); cbn [negb] in Ck; rewrite ?andb_false_r, ?andb_true_r in Ck.
    + destruct top; prep; finish.
    + destruct top; prep; [specialize (Q eq_refl)|]; finish.
  - (* comparison *) destruct top; prep; [specialize (Q eq_refl)|]; finish.
  - (* compound *) destruct cs as [|c [|c' rest]]; cbn [bracketed negb] in Ck; rewrite ?andb_false_r, ?andb_true_r in Ck.
    + fixed.
    + prep. assumption.
    + assert (W : forall a, Forall (fun e => says (shift (next a) (next a)) (print E e)) (c :: c' :: rest)) by (intros a; now apply (kids_inside false)).
      apply says_shared.
      assert (L : forall a, says (shift (next a) (next a)) (Cat (flat_map (fun d => [print_op E (match d with ECompound _ o' _ => o' | _ => o end); print E d]) (c' :: rest)))).
      { intros a. apply say_list. specialize (W a). inversion W as [|? ? _ W']; subst. clear - W' SH GD NS.
        induction W' as [|x l X _ IH]; cbn [flat_map app]; [constructor|].
        constructor; [apply say_op_inside|constructor; assumption]. }
      eapply say_cons; [fixed|]. eapply say_cons; [specialize (W (depth top)); inversion W; eassumption|]. eapply say_cons; [apply L|go].
  - (* condition made of a call *) destruct top; prep; assumption.
  - (* alias *) apply says_shared. destruct top; prep; apply says_aliased; auto using name_calm.
  - (* list operation *) destruct top; prep; apply says_shared; eapply say_cons; [eassumption| |eassumption|]; eapply say_cons; try go; apply says_shared; destruct dots; go.
  - (* list comprehension *) destruct def as [d|]; destruct top; prep; finish.
  - (* exists *) destruct optional; destruct top; prep; finish.
  - (* node *) cbn [bracketed negb] in Ck. rewrite andb_false_r in Ck.
    assert (B : forall a, says (shift (next a) (next a)) (Cat ((match name with Some (kn, x) => [Shared kn (Txt (resolve E x))] | None => [] end
                    ++ map print_label labels ++ maybe (option_map (print E) props))%list))).
    { intros a. prep. destruct name as [[kn x]|]; cbn [app].
      - eapply say_cons; [apply says_shared, say_text_inside, resolve_inside|]. go.
      - go. }
    destruct name as [[kn x]|]; apply says_shared.
    + apply says_once; [exact Q|apply B].
    + eapply say_cons; [fixed|eapply say_cons; [apply B|go]].
  - (* details *) cbn [bracketed negb] in Ck. rewrite andb_false_r in Ck. prep. apply says_shared.
    assert (B : says (shift (depth top) (depth top)) (let parts := (maybe (option_map (print E) name)
                    ++ match types with Some (kt, v) => [Shared kt (Txt (rel_types_text v))] | None => [] end
                    ++ match len with Some (kl, u, lo, hi) => [Shared kl (Txt (rel_length_text u lo hi))] | None => [] end
                    ++ maybe (option_map (print E) props))%list in match parts with [] => Txt "" | _ => Cat [Txt "["; Cat parts; Txt "]"] end)).
    { assert (PT : says (shift (next (depth top)) (next (depth top))) (Cat (maybe (option_map (print E) name)
                    ++ match types with Some (kt, v) => [Shared kt (Txt (rel_types_text v))] | None => [] end
                    ++ match len with Some (kl, u, lo, hi) => [Shared kl (Txt (rel_length_text u lo hi))] | None => [] end
                    ++ maybe (option_map (print E) props)))).
      { destruct types as [[kt v]|], len as [[[[kl u] lo] hi]|]; go. }
      cbv zeta. revert PT. generalize (maybe (option_map (print E) name)
                    ++ match types with Some (kt, v) => [Shared kt (Txt (rel_types_text v))] | None => [] end
                    ++ match len with Some (kl, u, lo, hi) => [Shared kl (Txt (rel_length_text u lo hi))] | None => [] end
                    ++ maybe (option_map (print E) props))%list. intros parts PT. destruct parts; [fixed|].
      eapply say_cons; [fixed|eapply say_cons; [exact PT|go]]. }
    cbv zeta in B. destruct d; go.
  - (* chain *) prep. apply says_shared.
    assert (B : says (shift (depth top) (depth top)) (Cat (flat_map (fun p => [print E (fst p); print E (snd p)]) rels))).
    { apply say_list. rewrite andb_true_r in *. 
      match goal with H : Forall (fun e => says (shift (depth top) (depth top)) (print E e)) (flat_map _ rels) |- _ => revert H end.
      clear. induction rels as [|p rels IH]; cbn [flat_map app]; intros H; [constructor|].
      inversion H as [|? ? H1 H']; subst. inversion H' as [|? ? H2 H3]; subst. auto. }
    rewrite andb_true_r in *. go.
  - (* case *) prep. rewrite andb_true_r in *. apply says_shared.
    assert (B : says (shift (depth top) (depth top)) (Cat (flat_map (fun b : key * expr * expr => [Shared (fst (fst b)) (Cat [Txt " WHEN "; print E (snd (fst b)); Txt " THEN "]); print E (snd b)]) branches))).
    { apply say_list.
      match goal with H : Forall (fun e => says (shift (depth top) (depth top)) (print E e)) (flat_map _ branches) |- _ => revert H end.
      clear - SH NS GD. induction branches as [|p bs IH]; cbn [flat_map app]; intros H; [constructor|].
      inversion H as [|? ? H1 H']; subst. inversion H' as [|? ? H2 H3]; subst. constructor; [|auto]. apply says_shared.
      destruct top; cbn [depth] in *; go. }
    destruct generic, default as [[kd x]|]; cbn [fst snd] in *; split_all; use_kids; destruct top; cbn [depth] in *; go.
  - (* sort item *) prep. rewrite andb_true_r in *. use_kids. destruct desc as [[|]|]; apply says_shared; destruct top; cbn [depth] in *; go.
Qed.
(** ** Clauses *)

Definition starts (l : list string) (ts : list token) : Prop := begun ts /\ ts <> [] /\ emits l ts.

Lemma starts_emits : forall l1 l2 x y, starts l1 x -> emits l2 y -> starts (l1 ++ l2) (x ++ y).
Proof.
  intros l1 l2 x y (B & N & X) Y. split; [|split; [|now apply emits_app]].
  - intros r _. destruct x as [|t x]; [contradiction|]. exact (B [] Logic.I).
  - now destruct x.
Qed.
Lemma starts_tells : forall l1 l2 x y, starts l1 x -> tells l2 y -> tells (l1 ++ l2) (x ++ y).
Proof.
  intros l1 l2 x y (B & N & X & SX) (BY & Y & SY). split; [|split; [|now apply (shift_app 1 1 1)]].
  - intros r _. destruct x as [|t x]; [contradiction|]. exact (B [] Logic.I).
  - intros r R. now rewrite <- app_assoc, X, Y, app_assoc.
Qed.

Lemma em_nil : says (emits []) (Cat []).
Proof. apply says_nil, emits_nil. Qed.
Lemma em_cons : forall l l1 l2 d ds, says (emits l1) d -> says (emits l2) (Cat ds) -> l = (l1 ++ l2)%list -> says (emits l) (Cat (d :: ds)).
Proof. intros l l1 l2 d ds D L ->. eapply says_cons; [exact D|exact L|]. intros x y. apply emits_app. Qed.
Lemma em_app : forall l l1 l2 d ds, says (emits l1) (Cat d) -> says (emits l2) (Cat ds) -> l = (l1 ++ l2)%list -> says (emits l) (Cat (d ++ ds)).
Proof. intros l l1 l2 d ds D L ->. eapply says_app; [exact D|exact L|]. intros x y. apply emits_app. Qed.
Lemma em_calm : forall d, says (shift 0 0) d -> says (emits []) d.
Proof. intros d. apply says_weaken. apply shift_emits. Qed.
Lemma st_cons : forall l l1 l2 d ds, says (starts l1) d -> says (emits l2) (Cat ds) -> l = (l1 ++ l2)%list -> says (tells l) (Cat (d :: ds)).
Proof.
  intros l l1 l2 d ds D L ->. eapply says_cons; [exact D|exact L|]. intros x y (B & N & X) Y. now apply emits_tells.
Qed.
Lemma te_cons : forall l l1 l2 d ds, says (tells l1) d -> says (tells l2) (Cat ds) -> l = (l1 ++ l2)%list -> says (tells l) (Cat (d :: ds)).
Proof. intros l l1 l2 d ds D L ->. eapply says_cons; [exact D|exact L|]. intros x y. apply tells_app. Qed.
Lemma te_app : forall l l1 l2 d ds, says (tells l1) (Cat d) -> says (tells l2) (Cat ds) -> l = (l1 ++ l2)%list -> says (tells l) (Cat (d ++ ds)).
Proof. intros l l1 l2 d ds D L ->. eapply says_app; [exact D|exact L|]. intros x y. apply tells_app. Qed.
Lemma te_nil : says (tells []) (Cat []).
Proof. apply says_nil, tells_nil. Qed.
Lemma te_one : forall l d, says (tells l) d -> says (tells l) (Cat [d]).
Proof. intros l d H. eapply te_cons; [exact H|apply te_nil|now rewrite app_nil_r]. Qed.

Ltac tokens_emit :=
  lazymatch goal with
  | |- emits _ [] => apply emits_nil
  | |- emits _ (Word ?w :: ?r) =>
      first [ eapply (emits_app [_] _ [Word w] r); [apply emits_word; reflexivity|tokens_emit]
            | eapply (emits_app [] _ [Word w] r); [apply shift_emits, shift_word; reflexivity|tokens_emit] ]
  end.
Ltac fixed_emit :=
  match goal with |- OutlineProofs.says _ _ (emits _) (Txt ?s) =>
    literally s;
    let x := eval vm_compute in (tokens E s) in
    match x with Some ?ts => apply (says_txt E K _ s ts); [vm_compute; reflexivity|tokens_emit] end
  end.
Ltac fixed_start :=
  match goal with |- OutlineProofs.says _ _ (starts _) (Txt ?s) =>
    literally s;
    let x := eval vm_compute in (tokens E s) in
    match x with Some ?ts => apply (says_txt E K _ s ts); [vm_compute; reflexivity|split; [intros r _; reflexivity|split; [discriminate|tokens_emit]]] end
  end.

Lemma say_expr : forall e, shaped E K e -> calm E true e -> says (shift 0 0) (print E e).
Proof. intros e S C. exact (print_says e S true C). Qed.
Lemma say_exprs : forall es, Forall (shaped E K) es -> Forall (calm E true) es -> Forall (fun e => says (shift 0 0) (print E e)) es.
Proof. intros es S C. rewrite Forall_forall in *. intros e I. now apply say_expr; auto. Qed.

Lemma say_items : forall e, shaped E K e -> calm_items E K e -> says (emits (items_outline e)) (print E e).
Proof.
  intros e S C. destruct e; try (apply em_calm; now apply say_expr); cbn [calm_items items_outline print] in *; destruct C as [N C];
    inversion S as [? _ Sk]; subst; cbn [children] in Sk; apply says_shared_not; auto; apply say_listing_top; now apply say_exprs.
Qed.
Lemma say_part : forall e, attached K e -> shaped E K e -> calm_part E e -> says (emits (part_outline e)) (print E e).
Proof.
  intros e A S C. destruct e; try (apply em_calm; now apply say_expr); cbn [attached calm_part part_outline print] in *;
    inversion S as [? _ Sk]; subst; cbn [children] in Sk; apply says_shared_not; auto.
  - inversion Sk; subst. eapply em_cons; [fixed_emit| |reflexivity]. eapply em_cons; [apply em_calm; now apply say_expr|apply em_nil|reflexivity].
  - eapply em_cons; [fixed_emit| |reflexivity]. eapply em_cons; [apply say_listing_top; now apply say_exprs|apply em_nil|now rewrite app_nil_r].
  - inversion Sk; subst. eapply em_cons; [fixed_emit| |reflexivity]. eapply em_cons; [apply em_calm; now apply say_expr|apply em_nil|reflexivity].
  - inversion Sk; subst. eapply em_cons; [fixed_emit| |reflexivity]. eapply em_cons; [apply em_calm; now apply say_expr|apply em_nil|reflexivity].
  - eapply em_cons; [fixed_emit| |reflexivity]. eapply em_cons; [apply say_listing_top; now apply say_exprs|apply em_nil|now rewrite app_nil_r].
Qed.
Lemma say_parts : forall o, shaped_behind E K o -> calm_parts E o -> says (emits (parts_outline o)) (Cat (maybe (option_map (print E) o))).
Proof.
  intros [e|] S C; [|apply em_nil]. unfold shaped_behind, calm_parts, parts_outline in *. cbn [opt_list flat_map option_map maybe] in *.
  inversion S as [|? ? [A S'] _]; subst. inversion C; subst. eapply em_cons; [now apply say_part|apply em_nil|reflexivity].
Qed.
Lemma say_body : forall d b, shaped_body E K b -> calm_body E K b -> says (emits (body_outline b)) (print_body E d b).
Proof.
  intros d b [S H] (C & C1 & C2 & C3). destruct SH as (_ & _ & _ & Kdi). apply Forall_app in H. destruct H as [H1 H]. apply Forall_app in H. destruct H as [H2 H3].
  unfold print_body, body_outline. eapply (em_app _ []); [| |reflexivity].
  - destruct d; [|apply em_nil]. eapply em_cons; [apply says_shared_not; [exact Kdi|fixed_emit]|apply em_nil|reflexivity].
  - cbn [app]. eapply em_cons; [now apply say_items| |reflexivity].
    eapply em_app; [now apply say_parts| |reflexivity]. eapply em_app; [now apply say_parts|now apply say_parts|reflexivity].
Qed.

Definition placed_q (q : query) : Prop := shaped_q E K q -> calm_q E K q -> says (tells (clause_outline q)) (print_query E q).

Lemma say_clauses : forall qs, Forall placed_q qs -> Forall (shaped_q E K) qs -> Forall (calm_q E K) qs ->
  says (tells (flat_map clause_outline qs)) (Cat (map (print_query E) qs)).
Proof.
  intros qs P S C. induction qs as [|q qs IH]; cbn [map flat_map]; [apply te_nil|].
  inversion P; inversion S; inversion C; subst. eapply te_cons; [auto|apply IH; assumption|reflexivity].
Qed.

(** In between: nothing is known about the first token. *)
Definition follows (l : list string) (ts : list token) : Prop :=
  (forall r, no_all r -> outline 0 (ts ++ r) = (l ++ outline 0 r)%list) /\ shift 1 1 ts.
Lemma mid_tells : forall l d, says (tells l) d -> says (follows l) d.
Proof. intros l d. apply says_weaken. intros x (_ & X). exact X. Qed.
Lemma sn_cons : forall l l1 l2 d ds, says (starts l1) d -> says (follows l2) (Cat ds) -> l = (l1 ++ l2)%list -> says (tells l) (Cat (d :: ds)).
Proof.
  intros l l1 l2 d ds D L ->. eapply says_cons; [exact D|exact L|]. intros x y (B & N & X & SX) (Y & SY).
  split; [|split; [|now apply (shift_app 1 1 1)]].
  - intros r _. destruct x as [|t x]; [contradiction|]. exact (B [] Logic.I).
  - intros r R. now rewrite <- app_assoc, X, Y, app_assoc.
Qed.
Lemma sm_cons : forall l l1 l2 d ds, says (emits l1) d -> says (tells l2) (Cat ds) -> l = (l1 ++ l2)%list -> says (follows l) (Cat (d :: ds)).
Proof.
  intros l l1 l2 d ds D L ->. eapply says_cons; [exact D|exact L|]. intros x y (X & SX) (_ & Y & SY).
  split; [|now apply (shift_app 1 1 1)]. intros r R. now rewrite <- app_assoc, X, Y, app_assoc.
Qed.
Lemma say_block : forall l d, says (tells l) d -> says (tells ["CALL"]) (Cat [Txt "CALL {"; d; Txt "} "]).
Proof.
  intros l d D.
  assert (A : says (fun x => x = [Word "CALL"; Mark "{"]) (Txt "CALL {")) by (eapply says_txt; [vm_compute; reflexivity|reflexivity]).
  assert (B : says (fun x => x = [Mark "}"]) (Cat [Txt "} "])).
  { eapply (says_cons E K (fun x => x = [Mark "}"]) (fun x => x = [])); [eapply says_txt; [vm_compute; reflexivity|reflexivity]|now apply says_nil|].
    intros x y -> ->. reflexivity. }
  eapply (says_cons E K _ (fun y => exists ts, tells l ts /\ y = (ts ++ [Mark "}"])%list)); [exact A|eapply says_cons; [exact D|exact B|]|].
  - intros x y X ->. eauto.
  - intros x y -> (ts & (_ & _ & T) & ->). split; [intros r _; reflexivity|].
    assert (Q : forall d r, outline (Datatypes.S d) (ts ++ Mark "}" :: r) = outline d r) by (intros k r; rewrite (T k); reflexivity).
    split.
    + intros r _. rewrite <- !app_assoc. cbn [app].
      change (outline 0 (Word "CALL" :: Mark "{" :: (ts ++ Mark "}" :: r)%list)) with ("CALL" :: outline 1 (ts ++ Mark "}" :: r)%list)%list. now rewrite Q.
    + intros k r. rewrite <- !app_assoc. cbn [app Nat.add].
      change (outline (Datatypes.S k) (Word "CALL" :: Mark "{" :: (ts ++ Mark "}" :: r)%list)) with (outline (Datatypes.S (Datatypes.S k)) (ts ++ Mark "}" :: r)%list). now rewrite Q.
Qed.
Ltac fixed_ends := eapply em_cons; [fixed_emit|apply em_nil|reflexivity].

Lemma print_query_says : forall q, placed_q q.
Proof.
  apply query_ind'; intros; intros S C; inversion S; subst; inversion C; subst; cbn [print_query clause_outline];
    try (apply says_shared_not; [assumption|]).
  - (* match *) destruct o; cbn [app]; (eapply st_cons; [fixed_start| |reflexivity]); (eapply em_cons; [now apply say_items| |reflexivity]);
      (eapply em_app; [now apply say_parts|fixed_ends|now rewrite app_nil_r]).
  - eapply st_cons; [fixed_start| |reflexivity]. eapply em_cons; [now apply say_items|fixed_ends|now rewrite app_nil_r].
  - cbn [app map flat_map]. eapply st_cons; [fixed_start| |reflexivity]. eapply em_cons; [now apply say_items|fixed_ends|reflexivity].
  - (* merge with actions *) rewrite app_nil_r. 
    assert (T : says (tells (flat_map clause_outline (QBlank kb :: evs0))) (Cat (map (print_query E) (QBlank kb :: evs0)))).
    { apply say_clauses; [assumption| |assumption]. constructor; [constructor|assumption]. }
    cbn [app]. eapply (sn_cons _ ["MERGE"]); [fixed_start| |reflexivity]. eapply sm_cons; [now apply say_items|exact T|reflexivity].
  - apply (says_txt E K _ " " []); [reflexivity|apply tells_nil].
  - destruct c; (eapply sn_cons; [fixed_start|apply mid_tells, te_one; auto|reflexivity]).
  - destruct d; (eapply st_cons; [fixed_start| |reflexivity]); (eapply em_cons; [now apply say_items|fixed_ends|now rewrite app_nil_r]).
  - eapply st_cons; [fixed_start| |reflexivity]. eapply em_cons; [now apply say_items|fixed_ends|now rewrite app_nil_r].
  - eapply st_cons; [fixed_start| |reflexivity]. eapply em_cons; [now apply say_items|fixed_ends|now rewrite app_nil_r].
  - eapply st_cons; [fixed_start| |reflexivity]. eapply em_cons; [apply em_calm; now apply say_expr| |reflexivity].
    eapply em_cons; [fixed_emit| |reflexivity]. eapply em_cons; [apply em_calm, say_text; assumption|fixed_ends|reflexivity].
  - cbn [app]. eapply st_cons; [fixed_start| |reflexivity]. eapply em_cons; [now apply say_body| |reflexivity].
    eapply em_app; [now apply say_parts|fixed_ends|now rewrite app_nil_r].
  - eapply st_cons; [fixed_start| |reflexivity]. eapply em_cons; [now apply say_body|apply em_nil|now rewrite app_nil_r].
  - (* call *) cbn [app]. eapply st_cons; [fixed_start| |reflexivity]. eapply (em_cons _ []); [| |reflexivity].
    + apply em_calm, says_shared. destruct sp as [[ks x]|]; cbn [app].
      * eapply say_cons; [apply says_shared, say_text; eauto|]. eapply say_cons; [now apply say_text|apply says_nil, shift_nil].
      * eapply say_cons; [now apply say_text|apply says_nil, shift_nil].
    + eapply em_app; [now apply say_parts| |reflexivity]. eapply em_app; [now apply say_parts| |reflexivity].
      eapply em_app; [now apply say_parts|fixed_ends|now rewrite app_nil_r].
  - (* subquery *) match goal with H : placed_q q |- _ => specialize (H ltac:(assumption) ltac:(assumption)) end. eapply say_block; eassumption.
  - (* single *) eapply te_app; [now apply say_clauses| |reflexivity]. destruct r as [r|]; [|apply te_nil]. cbn [option_map maybe].
    apply te_one. match goal with H : forall q, _ = Some q -> placed_q q |- _ => apply (H r eq_refl) end;
      match goal with H : Forall _ (opt_list (Some r)) |- _ => now inversion H end.
  - (* multi *) eapply te_app; [|apply te_one; auto|reflexivity].
    repeat match goal with H : forall k cs w, In (k, cs, w) ps -> _ |- _ => revert H end.
    match goal with H : Forall _ ps |- _ => revert H; clear - SH NS GD end. intros P S C.
    induction P as [|[[k cs] w] ps [P1 P2] _ IH]; cbn [map flat_map fst snd] in *; [apply te_nil|].
    destruct (C k cs w (or_introl eq_refl)) as (N & Cs & Cw). destruct (S k cs w (or_introl eq_refl)) as (_ & _ & Ss & _ & Sw).
    eapply te_cons; [|apply IH; intros; [eapply S|eapply C]; right; eassumption|reflexivity].
    apply says_shared_not; [exact N|]. eapply te_app; [now apply say_clauses|apply te_one; auto|reflexivity].
  - (* union *) eapply te_cons; [auto| |reflexivity].
    repeat match goal with H : forall ku a x, In (ku, a, x) qs -> _ |- _ => revert H end.
    match goal with H : Forall _ qs |- _ => revert H; clear - SH NS GD end. intros P S C.
    induction P as [|[[ku a] x] qs P1 _ IH]; cbn [map flat_map fst snd] in *; [apply te_nil|].
    destruct (C ku a x (or_introl eq_refl)) as (N & Cx). destruct (S ku a x (or_introl eq_refl)) as (_ & Sx).
    eapply te_cons; [|apply IH; intros; [eapply S|eapply C]; right; eassumption|reflexivity].
    apply says_shared_not; [exact N|]. destruct a; [eapply (te_cons _ ["UNION ALL"])|eapply (te_cons _ ["UNION"])]; try (apply te_one; auto; fail); try reflexivity.
    + eapply says_txt; [vm_compute; reflexivity|apply tells_union_all].
    + eapply says_txt; [vm_compute; reflexivity|apply tells_union].
Qed.

End Printed.
