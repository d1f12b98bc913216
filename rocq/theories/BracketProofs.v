(** Balanced texts: composition, and the texts the renderer writes. *)

From Coq Require Import Ascii String List ZArith Bool Lia.
From Verif Require Import GoStr Escape Num VTree WellKeyed SpecSpace SpecLex EscapeProofs GoStrProofs VTreeProofs SpecBrackets.
Import ListNotations.
Open Scope string_scope.

Lemma code_app : forall a b m, code m (a ++ b) =
  let (l, m1) := code m a in let (l', m2) := code m1 b in ((l ++ l')%list, m2).
Proof.
  induction a as [|x a IH]; intros b m; cbn [append code]; [destruct (code m b); reflexivity|].
  rewrite IH. destruct (code (next_mode m x) a) as [l m1]. destruct (code m1 b) as [l' m2].
  destruct m; [destruct (is_quote x)|..]; reflexivity.
Qed.

Lemma matched_app : forall a b, matched_brackets a -> matched_brackets b -> matched_brackets (a ++ b).
Proof.
  intros a b H Hb. induction H; cbn [app]; [exact Hb|now constructor|].
  rewrite <- app_assoc. cbn [app]. now constructor.
Qed.

Lemma balanced_nil : balanced "".
Proof. exists []. split; [reflexivity|constructor]. Qed.

Lemma balanced_app : forall a b, balanced a -> balanced b -> balanced (a ++ b).
Proof.
  intros a b [l [A1 A2]] [l' [B1 B2]]. exists (l ++ l')%list. rewrite code_app, A1, B1.
  split; [reflexivity|now apply matched_app].
Qed.

(** Texts around a balanced text. *)
Definition around (b a : string) : Prop := forall x, balanced x -> balanced (b ++ x ++ a).

Lemma around_balanced : forall b a, balanced b -> balanced a -> around b a.
Proof. intros b a Hb Ha x Hx. auto using balanced_app. Qed.

Lemma around_pair : forall o c, In (o, c) pairs -> around (String o "") (String c "").
Proof.
  intros o c H x [l [X1 X2]]. exists (o :: l ++ [c])%list. split.
  - assert (Q : is_quote o = false /\ is_quote c = false).
    { cbn in H. destruct H as [H|[H|[H|[]]]]; inversion H; subst; split; reflexivity. }
    destruct Q as [Qo Qc]. cbn [append code next_mode]. rewrite Qo.
    rewrite code_app, X1. cbn [code next_mode]. rewrite Qc. reflexivity.
  - apply mb_pair; [exact H|exact X2|constructor].
Qed.

Lemma around_app : forall b b' a a', balanced b -> around b' a' -> balanced a -> around (b ++ b') (a' ++ a).
Proof.
  intros b b' a a' Hb H Ha x Hx. specialize (H x Hx).
  replace ((b ++ b') ++ x ++ a' ++ a) with (b ++ (b' ++ x ++ a') ++ a) by (now rewrite !sapp_assoc).
  auto using balanced_app.
Qed.

(** ** Texts without brackets and quotes *)

Definition dull (a : ascii) : Prop := is_quote a = false /\ ~ is_bracket a.
Fixpoint dulls (s : string) : Prop := match s with EmptyString => True | String a r => dull a /\ dulls r end.

Definition dullb (a : ascii) : bool :=
  negb (is_quote a || existsb (fun p => Ascii.eqb a (fst p) || Ascii.eqb a (snd p))%bool pairs)%bool.
Lemma dullb_dull : forall a, dullb a = true -> dull a.
Proof.
  intros a H. unfold dullb in H. apply negb_true_iff, orb_false_iff in H. destruct H as [H1 H2].
  split; [exact H1|]. intros [o [c [I E]]].
  assert (existsb (fun p => Ascii.eqb a (fst p) || Ascii.eqb a (snd p))%bool pairs = true); [|congruence].
  apply existsb_exists. exists (o, c). split; [exact I|]. cbn [fst snd].
  destruct E as [<-|<-]; rewrite Ascii.eqb_refl; [reflexivity|now rewrite orb_true_r].
Qed.

Lemma dulls_balanced : forall s, dulls s -> balanced s.
Proof.
  intros s H. assert (code Code s = (list_ascii_of_string s, Code) /\ matched_brackets (list_ascii_of_string s)).
  { induction s as [|a s IH]; [split; [reflexivity|constructor]|]. destruct H as [[H1 H2] H].
    destruct (IH H) as [I1 I2]. cbn [code next_mode list_ascii_of_string]. rewrite H1, I1.
    split; [reflexivity|now constructor]. }
  eexists. exact H0.
Qed.

Fixpoint dullsb (s : string) : bool := match s with EmptyString => true | String a r => (dullb a && dullsb r)%bool end.
Lemma dullsb_dulls : forall s, dullsb s = true -> dulls s.
Proof.
  induction s as [|a s IH]; intros H; [exact I|]. cbn in H. apply andb_true_iff in H. destruct H.
  split; [now apply dullb_dull|auto].
Qed.
Lemma dullsb_balanced : forall s, dullsb s = true -> balanced s.
Proof. intros s H. now apply dulls_balanced, dullsb_dulls. Qed.

Lemma dulls_app : forall a b, dulls a -> dulls b -> dulls (a ++ b).
Proof. induction a as [|x a IH]; intros b Ha Hb; [exact Hb|]. destruct Ha. split; auto. Qed.

(** Bytes of 128 and more are dull, and of the others those with a code that
    is no bracket's or quote's. *)
Lemma dull_high : forall a, (128 <= byte a)%N -> dull a.
Proof.
  intros a H. apply dullb_dull. unfold byte in H.
  destruct a as [[] [] [] [] [] [] [] []]; vm_compute in H |- *; congruence.
Qed.

Lemma dull_space : forall e, In e space_encodings -> dulls e.
Proof.
  intros e H. apply dullsb_dulls. cut (forallb dullsb space_encodings = true).
  { rewrite forallb_forall. auto. } vm_compute. reflexivity.
Qed.
Lemma dull_spaces : forall s, all_space s -> dulls s.
Proof. induction 1; [exact I|]. apply dulls_app; [now apply dull_space|assumption]. Qed.

Lemma dull_part : forall E a, (byte a < 128)%N -> id_partb E (byte a) = true -> dull a.
Proof.
  intros E a H P. unfold id_partb, id_startb, is_letter, is_digit in P.
  apply N.ltb_lt in H. rewrite H in P. apply dullb_dull. clear H. unfold byte in P.
  destruct a as [[] [] [] [] [] [] [] []]; vm_compute in P |- *; congruence.
Qed.

(** The bytes of an encoded rune: one below 128, or several of at least 128. *)
Lemma decode_bytes : forall a r c w, decode a r = (c, w) ->
  (byte a < 128)%N /\ c = byte a /\ w = 1%nat
  \/ (128 <= byte a)%N /\ forall i b, (i < pred w)%nat -> String.get i r = Some b -> (128 <= byte b)%N.
Proof.
  intros a r c w H. unfold decode in H. destruct (N.ltb_spec (byte a) 128) as [L|L].
  - left. inversion H; subst. auto.
  - right. split; [exact L|].
    assert (R : forall lo y hi, (128 <= lo)%N -> in_range lo y hi = true -> (128 <= y)%N).
    { intros lo y hi Hlo Hr. unfold in_range in Hr. apply andb_true_iff in Hr. destruct Hr as [Hr _].
      apply N.leb_le in Hr. lia. }
    intros i b Hi Hg.
    repeat match goal with
    | H : context [match ?x with _ => _ end] |- _ =>
        match type of H with
        | (_ = (c, w)) => let Q := fresh "Q" in destruct x eqn:Q
        end
    end; inversion H; subst; cbn [pred] in Hi;
    repeat match goal with H : (_ && _)%bool = true |- _ => apply andb_true_iff in H; destruct H end;
    try lia;
    destruct i as [|[|[|i]]]; cbn [String.get] in Hg; try lia;
    repeat match goal with H : Some _ = Some _ |- _ => inversion H; subst; clear H end;
    try discriminate;
    try (eapply R; [|eassumption]; first [lia | match goal with |- context [if ?x then _ else _] => destruct x; lia end]).
Qed.

Lemma ident_dull : forall E s k, (forall i b, (i < k)%nat -> String.get i s = Some b -> (128 <= byte b)%N) ->
  forallb (id_partb E) (runes_from s k) = true -> dulls s.
Proof.
  intros E s. induction s as [|a s IH]; intros k Hk H; [exact I|]. destruct k as [|k]; cbn [runes_from] in H.
  - destruct (decode a s) as [c w] eqn:D. cbn [forallb] in H. apply andb_true_iff in H. destruct H as [Hc H].
    destruct (decode_bytes a s c w D) as [[L [-> ->]]|[L G]].
    + split; [now apply (dull_part E)|]. apply (IH 0%nat); [lia|exact H].
    + split; [now apply dull_high|]. apply (IH (pred w)); assumption.
  - split; [apply dull_high, (Hk 0%nat); [lia|reflexivity]|]. apply (IH k); [|exact H].
    intros i b Hi Hg. apply (Hk (S i)); [lia|exact Hg].
Qed.

Lemma identifier_dull : forall E n, is_identifier E n = true -> dulls n.
Proof.
  intros E n H. apply (ident_dull E n 0); [lia|]. unfold is_identifier, runes in H.
  destruct (runes_from n 0) as [|c l]; [reflexivity|]. apply andb_true_iff in H. destruct H as [H1 H2].
  cbn [forallb]. rewrite ident_first_startb in H1. rewrite (startb_partb E c H1). cbn [andb].
  rewrite forallb_forall in H2 |- *. intros x Hx. rewrite <- ident_next_partb. auto.
Qed.

(** ** The texts of leaves *)

Lemma code_quoted : forall s, code (Quoted "`") (replace_all backtick "``" s ++ "`") = ([], Code).
Proof.
  induction s as [|a s IH]; [reflexivity|]. cbn [replace_all]. unfold backtick in *.
  destruct (Ascii.eqb_spec a "`") as [->|N].
  -
    rewrite sapp_assoc. 
    match goal with |- code _ (_ ++ ?x) = _ => change (code (Quoted "`") ("``" ++ x)) with
      (let (l, m) := let (l, m) := code (Quoted "`") x in (l, m) in (l, m)) end.
    rewrite IH. reflexivity.
  - cbn [append code next_mode]. apply Ascii.eqb_neq in N. rewrite N.
    rewrite Ascii.eqb_refl, andb_false_r. rewrite IH. reflexivity.
Qed.

Lemma balanced_quoted : forall n, balanced ("`" ++ replace_all backtick "``" n ++ "`").
Proof.
  intros n. exists []. split; [|constructor]. cbn [append code]. change (next_mode Code "`") with (Quoted "`").
  rewrite code_quoted. reflexivity.
Qed.
Lemma balanced_escape_name : forall n, balanced (escape_name n).
Proof. exact balanced_quoted. Qed.

Lemma balanced_name : forall E n, balanced (escape_if_necessary E n).
Proof.
  intros E n. unfold escape_if_necessary. destruct (blank n || is_identifier E n)%bool eqn:B; [|apply balanced_quoted].
  apply dulls_balanced. apply orb_true_iff in B. destruct B as [B|B].
  - apply dull_spaces, blank_iff. now apply String.eqb_eq.
  - now apply (identifier_dull E).
Qed.

Lemma balanced_resolve : forall E n, balanced (e_guid E) -> balanced (resolve E n).
Proof. intros E n H. unfold resolve. destruct (String.eqb n ""); [exact H|apply balanced_name]. Qed.

Lemma balanced_lookup : forall E n, balanced (lookup_text E n).
Proof.
  intros E n. unfold lookup_text. apply balanced_app; [now apply dullsb_balanced|].
  destruct (String.eqb_spec n "*") as [->|]; [now apply dullsb_balanced|apply balanced_name].
Qed.

Lemma balanced_label : forall v, balanced (label_text v).
Proof.
  intros v. unfold label_text. destruct (String.eqb v ""); [apply balanced_nil|].
  apply balanced_app; [now apply dullsb_balanced|apply balanced_escape_name].
Qed.

Lemma balanced_join : forall sep l, balanced sep -> (forall x, In x l -> balanced x) -> balanced (join sep l).
Proof.
  intros sep l Hs. induction l as [|x l IH]; intros H; [apply balanced_nil|].
  destruct l as [|y l]; [apply H; now left|]. rewrite join_cons2.
  apply balanced_app; [apply H; now left|]. apply balanced_app; [exact Hs|]. apply IH. intros z Hz. apply H. now right.
Qed.

Lemma balanced_types : forall vs, balanced (rel_types_text vs).
Proof.
  intros vs. unfold rel_types_text. destruct vs as [|v vs]; [apply balanced_nil|].
  apply balanced_app; [now apply dullsb_balanced|]. apply balanced_join; [now apply dullsb_balanced|].
  intros x Hx. apply in_map_iff in Hx. destruct Hx as [y [<- _]]. apply balanced_escape_name.
Qed.

Lemma code_string : forall s, code (Quoted "'") (escape_string s ++ "'") = ([], Code).
Proof.
  induction s as [|a s IH]; [reflexivity|]. cbn [escape_string]. unfold backslash, quote, dquote.
  destruct (Ascii.eqb_spec a "\") as [->|N1]; [cbn [orb append code next_mode]; cbn; rewrite IH; reflexivity|].
  destruct (Ascii.eqb_spec a "'") as [->|N2]; [cbn [orb append code next_mode]; cbn; rewrite IH; reflexivity|].
  destruct (Ascii.eqb_spec a (ascii_of_nat 34)) as [->|N3]; [cbn [orb append code next_mode]; cbn; rewrite IH; reflexivity|].
  cbn [orb append code next_mode]. apply Ascii.eqb_neq in N1, N2. rewrite N1, N2. cbn [andb]. rewrite IH. reflexivity.
Qed.
Lemma balanced_string : forall s, balanced (string_literal s).
Proof.
  intros s. exists []. split; [|constructor]. unfold string_literal. cbn [append code].
  change (next_mode Code "'") with (Quoted "'"). rewrite code_string. reflexivity.
Qed.

Lemma dull_digit : forall d, (0 <= d < 10)%Z -> dull (digit d).
Proof.
  intros d H. apply dullb_dull.
  assert (C : (d = 0 \/ d = 1 \/ d = 2 \/ d = 3 \/ d = 4 \/ d = 5 \/ d = 6 \/ d = 7 \/ d = 8 \/ d = 9)%Z) by lia.
  repeat (destruct C as [->|C]; [reflexivity|]). subst. reflexivity.
Qed.
Lemma dull_digits_aux : forall f n acc, (0 <= n)%Z -> dulls acc -> dulls (digits_aux f n acc).
Proof.
  induction f as [|f IH]; intros n acc Hn Ha; [exact Ha|]. cbn [digits_aux].
  destruct (Z.ltb_spec n 10); [split; [apply dull_digit; lia|exact Ha]|].
  apply IH; [apply Z.div_pos; lia|]. split; [|exact Ha]. apply dull_digit, Z.mod_pos_bound. lia.
Qed.
Lemma dull_digits : forall n, (0 <= n)%Z -> dulls (digits n).
Proof. intros n H. apply dull_digits_aux; [exact H|exact I]. Qed.

Lemma dull_itoa : forall n, dulls (itoa n).
Proof.
  intros n. unfold itoa. destruct (Z.ltb_spec n 0); [|now apply dull_digits].
  apply dulls_app; [now apply dullsb_dulls|apply dull_digits; lia].
Qed.

Lemma balanced_length : forall u lo hi, balanced (rel_length_text u lo hi).
Proof.
  intros u lo hi. apply dulls_balanced. unfold rel_length_text.
  destruct u; [now apply dullsb_dulls|]. destruct lo as [lo|], hi as [hi|]; try exact I;
    repeat (apply dulls_app; try apply dull_itoa; try (now apply dullsb_dulls)); apply dull_itoa.
Qed.

Lemma dull_get : forall s i a, dulls s -> String.get i s = Some a -> dull a.
Proof. induction s as [|x s IH]; intros [|i] a H G; try discriminate; destruct H; [inversion G; now subst|eauto].
Qed.
Lemma dull_at : forall ds i, dulls ds -> dull (at_digit ds i).
Proof.
  intros ds i H. unfold at_digit. destruct (Z.ltb i 0); [now apply dullb_dull|].
  destruct (String.get (Z.to_nat i) ds) eqn:G; [now apply (dull_get ds _ a H G)|now apply dullb_dull].
Qed.
Lemma dull_ats : forall c ds i, dulls ds -> dulls (at_digits ds i c).
Proof. induction c as [|c IH]; intros ds i H; [exact I|]. split; [now apply dull_at|auto]. Qed.

Lemma strip_nonneg : forall f m e m' e', (0 <= m)%Z -> strip_aux f m e = (m', e') -> (0 <= m')%Z.
Proof.
  induction f as [|f IH]; intros m e m' e' H S; cbn in S; [now inversion S; subst|].
  destruct (Z.eqb (m mod 10) 0 && negb (Z.eqb m 0))%bool; [|now inversion S; subst].
  eapply IH; [|exact S]. apply Z.div_pos; lia.
Qed.

Lemma round_nonneg : forall n m e m' e', (0 <= m)%Z -> round_digits n m e = (m', e') -> (0 <= m')%Z.
Proof.
  intros n m e m' e' H R. unfold round_digits in R. destruct (Z.leb _ 0) eqn:L; [now inversion R; subst|].
  apply Z.leb_gt in L. eapply strip_nonneg; [|exact R].
  assert (0 <= m / 10 ^ (ndigits m - n))%Z by (apply Z.div_pos; [exact H|apply Z.pow_pos_nonneg; lia]).
  match goal with |- context [if ?x then _ else _] => destruct x; lia end.
Qed.

Lemma dull_number : forall x, (0 <= n_mant x)%Z -> dulls (number_text x).
Proof.
  intros [neg m e] H. cbn in H. unfold number_text. cbn [n_neg n_mant n_exp].
  apply dulls_app; [destruct neg; now apply dullsb_dulls|]. unfold text_g10, strip.
  destruct (strip_aux _ m e) as [m1 e1] eqn:S. apply strip_nonneg in S; [|exact H].
  destruct (round_digits 10 m1 e1) as [m2 e2] eqn:R. apply round_nonneg in R; [|exact S].
  assert (D : dulls (if Z.eqb m2 0 then "" else digits m2)).
  { destruct (Z.eqb m2 0); [exact I|now apply dull_digits]. }
  match goal with |- dulls (if ?c then _ else _) => destruct c end.
  - unfold fmt_e. apply dulls_app; [split; [now apply dull_at|exact I]|].
    apply dulls_app; [destruct (Z.ltb 0 _); [split; [now apply dullb_dull|now apply dull_ats]|exact I]|].
    apply dulls_app; [now apply dullsb_dulls|].
    apply dulls_app; [match goal with |- dulls (if ?c then _ else _) => destruct c end; now apply dullsb_dulls|].
    apply dulls_app; [match goal with |- dulls (if ?c then _ else _) => destruct c end; now apply dullsb_dulls|].
    apply dull_digits. lia.
  - unfold fmt_f. apply dulls_app.
    + destruct (Z.ltb 0 _); [now apply dull_ats|now apply dullsb_dulls].
    + destruct (Z.ltb 0 _); [split; [now apply dullb_dull|now apply dull_ats]|exact I].
Qed.

(** ** Visit trees *)

Definition kind_ok (k : kind) : Prop :=
  match k with
  | KText b a => around b a
  | KNode n => forall x, n = Some x -> balanced x
  | KAlias _ tx => balanced tx
  end.

Inductive sound : vt -> Prop :=
| sound_V : forall h kids, kind_ok (h_kind h) -> Forall sound kids -> sound (V h kids)
| sound_B : forall kids, Forall sound kids -> sound (B kids)
| sound_T : forall s, balanced s -> sound (T s).

Definition al_ok (m : list (key * alias)) : Prop := forall k a, In (k, a) m -> balanced (al_text a).

Lemma al_ok_declare : forall h m, kind_ok (h_kind h) -> al_ok m -> al_ok (declare h m).
Proof.
  intros h m H Hm. unfold declare, as_alias. destruct (h_kind h); try exact Hm.
  intros k a [E|I]; [inversion E; subst; exact H|eauto].
Qed.

Lemma sets_ok' : (forall t m, sound t -> al_ok m -> al_ok (sets t m))
  /\ (forall l m, Forall sound l -> al_ok m -> al_ok (sets_l l m)).
Proof.
  apply vt_ind'; intros.
  - inversion H0; subst. rewrite sets_V. apply al_ok_declare; auto.
  - inversion H0; subst. rewrite sets_B. auto.
  - exact H0.
  - exact H0.
  - inversion H1; subst. cbn [sets_l]. auto.
Qed.

Lemma leaks_ok : (forall t, sound t -> balanced (leaks t)) /\ (forall l, Forall sound l -> balanced (leaks_l l)).
Proof.
  apply vt_ind'; intros.
  - inversion H0; subst. rewrite leaks_V. auto.
  - inversion H0; subst. rewrite leaks_B. auto.
  - now inversion H.
  - apply balanced_nil.
  - inversion H1; subst. cbn [leaks_l]. auto using balanced_app.
Qed.

Definition sep_ok (o : option string) : Prop := balanced (opt_text o).
Lemma next_sep_ok : forall o, sep_ok (next_sep o).
Proof. intros [s|]; unfold sep_ok; cbn; [now apply dullsb_balanced|apply balanced_nil]. Qed.
Lemma sub_sep_ok : forall h, sep_ok (sub_sep h).
Proof. intros h. unfold sub_sep. destruct (h_sub h); apply balanced_nil. Qed.

Definition paren_around : around "(" ")" := around_pair "(" ")" (or_introl eq_refl).

Lemma pp_balanced :
  (forall t sep s, sound t -> al_ok (s_al s) -> sep_ok sep ->
     balanced (fst (fst (pp t sep s))) /\ sep_ok (snd (fst (pp t sep s))) /\ al_ok (s_al (snd (pp t sep s))))
  /\ (forall l sep s, Forall sound l -> al_ok (s_al s) -> sep_ok sep ->
     balanced (fst (fst (pps l sep s))) /\ sep_ok (snd (fst (pps l sep s))) /\ al_ok (s_al (snd (pps l sep s)))).
Proof.
  apply vt_ind'.
  - intros h kids IH sep s H A S. inversion H as [h' kids' K F| |]; subst. rewrite pp_V.
    cut (balanced (fst (pp_el h kids s)) /\ al_ok (s_al (snd (pp_el h kids s)))).
    { destruct (pp_el h kids s) as [x s']. cbn [fst snd]. intros [X1 X2].
      repeat split; [now apply balanced_app|apply next_sep_ok|exact X2]. }
    assert (L : balanced (leaks_l kids)) by now apply leaks_ok.
    assert (M : al_ok (sets_l kids (s_al s))) by now apply sets_ok'.
    unfold pp_el. destruct (assoc (h_key h) (s_al s)) as [a|] eqn:As.
    { cbn [fst snd s_al]. split; [|now apply al_ok_declare].
      apply balanced_app; [|exact L]. apply (A (h_key h)). now apply assoc_In. }
    destruct (h_kind h) as [b a|[n|]|dk tx] eqn:Kd; cbn [kind_ok] in K.
    + specialize (IH (sub_sep h) s F A (sub_sep_ok h)). destruct (pps kids (sub_sep h) s) as [[x o] s1].
      cbn [fst snd] in *. destruct IH as [I1 [I2 I3]]. split; [now apply K|exact I3].
    + destruct (memk (h_key h) (s_nm s)).
      * cbn [fst snd s_al]. split; [|exact M].
        replace ("(" ++ n ++ leaks_l kids ++ ")") with ("(" ++ (n ++ leaks_l kids) ++ ")") by now rewrite sapp_assoc.
        apply paren_around, balanced_app; [now apply K|exact L].
      * specialize (IH (sub_sep h) (Seen (s_al s) (h_key h :: s_nm s)) F A (sub_sep_ok h)).
        destruct (pps kids (sub_sep h) _) as [[x o] s1]. cbn [fst snd] in *. destruct IH as [I1 [I2 I3]].
        split; [now apply paren_around|exact I3].
    + specialize (IH (sub_sep h) s F A (sub_sep_ok h)). destruct (pps kids (sub_sep h) s) as [[x o] s1].
      cbn [fst snd] in *. destruct IH as [I1 [I2 I3]]. split; [now apply paren_around|exact I3].
    + assert (K' : kind_ok (h_kind h)) by (rewrite Kd; exact K).
      destruct (assoc dk (s_al s)).
      * cbn [fst snd s_al]. split; [now apply balanced_app|now apply al_ok_declare].
      * specialize (IH (sub_sep h) s F A (sub_sep_ok h)). destruct (pps kids (sub_sep h) s) as [[x o] s1].
        cbn [fst snd s_al] in *. destruct IH as [I1 [I2 I3]]. split; [|now apply al_ok_declare].
        apply balanced_app; [exact I1|]. apply balanced_app; [now apply dullsb_balanced|exact K].
  - intros kids IH sep s H A S. inversion H; subst. rewrite pp_B. auto.
  - intros x sep s H A S. inversion H; subst. cbn. auto.
  - intros sep s H A S. cbn. repeat split; [apply balanced_nil|exact S|exact A].
  - intros t l IHt IHl sep s H A S. inversion H; subst. cbn [pps].
    destruct (IHt sep s) as [I1 [I2 I3]]; auto. destruct (pp t sep s) as [[x sep1] s1]. cbn [fst snd] in *.
    destruct (IHl sep1 s1) as [J1 [J2 J3]]; auto. destruct (pps l sep1 s1) as [[y sep2] s2]. cbn [fst snd] in *.
    repeat split; auto using balanced_app.
Qed.

(** ** White space at the ends *)

Lemma matched_plain_last : forall l, matched_brackets l -> forall l' x, l = (l' ++ [x])%list -> ~ is_bracket x ->
  matched_brackets l'.
Proof.
  induction 1 as [|a l N H IH|o c l l2 P H1 IH1 H2 IH2]; intros l' x E Nx.
  - destruct l'; discriminate.
  - destruct l' as [|b l']; [constructor|]. inversion E; subst. constructor; [exact N|eauto].
  - destruct (exists_last (l := o :: l ++ c :: l2)) as [z [y Ez]]; [discriminate|].
    destruct l2 as [|d l4] eqn:E2.
    + exfalso. apply Nx. exists o, c. split; [exact P|right].
      change (o :: l ++ [c])%list with ((o :: l) ++ [c])%list in E. apply app_inj_tail in E. symmetry. tauto.
    + destruct (exists_last (l := d :: l4)) as [l3 [y' E3]]; [discriminate|].
      rewrite E3 in E. replace (o :: l ++ c :: l3 ++ [y'])%list with ((o :: l ++ c :: l3) ++ [y'])%list in E
        by (cbn; rewrite <- app_assoc; reflexivity).
      apply app_inj_tail in E. destruct E as [<- <-]. apply mb_pair; [exact P|exact H1|]. eapply IH2; eauto.
Qed.

Lemma matched_plain_end : forall q l, Forall (fun x => ~ is_bracket x) q -> matched_brackets (l ++ q) -> matched_brackets l.
Proof.
  induction q as [|x q IH] using rev_ind; intros l F H; [now rewrite app_nil_r in H|].
  apply Forall_app in F. destruct F as [F1 F2]. inversion F2; subst. apply IH; [exact F1|].
  rewrite app_assoc in H. eapply matched_plain_last; [exact H|reflexivity|assumption].
Qed.

Lemma matched_plain_start : forall p l, Forall (fun x => ~ is_bracket x) p -> matched_brackets (p ++ l) -> matched_brackets l.
Proof.
  induction p as [|x p IH]; intros l F H; [exact H|]. inversion F; subst. apply IH; [assumption|].
  cbn [app] in H. inversion H as [|a l0 N H0|o c l0 l1 P]; subst; [assumption|].
  exfalso. apply H2. exists x, c. split; [exact P|now left].
Qed.

Lemma code_dulls : forall s, dulls s -> code Code s = (list_ascii_of_string s, Code)
  /\ Forall (fun x => ~ is_bracket x) (list_ascii_of_string s).
Proof.
  induction s as [|a s IH]; intros H; [split; [reflexivity|constructor]|]. destruct H as [[H1 H2] H].
  destruct (IH H) as [I1 I2]. cbn [code next_mode list_ascii_of_string]. rewrite H1, I1. split; [reflexivity|now constructor].
Qed.

(** Dull characters never lead back into the code. *)
Definition mode_ok (m : mode) : Prop := match m with Code => True | Quoted q | Escaped q => is_quote q = true end.

Lemma next_mode_ok : forall m a, mode_ok m -> mode_ok (next_mode m a).
Proof.
  intros [|q|q] a H; cbn [next_mode].
  - destruct (is_quote a) eqn:Q; [exact Q|exact I].
  - destruct (Ascii.eqb a q); [exact I|]. destruct (_ && _)%bool; exact H.
  - exact H.
Qed.
Lemma code_mode_ok : forall s m, mode_ok m -> mode_ok (snd (code m s)).
Proof.
  induction s as [|a s IH]; intros m H; [exact H|]. cbn [code]. specialize (IH _ (next_mode_ok m a H)).
  destruct (code (next_mode m a) s). exact IH.
Qed.

Lemma code_dulls_quoted : forall s m, dulls s -> mode_ok m -> m <> Code -> snd (code m s) <> Code.
Proof.
  induction s as [|a s IH]; intros m H O N; [exact N|]. destruct H as [[H1 H2] H]. cbn [code].
  assert (N' : next_mode m a <> Code).
  { destruct m as [|q|q]; cbn [next_mode]; [congruence| |discriminate].
    destruct (Ascii.eqb_spec a q) as [->|]; [cbn in O; congruence|]. destruct (_ && _)%bool; discriminate. }
  specialize (IH (next_mode m a) H (next_mode_ok m a O) N'). destruct (code (next_mode m a) s). exact IH.
Qed.

Lemma balanced_trim : forall s, balanced s -> balanced (trim_space s).
Proof.
  intros s [l [C M]]. destruct (trim_space_spec s) as [p [q [P [Q [E _]]]]].
  apply dull_spaces in P, Q. destruct (code_dulls p P) as [P1 P2]. destruct (code_dulls q Q) as [Q1 Q2].
  rewrite E in C. rewrite code_app, P1, code_app in C.
  destruct (code Code (trim_space s)) as [l1 m1] eqn:T.
  assert (O : mode_ok m1) by (pose proof (code_mode_ok (trim_space s) Code I) as X; now rewrite T in X).
  destruct (code m1 q) as [l2 m2] eqn:T2. inversion C; subst m2 l.
  destruct m1 as [|c|c].
  - exists l1. split; [exact T|]. rewrite Q1 in T2. inversion T2; subst l2.
    apply matched_plain_start in M; [|exact P2]. now apply matched_plain_end in M.
  - exfalso. apply (code_dulls_quoted q (Quoted c) Q O); [discriminate|]. now rewrite T2.
  - exfalso. apply (code_dulls_quoted q (Escaped c) Q O); [discriminate|]. now rewrite T2.
Qed.
