(** The lexer produces exactly the lexemes of SpecLex.v (C43, C44). *)
From Verif Require Import Base BaseLemmas ConfigLex SpecConfig LexLemmas SpecLex Config.

(** What ties a rule of the model to one of the specification. *)
Record corresponds (r : rule) (lr : lex_rule) : Prop := {
  cor_max : forall text rest, text <> [] -> lr_match lr text rest ->
    List.length text <= rule_len r (text ++ rest);
  cor_hit : forall s, 0 < rule_len r s ->
    exists text rest, s = text ++ rest /\ List.length text = rule_len r s /\ lr_match lr text rest;
  cor_tok : forall text, lr_token lr text = rule_token r text;
}.

Lemma cor_lit p t : corresponds (RLit p t) (lit p t).
Proof.
  constructor.
  - intros text rest _ H. cbn in H. subst text. cbn [rule_len]. unfold m_lit.
    rewrite starts_with_app. lia.
  - intros s H. cbn [rule_len] in *. unfold m_lit in *. destruct (starts_with p s) eqn:E; [|lia].
    apply starts_with_iff in E as (r & ->). exists p, r. split; [reflexivity|]. split; reflexivity.
  - reflexivity.
Qed.

Lemma take_while_app_ge {A} (f : A -> bool) a b :
  Forall (fun x => f x = true) a -> List.length a <= List.length (take_while f (a ++ b)).
Proof. induction 1 as [|x a H F IH]; simpl; [lia|]. rewrite H. simpl. lia. Qed.

Lemma take_while_hit {A} (f : A -> bool) s :
  s = take_while f s ++ drop_while f s /\ Forall (fun x => f x = true) (take_while f s).
Proof.
  split; [symmetry; apply take_drop_while|]. pose proof (take_while_forall f s) as H.
  rewrite forallb_forall in H. apply Forall_forall. exact H.
Qed.

Lemma cor_time lrt : (forall text, lrt text = Some (TkTime text)) ->
  corresponds RTime (mkRule (fun text _ => time_lexeme text) lrt).
Proof.
  intros T. constructor; [| |exact T].
  - intros text rest _ (s & n & c & u & -> & D & U). cbn [rule_len]. rewrite <- app_assoc. cbn [app].
    rewrite (time_lexeme_match s n c u rest D U), app_length. simpl. lia.
  - intros s H. cbn [rule_len] in *. destruct (m_time s) as [|n] eqn:E; [lia|].
    exists (firstn (S n) s), (skipn (S n) s). split; [symmetry; apply firstn_skipn|].
    split; [|apply m_time_lexeme, E]. rewrite firstn_length_le; [reflexivity|].
    unfold m_time in E. pose proof (take_drop_while is_digit s) as TD.
    destruct (take_while is_digit s) as [|d ds]; [discriminate|].
    destruct (drop_while is_digit s) as [|c r]; [discriminate|].
    destruct (is_unit c); [|discriminate]. injection E as <-. rewrite <- TD, app_length. simpl. lia.
Qed.

Lemma cor_int lrt : (forall text, lrt text = Some (TkInt text)) ->
  corresponds RInt (mkRule (fun text _ => exists n, decimal text n) lrt).
Proof.
  intros T. constructor; [| |exact T].
  - intros text rest _ (n & D). cbn [rule_len]. unfold m_int. apply take_while_app_ge.
    apply decimal_digits in D as [_ D]. exact D.
  - intros s H. cbn [rule_len] in *. unfold m_int in *. destruct (take_while_hit is_digit s) as [E F].
    exists (take_while is_digit s), (drop_while is_digit s). split; [exact E|]. split; [reflexivity|].
    apply decimal_exists; [|exact F]. destruct (take_while is_digit s); [simpl in H; lia|discriminate].
Qed.

Lemma cor_string lrt : (forall text, lrt text = Some (TkString text)) ->
  corresponds RString (mkRule (fun text _ => exists v, text = quote_string v) lrt).
Proof.
  intros T. constructor; [| |exact T].
  - intros text rest _ (v & ->). cbn [rule_len]. rewrite m_string_quote. lia.
  - intros s H. cbn [rule_len] in *. destruct (m_string s) as [|n] eqn:E; [lia|].
    exists (firstn (S n) s), (skipn (S n) s). split; [symmetry; apply firstn_skipn|].
    split; [|apply m_string_lexeme, E]. rewrite firstn_length_le; [reflexivity|].
    unfold m_string in E. destruct s as [|c s]; [discriminate|].
    destruct (Ascii.eqb c dquote); [|discriminate]. destruct (scan_string s) as [m|] eqn:R; [|discriminate].
    injection E as <-. destruct (scan_string_spec (List.length s) s m ltac:(lia) R) as (v & r & -> & ->).
    simpl. rewrite app_length. simpl. lia.
Qed.

Lemma take_while_ext {A} (f : A -> bool) a b :
  Forall (fun x => f x = true) a -> match b with [] => True | x :: _ => f x = false end ->
  take_while f (a ++ b) = a.
Proof.
  intros F N. induction F as [|x a H F IH]; simpl.
  - destruct b as [|x b]; [reflexivity|]. simpl. rewrite N. reflexivity.
  - rewrite H, IH. reflexivity.
Qed.

Lemma cor_comment lrt : (forall text, lrt text = None) ->
  corresponds RComment (mkRule (fun text rest => exists body, text = $"//" ++ body /\ ~ In nl body
             /\ (rest = [] \/ exists rest', rest = nl :: rest')) lrt).
Proof.
  intros T. set (f := fun c => negb (Ascii.eqb c nl)).
  constructor; [| |exact T].
  - intros text rest _ (body & -> & NI & RE). cbn [rule_len]. unfold m_comment.
    assert (starts_with $"//" (($"//" ++ body) ++ rest) = true) as -> by (rewrite <- app_assoc; apply starts_with_app).
    fold f. apply take_while_app_ge. apply Forall_forall. intros x [<-|[<-|X]]; try reflexivity.
    unfold f. destruct (Ascii.eqb_spec x nl); [subst; contradiction|reflexivity].
  - intros s H. cbn [rule_len] in *. unfold m_comment in *. destruct (starts_with $"//" s) eqn:E; [|lia].
    destruct (take_while_hit f s) as [ES F]. exists (take_while f s), (drop_while f s).
    split; [exact ES|]. split; [reflexivity|]. cbn [lr_match].
    apply starts_with_iff in E as (r & ->).
    assert (take_while f ($"//" ++ r) = $"//" ++ take_while f r) as ET by reflexivity.
    exists (take_while f r). split; [exact ET|]. split.
    + intros X. rewrite Forall_forall in F. rewrite ET in F. specialize (F nl). 
      assert (f nl = true) as Y by (apply F; right; right; exact X). discriminate Y.
    + clear. change (drop_while f ($"//" ++ r)) with (drop_while f r).
      induction r as [|x r IH]; [left; reflexivity|]. cbn [drop_while].
      destruct (f x) eqn:FX; [exact IH|right]. unfold f in FX. apply negb_false_iff, Ascii.eqb_eq in FX. subst x. eauto.
  Qed.

Lemma is_ws_iff c : is_ws c = true <-> c = " "%char \/ c = tab \/ c = nl \/ c = cr.
Proof.
  unfold is_ws. rewrite !orb_true_iff, !Ascii.eqb_eq. tauto.
Qed.

Lemma cor_ws lrt : (forall text, lrt text = None) ->
  corresponds RWs (mkRule (fun text _ => Forall (fun c => c = " "%char \/ c = tab \/ c = nl \/ c = cr) text) lrt).
Proof.
  intros T. constructor; [| |exact T].
  - intros text rest _ F. cbn [rule_len]. unfold m_ws. apply take_while_app_ge.
    eapply Forall_impl; [|exact F]. intros c H. apply is_ws_iff. exact H.
  - intros s H. cbn [rule_len] in *. unfold m_ws in *. destruct (take_while_hit is_ws s) as [E F].
    exists (take_while is_ws s), (drop_while is_ws s). split; [exact E|]. split; [reflexivity|].
    eapply Forall_impl; [|exact F]. intros c K. apply is_ws_iff. exact K.
Qed.

Lemma cor_any lrt : (forall text, lrt text = Some TkUnmatched) ->
  corresponds RAny (mkRule (fun text _ => exists c, text = [c]) lrt).
Proof.
  intros T. constructor; [| |exact T].
  - intros text rest _ (c & ->). simpl. lia.
  - intros s H. destruct s as [|c s]; [simpl in H; lia|]. exists [c], s. split; [reflexivity|]. split; [reflexivity|].
    exists c. reflexivity.
Qed.

Lemma rules_correspond : Forall2 corresponds rules lex_rules.
Proof.
  unfold rules, lex_rules, kw_rule.
  repeat (constructor; [first [apply cor_lit|apply cor_time; reflexivity|apply cor_int; reflexivity
    |apply cor_string; reflexivity|apply cor_comment; reflexivity|apply cor_ws; reflexivity|apply cor_any; reflexivity]|]).
  constructor.
Qed.

Lemma best_match_first rs s len r n r' :
  best_match rs s len r = (n, r') ->
  (n = len /\ r' = r)
  \/ exists before after, rs = before ++ r' :: after /\ n = rule_len r' s /\ len < n
       /\ forall r0, In r0 before -> rule_len r0 s < n.
Proof.
  revert len r. induction rs as [|r1 rs IH]; cbn [best_match]; intros len r E.
  - injection E as <- <-. auto.
  - destruct (Nat.ltb_spec len (rule_len r1 s)) as [L|L].
    + right. destruct (IH _ _ E) as [[-> ->]|(b & a & -> & -> & L2 & K)].
      * exists [], rs. split; [reflexivity|]. split; [reflexivity|]. split; [exact L|intros r0 []].
      * exists (r1 :: b), a. split; [reflexivity|]. split; [reflexivity|]. split; [lia|].
        intros r0 [<-|I]; [exact L2|apply K, I].
    + destruct (IH _ _ E) as [?|(b & a & -> & -> & L2 & K)]; [auto|right].
      exists (r1 :: b), a. split; [reflexivity|]. split; [reflexivity|]. split; [lia|].
      intros r0 [<-|I]; [lia|apply K, I].
Qed.

Lemma Forall2_split {A B} (R : A -> B -> Prop) la lb b a1 x :
  Forall2 R la lb -> la = b ++ x :: a1 ->
  exists b' y a', lb = b' ++ y :: a' /\ R x y /\ Forall2 R b b' /\ Forall2 R a1 a'.
Proof.
  intros F ->. apply Forall2_app_inv_l in F as (b' & l & F1 & F2 & ->).
  inversion F2 as [|? y ? a' Rxy Fa]; subst. exists b', y, a'. auto.
Qed.

Lemma Forall2_in_r2 {A B} (R : A -> B -> Prop) la lb y : Forall2 R la lb -> In y lb -> exists x, In x la /\ R x y.
Proof.
  induction 1 as [|a b la lb H F IH]; [intros []|]. intros [<-|I].
  - exists a. split; [left; reflexivity|exact H].
  - destruct (IH I) as (x & Ix & Rx). exists x. split; [right; exact Ix|exact Rx].
Qed.

Lemma app_same_length {A} (a b c d : list A) : a ++ b = c ++ d -> List.length a = List.length c -> a = c /\ b = d.
Proof.
  revert c. induction a as [|x a IH]; intros [|y c] E L; try discriminate L.
  - auto.
  - injection E as -> E. injection L as L. destruct (IH c E L) as [-> ->]. auto.
Qed.

Lemma lex_fuel_sound fuel : forall s ts, lex_fuel fuel s = Some ts -> lexes s ts.
Proof.
  induction fuel as [|fuel IH]; intros s ts E.
  - destruct s; [|discriminate]. injection E as <-. constructor.
  - destruct s as [|c s0]; [injection E as <-; constructor|].
    assert (c :: s0 <> []) as NE by discriminate.
    rewrite (lex_fuel_step _ _ NE) in E. generalize dependent (c :: s0). intros s E NE. clear c s0.
    destruct (best_match rules s 0 RAny) as [n r] eqn:B.
    pose proof (best_match_progress s n r NE B) as P.
    destruct (lex_fuel fuel (skipn n s)) as [ts0|] eqn:R; [|discriminate]. apply IH in R.
    destruct (best_match_max _ _ _ _ _ _ B) as [_ MX].
    destruct (best_match_first _ _ _ _ _ _ B) as [[-> _]|(b & a & ER & -> & _ & FB)]; [lia|].
    destruct (Forall2_split _ _ _ _ _ _ rules_correspond ER) as (b' & lr & a' & EL & C & Fb & _).
    destruct (cor_hit _ _ C s P) as (text & rest & -> & LT & M).
    rewrite <- LT in *. rewrite firstn_app, Nat.sub_diag, firstn_all, firstn_O, app_nil_r in E.
    rewrite skipn_app, Nat.sub_diag, skipn_all, skipn_O in R. cbn [app] in R.
    rewrite <- (cor_tok _ _ C) in E.
    assert (ts = match lr_token lr text with Some t => t :: ts0 | None => ts0 end) as ->
      by (destruct (lr_token lr text); congruence).
    eapply lexes_more; try eassumption.
    + intros ->. simpl in P. lia.
    + intros r' text' rest' I' E' M'. destruct text' as [|x t']; [simpl; lia|].
      destruct (Forall2_in_r2 _ _ _ _ rules_correspond I') as (r0 & I0 & C0).
      specialize (MX r0 I0). rewrite <- E' in MX. pose proof (cor_max _ _ C0 (x :: t') rest' ltac:(discriminate) M') as X. lia.
    + intros r' I' M'. destruct (Forall2_in_r2 _ _ _ _ Fb I') as (r0 & I0 & C0). specialize (FB r0 I0).
      pose proof (cor_max _ _ C0 text rest) as X. destruct text as [|x t]; [simpl in P; lia|].
      specialize (X ltac:(discriminate) M'). lia.
Qed.

(** The specification determines the lexemes. *)
Lemma lexes_det s ts : lexes s ts -> forall ts', lexes s ts' -> ts = ts'.
Proof.
  induction 1 as [|b r a text rest ts E NE M MX FB L IH]; intros ts' L'.
  - remember (@nil ascii) as s eqn:ES. destruct L' as [|b r a text rest ts0 E NE M MX FB L0]; [reflexivity|].
    apply app_eq_nil in ES as [-> _]. destruct (NE eq_refl).
  - remember (text ++ rest) as s eqn:ES.
    destruct L' as [|b' r' a' text' rest' ts0 E' NE' M' MX' FB' L'].
    { symmetry in ES. apply app_eq_nil in ES as [-> _]. destruct (NE eq_refl). }
    assert (List.length text = List.length text') as LL.
    { apply Nat.le_antisymm.
      - apply (MX' r text rest); [rewrite E; apply in_elt|symmetry; exact ES|exact M].
      - apply (MX r' text' rest'); [rewrite E'; apply in_elt|reflexivity|exact M']. }
    destruct (app_same_length _ _ _ _ ES (eq_sym LL)) as [-> ->].
    rewrite (IH _ L'). rewrite E in E'.
    assert (r = r') as ->; [|reflexivity].
    clear -E' M M' FB FB'. revert b' E' FB'. induction b as [|x b IH]; intros [|y b'] E' FB'.
    + injection E' as -> _. reflexivity.
    + injection E' as -> _. exfalso. apply (FB' y); [left; reflexivity|exact M].
    + injection E' as <- _. exfalso. apply (FB x); [left; reflexivity|exact M'].
    + injection E' as -> E'. apply (IH ltac:(intros z Z; apply FB; right; exact Z) b' E').
      intros z Z. apply FB'. right. exact Z.
Qed.

Lemma lex_iff s ts : lex s = Some ts <-> lexes s ts.
Proof.
  split; [apply lex_fuel_sound|]. intros L. destruct (lex_total s) as (ts' & E).
  rewrite E. f_equal. eapply lexes_det; [eapply lex_fuel_sound, E|exact L].
Qed.

(** * Strings (C43) *)

Lemma unescape_escape v r c : unescape_go (escape v ++ c :: r) = v ++ unescape_go (c :: r) \/ c = bslash.
Proof.
  destruct (Ascii.eqb_spec c bslash) as [->|NB]; [right; reflexivity|left].
  induction v as [|x v IH]; [reflexivity|].
  change (escape (x :: v)) with (escape_char x ++ escape v).
  unfold escape_char. destruct (Ascii.eqb x dquote || Ascii.eqb x bslash) eqn:Q.
  - transitivity (x :: unescape_go (escape v ++ c :: r)); [reflexivity|rewrite IH; reflexivity].
  - apply orb_false_iff in Q as [_ Q]. cbn [app].
    destruct (escape v ++ c :: r) as [|y l] eqn:EV; [destruct (escape v); discriminate EV|].
    transitivity (x :: unescape_go (y :: l)); [|rewrite IH; reflexivity].
    cbn [unescape_go]. rewrite Q. reflexivity.
Qed.

Lemma unescape_quote v : unescape_str (quote_string v) = v.
Proof.
  unfold quote_string. cbn [app unescape_str].
  destruct (unescape_escape v [] dquote) as [E|E]; [|discriminate E]. rewrite E. cbn. apply app_nil_r.
Qed.

Lemma quote_inj v v' : quote_string v = quote_string v' -> v = v'.
Proof. intros E. rewrite <- (unescape_quote v), <- (unescape_quote v'), E. reflexivity. Qed.

(** A written string is one lexeme, whatever follows. *)
Lemma lex_quote v r ts : lex r = Some ts -> lex (quote_string v ++ r) = Some (TkString (quote_string v) :: ts).
Proof.
  intros L. apply lex_iff. apply lex_iff in L.
  change (TkString (quote_string v) :: ts)
    with (match lr_token (mkRule (fun text _ => exists v, text = quote_string v) (fun text => Some (TkString text)))
            (quote_string v) with Some t => t :: ts | None => ts end).
  eapply lexes_more with (before := firstn 2 lex_rules) (after := skipn 3 lex_rules); [reflexivity|discriminate| | | |exact L].
  - exists v. reflexivity.
  - intros r' text' rest' I' E' M'. destruct (Forall2_in_r2 _ _ _ _ rules_correspond I') as (r0 & I0 & C0).
    destruct text' as [|x t']; [simpl; lia|].
    pose proof (cor_max _ _ C0 (x :: t') rest' ltac:(discriminate) M') as X. rewrite E' in X.
    etransitivity; [exact X|]. clear - I0.
    assert (forall p t, In (RLit p t) rules -> m_lit p (quote_string v ++ r) = 0) as LIT.
    { intros p t I. unfold rules, kw_rule in I. cbn [In] in I.
      repeat (destruct I as [I|I]; [try discriminate I; injection I as <- <-; reflexivity|]). destruct I. }
    assert (1 <= List.length (quote_string v)) as L1 by (simpl; lia).
    destruct r0 as [| | |p t| | |]; cbn [rule_len]; try (rewrite (LIT p t I0)); try (rewrite m_string_quote; apply Nat.le_refl);
      try (etransitivity; [|exact L1]; cbn; lia).
    change (m_comment (quote_string v ++ r)) with 0. lia.
  - intros r' I' M'. cbn in I'. destruct I' as [<-|[<-|[]]].
    + destruct M' as (s & n & c & u & E & D & _). apply decimal_digits in D as [NE F].
      destruct s as [|x s]; [congruence|]. injection E as <- _. inversion F as [|? ? X _]. discriminate X.
    + destruct M' as (n & D). apply decimal_digits in D as [_ F]. inversion F as [|? ? X _]. discriminate X.
Qed.

Lemma lexed_strings s ts l :
  lex s = Some ts -> In (TkString l) ts -> exists v, l = quote_string v /\ forall v', l = quote_string v' -> v' = v.
Proof.
  intros L I. apply lex_ok in L. rewrite Forall_forall in L. destruct (L _ I) as (v & ->).
  exists v. split; [reflexivity|]. intros v' E. symmetry. apply quote_inj, E.
Qed.
