(** Facts about the lexer: every lexeme has the form its kind promises. *)
From Verif Require Import Base BaseLemmas ConfigLex SpecConfig.

(** * Digits *)

Lemma digit_of_is_digit c v : digit_of c v -> is_digit c = true /\ (Z.of_N (N_of_ascii c) - 48)%Z = v.
Proof.
  intros [R ->]. unfold is_digit. rewrite N_ascii_embedding by lia.
  split; [|lia]. apply andb_true_iff. rewrite !N.leb_le. lia.
Qed.

Lemma is_digit_digit_of c : is_digit c = true -> digit_of c (Z.of_N (N_of_ascii c) - 48)%Z.
Proof.
  unfold is_digit. rewrite andb_true_iff, !N.leb_le. intros R. split; [lia|].
  rewrite <- (ascii_N_embedding c) at 1. f_equal. lia.
Qed.

Lemma decimal_digits s n : decimal s n -> s <> [] /\ Forall (fun c => is_digit c = true) s.
Proof.
  intros D. induction D as [c v H|s n c v D [IH1 IH2] H]; apply digit_of_is_digit in H as [H _].
  - split; [discriminate|auto].
  - split; [destruct s; discriminate|]. apply Forall_app. auto.
Qed.

Lemma digits_forallb s : forallb is_digit s = true <-> Forall (fun c => is_digit c = true) s.
Proof. rewrite forallb_forall, Forall_forall. reflexivity. Qed.

Lemma decimal_exists s :
  s <> [] -> Forall (fun c => is_digit c = true) s -> exists n, decimal s n.
Proof.
  induction s as [|c s IH] using rev_ind; [congruence|].
  intros _ F. apply Forall_app in F as [F1 F2]. inversion F2 as [|? ? Hc _]; subst.
  apply is_digit_digit_of in Hc. destruct s as [|d s].
  - eexists. apply dec_one. exact Hc.
  - destruct IH as [n D]; [discriminate|exact F1|]. eexists. apply dec_more; eassumption.
Qed.

Lemma is_unit_time_unit c : is_unit c = true <-> exists u, time_unit c u.
Proof.
  unfold is_unit. rewrite !orb_true_iff, !Ascii.eqb_eq. split.
  - intros [[[->| ->]| ->]| ->]; eexists; constructor.
  - intros [u H]. destruct H; tauto.
Qed.

Lemma unit_not_digit c u : time_unit c u -> is_digit c = false.
Proof. intros H. destruct H; reflexivity. Qed.

Lemma time_lexeme_match s n c u r :
  decimal s n -> time_unit c u -> m_time (s ++ c :: r) = S (List.length s).
Proof.
  intros D U. apply decimal_digits in D as [NE F]. unfold m_time.
  apply digits_forallb in F. rewrite take_while_app, drop_while_app by exact F.
  simpl. rewrite (unit_not_digit _ _ U), app_nil_r.
  destruct s as [|d s]; [congruence|].
  replace (is_unit c) with true; [reflexivity|]. symmetry. apply is_unit_time_unit. eauto.
Qed.

Lemma m_time_lexeme s n : m_time s = S n -> time_lexeme (firstn (S n) s).
Proof.
  unfold m_time. intros E.
  pose proof (take_drop_while is_digit s) as TD.
  pose proof (take_while_forall is_digit s) as TF.
  destruct (take_while is_digit s) as [|d ds] eqn:T; [discriminate|].
  destruct (drop_while is_digit s) as [|c r] eqn:R; [discriminate|].
  destruct (is_unit c) eqn:U; [|discriminate]. injection E as <-.
  destruct (decimal_exists (d :: ds)) as [v D]; [discriminate|apply digits_forallb; exact TF|].
  apply is_unit_time_unit in U as [u U].
  exists (d :: ds), v, c, u. split; [|auto].
  rewrite <- TD.
  change (S (S (List.length ds))) with (S (List.length (d :: ds))).
  replace (S (List.length (d :: ds))) with (List.length ((d :: ds) ++ [c])) by (rewrite app_length; simpl; lia).
  replace ((d :: ds) ++ c :: r) with (((d :: ds) ++ [c]) ++ r) by (rewrite <- app_assoc; reflexivity).
  rewrite firstn_app, Nat.sub_diag, firstn_all. simpl. rewrite app_nil_r. reflexivity.
Qed.

(** * Strings *)

Lemma scan_escape s r : scan_string (escape s ++ dquote :: r) = Some (S (List.length (escape s))).
Proof.
  induction s as [|c s IH]; [reflexivity|].
  simpl escape. unfold escape_char. destruct (Ascii.eqb c dquote) eqn:Q.
  - simpl. rewrite Q. fold (escape s). rewrite IH. reflexivity.
  - destruct (Ascii.eqb c bslash) eqn:B; simpl.
    + rewrite B, orb_true_r. fold (escape s). rewrite IH. reflexivity.
    + rewrite Q, B. fold (escape s). rewrite IH. reflexivity.
Qed.

Lemma scan_string_spec k : forall s n,
  List.length s <= k -> scan_string s = Some n ->
  exists v r, s = escape v ++ dquote :: r /\ n = S (List.length (escape v)).
Proof.
  induction k as [|k IH]; intros s n L E.
  - destruct s; [discriminate|simpl in L; lia].
  - destruct s as [|c s]; [discriminate|]. simpl in L. cbn [scan_string] in E.
    destruct (Ascii.eqb_spec c dquote) as [->|NQ].
    + injection E as <-. exists [], s. auto.
    + destruct (Ascii.eqb_spec c bslash) as [->|NB].
      * destruct s as [|d s]; [discriminate|].
        destruct (Ascii.eqb d dquote || Ascii.eqb d bslash) eqn:Q; [|discriminate].
        destruct (scan_string s) as [m|] eqn:R; [|discriminate]. injection E as <-.
        destruct (IH s m ltac:(simpl in L; lia) R) as (v & r & -> & ->).
        exists (d :: v), r. simpl escape. unfold escape_char. rewrite Q. auto.
      * destruct (scan_string s) as [m|] eqn:R; [|discriminate]. injection E as <-.
        destruct (IH s m ltac:(lia) R) as (v & r & -> & ->).
        exists (c :: v), r. simpl escape. unfold escape_char.
        destruct (Ascii.eqb_spec c dquote); [congruence|]. destruct (Ascii.eqb_spec c bslash); [congruence|].
        auto.
Qed.

Lemma m_string_quote s r : m_string (quote_string s ++ r) = List.length (quote_string s).
Proof.
  unfold quote_string. simpl. rewrite <- app_assoc. simpl. rewrite scan_escape.
  rewrite app_length. simpl. lia.
Qed.

Lemma m_string_lexeme s n : m_string s = S n -> exists v, firstn (S n) s = quote_string v.
Proof.
  unfold m_string. destruct s as [|c s]; [discriminate|].
  destruct (Ascii.eqb_spec c dquote) as [->|]; [|discriminate].
  destruct (scan_string s) as [m|] eqn:R; [|discriminate]. intros [= <-].
  destruct (scan_string_spec (List.length s) s m ltac:(lia) R) as (v & r & -> & ->).
  exists v. transitivity (firstn (S (S (List.length (escape v)))) (quote_string v ++ r)).
  - unfold quote_string. simpl app. rewrite <- app_assoc. reflexivity.
  - apply firstn_exact. unfold quote_string. rewrite !app_length. simpl. lia.
Qed.

(** * Longest match *)

Lemma best_match_spec rs s len r n r' :
  best_match rs s len r = (n, r') ->
  (n = len /\ r' = r) \/ (In r' rs /\ n = rule_len r' s /\ len < n).
Proof.
  revert len r. induction rs as [|r0 rs IH]; simpl; intros len r E.
  - injection E as <- <-. auto.
  - destruct (Nat.ltb_spec len (rule_len r0 s)).
    + destruct (IH _ _ E) as [[-> ->]|(I & -> & L)]; right; auto. split; [auto|]. split; [reflexivity|lia].
    + destruct (IH _ _ E) as [?|(I & -> & L)]; auto.
Qed.

Lemma best_match_max rs s len r n r' :
  best_match rs s len r = (n, r') -> len <= n /\ forall r0, In r0 rs -> rule_len r0 s <= n.
Proof.
  revert len r. induction rs as [|r1 rs IH]; simpl; intros len r E.
  - injection E as <- <-. split; [lia|tauto].
  - destruct (Nat.ltb_spec len (rule_len r1 s)).
    + destruct (IH _ _ E) as [L M]. split; [lia|]. intros r0 [<-|I]; auto.
    + destruct (IH _ _ E) as [L M]. split; [lia|]. intros r0 [<-|I]; auto. lia.
Qed.

(** What a token says about its text. *)
Definition token_ok (t : token) : Prop :=
  match t with
  | TkTime s => time_lexeme s
  | TkString s => exists v, s = quote_string v
  | _ => True
  end.

Lemma rules_lit_ok p t : In (RLit p t) rules -> token_ok t.
Proof.
  unfold rules, kw_rule. simpl. intros H.
  repeat (destruct H as [H|H]; [try discriminate H; injection H as <- <-; exact I|]). destruct H.
Qed.

Lemma lex_fuel_step fuel s :
  s <> [] ->
  lex_fuel (S fuel) s =
  let '(n, r) := best_match rules s 0 RAny in
  match lex_fuel fuel (skipn n s) with
  | None => None
  | Some ts =>
      match rule_token r (firstn n s) with
      | Some t => Some (t :: ts)
      | None => Some ts
      end
  end.
Proof. intros NE. destruct s; [congruence|]. reflexivity. Qed.

Lemma lex_fuel_ok fuel s ts : lex_fuel fuel s = Some ts -> Forall token_ok ts.
Proof.
  revert s ts. induction fuel as [|fuel IH]; intros s ts E.
  - destruct s; [|discriminate]. injection E as <-. constructor.
  - destruct s as [|c s0]; [injection E as <-; constructor|].
    assert (c :: s0 <> []) as NE by discriminate.
    rewrite (lex_fuel_step _ _ NE) in E. clear NE. generalize dependent (c :: s0). intros s E.
    destruct (best_match rules s 0 RAny) as [n r] eqn:B.
    destruct (lex_fuel fuel (skipn n s)) as [ts0|] eqn:R; [|discriminate].
    apply IH in R.
    assert (forall t, rule_token r (firstn n s) = Some t -> token_ok t) as K.
    { intros t T. apply best_match_spec in B as [[-> ->]|(Ir & -> & L)].
      - injection T as <-. exact I.
      - destruct r as [| | |p t0| | |]; cbn [rule_token rule_len] in *; try discriminate;
          injection T as <-.
        + destruct (m_time s) as [|m] eqn:M; [lia|]. apply m_time_lexeme. exact M.
        + exact I.
        + destruct (m_string s) as [|m] eqn:M; [lia|]. apply m_string_lexeme in M. exact M.
        + eapply rules_lit_ok; exact Ir.
        + exact I. }
    destruct (rule_token r (firstn n s)) as [t|] eqn:T; injection E as <-; [constructor|]; auto.
Qed.

Lemma lex_ok s ts : lex s = Some ts -> Forall token_ok ts.
Proof. apply lex_fuel_ok. Qed.

(** The fuel is enough: the lexer is total. *)
Lemma best_match_progress s n r : s <> [] -> best_match rules s 0 RAny = (n, r) -> 0 < n.
Proof.
  intros NE B. apply best_match_max in B as [_ M].
  specialize (M RAny). destruct s; [congruence|]. simpl in M. apply M.
  unfold rules. simpl. repeat (try (left; reflexivity); right).
Qed.

Lemma lex_total s : exists ts, lex s = Some ts.
Proof.
  unfold lex. assert (forall fuel s, List.length s <= fuel -> exists ts, lex_fuel fuel s = Some ts) as K.
  { clear s. induction fuel as [|fuel IH]; intros s L.
    - destruct s; [|simpl in L; lia]. simpl. eauto.
    - destruct s as [|c s0]; [simpl; eauto|].
      assert (c :: s0 <> []) as NE by discriminate.
      rewrite (lex_fuel_step _ _ NE).
      generalize dependent (c :: s0). intros s L NE.
      destruct (best_match rules s 0 RAny) as [n r] eqn:B.
      pose proof (best_match_progress s n r NE B) as P.
      destruct (IH (skipn n s)) as [ts R].
      { rewrite skipn_length. destruct s; [congruence|]. cbn [List.length] in *. lia. }
      rewrite R. destruct (rule_token r (firstn n s)); eauto. }
  apply K. lia.
Qed.

(** Printed numbers. *)

Lemma digit_dec n : (n < 10)%N -> digit_of (ascii_of_N (48 + n)) (Z.of_N n).
Proof. intros L. split; [lia|]. f_equal. lia. Qed.

Lemma dec_digits_spec : forall fuel n acc, (n < 2 ^ N.of_nat fuel)%N -> fuel <> 0 ->
  exists s, dec_digits fuel n acc = s ++ acc /\ decimal s (Z.of_N n).
Proof.
  induction fuel as [|fuel IH]; intros n acc L NZ; [congruence|]. cbn [dec_digits].
  pose proof (N.mod_lt n 10 ltac:(discriminate)) as ML.
  destruct (N.ltb_spec n 10) as [LT|GE].
  - exists [ascii_of_N (48 + n mod 10)]. split; [reflexivity|].
    rewrite (N.mod_small n 10 LT). constructor. apply digit_dec, LT.
  - assert (n / 10 < 2 ^ N.of_nat fuel)%N as L'.
    { apply N.div_lt_upper_bound; [discriminate|]. rewrite Nat2N.inj_succ, N.pow_succ_r' in L. lia. }
    assert (fuel <> 0) as NZ' by (intros ->; cbn in L; lia).
    destruct (IH (n / 10)%N (ascii_of_N (48 + n mod 10) :: acc) L' NZ') as (s & E & D).
    exists (s ++ [ascii_of_N (48 + n mod 10)]). split; [rewrite E, <- app_assoc; reflexivity|].
    assert (Z.of_N n = 10 * Z.of_N (n / 10) + Z.of_N (n mod 10))%Z as ->.
    { rewrite (N.div_mod n 10) at 1 by discriminate. lia. }
    apply dec_more; [exact D|apply digit_dec, ML].
Qed.

Lemma dec_of_N_spec n : decimal (dec_of_N n) (Z.of_N n).
Proof.
  unfold dec_of_N. destruct (dec_digits_spec (S (N.to_nat (N.log2 n))) n []) as (s & E & D).
  - rewrite Nat2N.inj_succ, N2Nat.id. destruct n as [|p]; [reflexivity|]. apply N.log2_spec. reflexivity.
  - discriminate.
  - rewrite E, app_nil_r. exact D.
Qed.
