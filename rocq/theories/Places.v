(** Where lexemes begin and how [error_at_span] names a place. *)
From Verif Require Import Base BaseLemmas ConfigLex ConfigParse Located SpecConfig SpecGrammar SpecLex SpecBlocks SpecReport
  LexLemmas Lexing ConfigParseProofs.

(** * Lexemes *)

Lemma lexemes_fst fuel : forall off s, option_map (map fst) (lexemes_fuel fuel off s) = lex_fuel fuel s.
Proof.
  induction fuel as [|fuel IH]; intros off s; [destruct s; reflexivity|].
  destruct s as [|c s]; [reflexivity|]. cbn [lexemes_fuel lex_fuel].
  destruct (best_match rules (c :: s) 0 RAny) as [n r]. rewrite <- (IH (off + n)).
  destruct (lexemes_fuel fuel (off + n) (skipn n (c :: s))) as [ls|]; [|reflexivity]. cbn [option_map].
  destruct (rule_token r (firstn n (c :: s))); reflexivity.
Qed.

Lemma lexemes_lex s toks : lex s = Some toks -> exists ls, lexemes s = Some ls /\ map fst ls = toks.
Proof.
  unfold lex, lexemes. rewrite <- (lexemes_fst _ 0). destruct (lexemes_fuel (List.length s) 0 s) as [ls|]; [|discriminate].
  intros E. injection E as <-. eauto.
Qed.

Lemma lexemes_some s : exists ls, lexemes s = Some ls.
Proof. destruct (lex_total s) as (ts & E). destruct (lexemes_lex s ts E) as (ls & L & _). eauto. Qed.

Lemma best_next s n r :
  s <> [] -> best_match rules s 0 RAny = (n, r) ->
  next_lexeme s (firstn n s) (rule_token r (firstn n s)) (skipn n s).
Proof.
  intros NE B. pose proof (best_match_progress s n r NE B) as P.
  destruct (best_match_max _ _ _ _ _ _ B) as [_ MX].
  destruct (best_match_first _ _ _ _ _ _ B) as [[-> _]|(b & a & ER & -> & _ & FB)]; [lia|].
  destruct (Forall2_split _ _ _ _ _ _ rules_correspond ER) as (b' & lr & a' & EL & C & Fb & _).
  destruct (cor_hit _ _ C s P) as (text & rest & -> & LT & M).
  rewrite <- LT in *. rewrite firstn_app, Nat.sub_diag, firstn_all, firstn_O, app_nil_r.
  rewrite skipn_app, Nat.sub_diag, skipn_all, skipn_O. cbn [app].
  split; [reflexivity|]. split; [intros ->; simpl in P; lia|].
  exists b', lr, a'. split; [exact EL|]. split; [exact M|]. split; [|split].
  - intros r' text' rest' I' E' M'. destruct text' as [|x t']; [simpl; lia|].
    destruct (Forall2_in_r2 _ _ _ _ rules_correspond I') as (r0 & I0 & C0).
    specialize (MX r0 I0). rewrite <- E' in MX. pose proof (cor_max _ _ C0 (x :: t') rest' ltac:(discriminate) M') as X. lia.
  - intros r' I' M'. destruct (Forall2_in_r2 _ _ _ _ Fb I') as (r0 & I0 & C0). specialize (FB r0 I0).
    pose proof (cor_max _ _ C0 text rest) as X. destruct text as [|x t]; [simpl in P; lia|].
    specialize (X ltac:(discriminate) M'). lia.
  - symmetry. apply (cor_tok _ _ C).
Qed.

Lemma lexemes_step fuel off s :
  s <> [] ->
  lexemes_fuel (S fuel) off s =
  let '(n, r) := best_match rules s 0 RAny in
  match lexemes_fuel fuel (off + n) (skipn n s) with
  | None => None
  | Some ls =>
      match rule_token r (firstn n s) with
      | Some t => Some ((t, mkSpan off (off + n)) :: ls)
      | None => Some ls
      end
  end.
Proof. destruct s; [congruence|reflexivity]. Qed.

Lemma lexemes_begin fuel : forall off s ls i t sp,
  lexemes_fuel fuel off s = Some ls -> nth_error ls i = Some (t, sp) ->
  exists ts rest text rest',
    lexes_to s ts rest /\ List.length ts = i /\ next_lexeme rest text (Some t) rest'
    /\ sp_from sp + List.length rest = off + List.length s.
Proof.
  induction fuel as [|fuel IH]; intros off s ls i t sp E NT.
  - destruct s; [|discriminate]. injection E as <-. destruct i; discriminate.
  - destruct s as [|c s0]; [injection E as <-; destruct i; discriminate|].
    assert (c :: s0 <> []) as NE by discriminate.
    rewrite (lexemes_step _ _ _ NE) in E. generalize dependent (c :: s0). intros s E NE. clear c s0. destruct (best_match rules s 0 RAny) as [n r] eqn:B.
    pose proof (best_next s n r NE B) as NX.
    destruct (lexemes_fuel fuel (off + n) (skipn n s)) as [ls0|] eqn:R; [|discriminate].
    assert (forall m, off + n + List.length (skipn n s) = m -> m = off + List.length s) as LEN.
    { intros m <-.
      assert (n <= List.length s) as NL.
      { destruct (best_match_first _ _ _ _ _ _ B) as [[-> _]|(b & a & ER & -> & P & _)]; [lia|].
        destruct (Forall2_split _ _ _ _ _ _ rules_correspond ER) as (b' & lr & a' & _ & C & _).
        destruct (cor_hit _ _ C s P) as (text & rest & -> & LT & _). rewrite app_length. lia. }
      rewrite skipn_length. lia. }
    destruct (rule_token r (firstn n s)) as [t0|] eqn:RT.
    + injection E as <-. destruct i as [|i].
      * cbn in NT. injection NT as -> <-. exists [], s, (firstn n s), (skipn n s).
        split; [constructor|]. split; [reflexivity|]. split; [exact NX|]. reflexivity.
      * cbn in NT. destruct (IH _ _ _ _ _ _ R NT) as (ts & rest & text & rest' & L & LI & N' & Q).
        exists (t0 :: ts), rest, text, rest'. split; [eapply lto_token; eassumption|]. split; [simpl; congruence|].
        split; [exact N'|]. apply LEN. symmetry. exact Q.
    + injection E as <-. destruct (IH _ _ _ _ _ _ R NT) as (ts & rest & text & rest' & L & LI & N' & Q).
      exists ts, rest, text, rest'. split; [eapply lto_blank; eassumption|]. split; [exact LI|].
      split; [exact N'|]. apply LEN. symmetry. exact Q.
Qed.

Lemma lexeme_begins s ls i t sp :
  lexemes s = Some ls -> nth_error ls i = Some (t, sp) -> token_begins s i (sp_from sp).
Proof.
  intros L N. destruct (lexemes_begin _ _ _ _ _ _ _ L N) as (ts & rest & text & rest' & A & B & C & D).
  exists ts, rest, text, t, rest'. auto.
Qed.

(** The next lexeme is unique, and so is the beginning of a token. *)
Lemma next_det s text t rest text' t' rest' :
  next_lexeme s text t rest -> next_lexeme s text' t' rest' -> text = text' /\ t = t' /\ rest = rest'.
Proof.
  intros (E & NE & b & r & a & ER & M & MX & FB & ->) (E' & NE' & b' & r' & a' & ER' & M' & MX' & FB' & ->).
  assert (List.length text = List.length text') as LL.
  { apply Nat.le_antisymm.
    - apply (MX' r text rest); [rewrite ER; apply in_elt|symmetry; exact E|exact M].
    - apply (MX r' text' rest'); [rewrite ER'; apply in_elt|symmetry; exact E'|exact M']. }
  rewrite E in E'. destruct (app_same_length _ _ _ _ E' LL) as [<- <-].
  split; [reflexivity|]. split; [|reflexivity].
  assert (r = r') as ->; [|reflexivity].
  rewrite ER in ER'. clear -ER' M M' FB FB'. revert b' ER' FB'. induction b as [|x b IH]; intros [|y b'] E' FB'; cbn in E'.
  - congruence.
  - injection E' as <- _. destruct (FB' r (or_introl eq_refl) M).
  - injection E' as -> _. destruct (FB r' (or_introl eq_refl) M').
  - injection E' as <- E'. apply (IH (fun z H => FB z (or_intror H)) b' E' (fun z H => FB' z (or_intror H))).
Qed.

Lemma begins_unique s ts rest text t rest1 :
  lexes_to s ts rest -> next_lexeme rest text (Some t) rest1 ->
  forall ts' rest' text' t' rest1',
    lexes_to s ts' rest' -> next_lexeme rest' text' (Some t') rest1' -> List.length ts = List.length ts' -> rest = rest'.
Proof.
  intros L. induction L as [s|s tx t0 r ts rest N L IH|s tx r ts rest N L IH]; intros NX ts' rest' text' t' rest1' L' NX' LEN.
  - destruct L' as [s|s tx t0 r ts rest N L|s tx r ts rest N L]; [reflexivity|discriminate LEN|].
    destruct (next_det _ _ _ _ _ _ _ N NX) as (_ & F & _). discriminate F.
  - destruct L' as [s|s tx' t0' r' ts' rest' N' L'|s tx' r' ts' rest' N' L']; [discriminate LEN| |].
    + destruct (next_det _ _ _ _ _ _ _ N N') as (_ & _ & <-). eapply IH; [exact NX|exact L'|exact NX'|]. injection LEN as ->. reflexivity.
    + destruct (next_det _ _ _ _ _ _ _ N N') as (_ & F & _). discriminate F.
  - destruct L' as [s|s tx' t0' r' ts' rest' N' L'|s tx' r' ts' rest' N' L'].
    + destruct (next_det _ _ _ _ _ _ _ N NX') as (_ & F & _). discriminate F.
    + destruct (next_det _ _ _ _ _ _ _ N N') as (_ & F & _). discriminate F.
    + destruct (next_det _ _ _ _ _ _ _ N N') as (_ & _ & <-). eapply IH; eassumption.
Qed.

Lemma token_begins_unique s i off off' : token_begins s i off -> token_begins s i off' -> off = off'.
Proof.
  intros (ts & rest & text & t & r1 & L & LI & N & Q) (ts' & rest' & text' & t' & r1' & L' & LI' & N' & Q').
  assert (rest = rest') as <- by (eapply begins_unique; try eassumption; congruence). lia.
Qed.

(** * Reports *)

Lemma starts_with_split p s : starts_with p s = true <-> exists r, s = p ++ r.
Proof.
  revert s. induction p as [|x p IH]; intros s; cbn.
  - split; [intros _; exists s; reflexivity|reflexivity].
  - destruct s as [|y s]; [split; [discriminate|intros (r & E); discriminate]|].
    rewrite andb_true_iff, IH. split.
    + intros (E & r & ->). apply Ascii.eqb_eq in E as ->. exists r. reflexivity.
    + intros (r & E). injection E as -> ->. split; [apply Ascii.eqb_refl|exists r; reflexivity].
Qed.

Lemma strip_spec ws : Forall (fun w : str => w <> []) ws ->
  forall fuel s, List.length s <= fuel ->
  exists l, Forall (fun w => In w ws) l /\ s = List.concat l ++ strip fuel ws s
    /\ forall w r, In w ws -> strip fuel ws s <> w ++ r.
Proof.
  intros NE fuel. induction fuel as [|fuel IH]; intros s L; cbn [strip].
  - destruct s; [|cbn in L; lia]. exists []. split; [constructor|]. split; [reflexivity|].
    intros w r I E. rewrite Forall_forall in NE. symmetry in E. apply app_eq_nil in E as [-> _]. destruct (NE _ I eq_refl).
  - destruct (find (fun w => starts_with w s) ws) as [w|] eqn:F.
    + apply find_some in F as [I F]. apply starts_with_split in F as (r & ->).
      assert (w <> []) as NW by (rewrite Forall_forall in NE; apply NE, I).
      rewrite skipn_app, skipn_all, Nat.sub_diag, skipn_O. cbn [app].
      destruct (IH r) as (l & FL & E & NP).
      { rewrite app_length in L. destruct w; [congruence|]. cbn in L. lia. }
      exists (w :: l). split; [constructor; assumption|]. split; [|exact NP].
      cbn [List.concat]. rewrite <- app_assoc, <- E. reflexivity.
    + exists []. split; [constructor|]. split; [reflexivity|]. intros w r I E.
      pose proof (find_none _ _ F w I) as X. cbn beta in X.
      assert (starts_with w s = true) as Y by (apply starts_with_split; exists r; exact E). congruence.
Qed.

Lemma forallb_in a b : forallb (fun w => existsb (str_eqb w) b) a = true -> forall w, In w a -> In w b.
Proof.
  intros F w I. rewrite forallb_forall in F. specialize (F w I). apply existsb_exists in F as (v & IV & E).
  apply str_eqb_eq in E as ->. exact IV.
Qed.

Lemma spaces_same w : In w Located.white_chars <-> In w space_chars.
Proof. split; apply forallb_in; vm_compute; reflexivity. Qed.

Lemma concat_rev {A} (l : list (list A)) : rev (List.concat l) = List.concat (map (@rev A) (rev l)).
Proof.
  induction l as [|x l IH]; [reflexivity|]. cbn [List.concat rev]. rewrite rev_app_distr, IH, map_app, concat_app.
  cbn. rewrite app_nil_r. reflexivity.
Qed.

Lemma white_nonempty : Forall (fun w : str => w <> []) Located.white_chars.
Proof. vm_compute. repeat (constructor; [discriminate|]). constructor. Qed.

Lemma trim_trimmed s : trimmed s (trim s).
Proof.
  unfold trim. destruct (strip_spec _ white_nonempty (List.length s) s (Nat.le_refl _)) as (la & FA & EA & NA).
  set (s1 := strip (List.length s) Located.white_chars s) in *.
  assert (Forall (fun w : str => w <> []) (map (@rev ascii) Located.white_chars)) as NE2.
  { apply Forall_forall. intros w I. apply in_map_iff in I as (w0 & <- & I) . intros E.
    apply (f_equal (@rev ascii)) in E. rewrite rev_involutive in E. cbn in E.
    pose proof white_nonempty as W. rewrite Forall_forall in W. apply (W _ I E). }
  destruct (strip_spec _ NE2 (List.length s1) (rev s1)) as (lb & FB & EB & NB); [rewrite rev_length; lia|].
  set (s2 := strip (List.length s1) (map (@rev ascii) Located.white_chars) (rev s1)) in *.
  apply (f_equal (@rev ascii)) in EB. rewrite rev_involutive, rev_app_distr, concat_rev in EB.
  split.
  - exists (List.concat la), (List.concat (map (@rev ascii) (rev lb))). split; [|split].
    + exists la. split; [|reflexivity]. eapply Forall_impl; [|exact FA]. intros w I. apply spaces_same, I.
    + exists (map (@rev ascii) (rev lb)). split; [|reflexivity]. apply Forall_forall. intros w I.
      apply in_map_iff in I as (w0 & <- & I). apply in_rev in I. rewrite Forall_forall in FB. specialize (FB _ I).
      apply in_map_iff in FB as (w1 & <- & I1). rewrite rev_involutive. apply spaces_same, I1.
    + transitivity (List.concat la ++ s1); [exact EA|]. f_equal. exact EB.
  - intros w r I. apply spaces_same in I. split; intros E.
    + rewrite E in EB. rewrite <- app_assoc in EB. exact (NA w _ I EB).
    + apply (f_equal (@rev ascii)) in E. rewrite rev_involutive, rev_app_distr in E.
      apply (NB (rev w) (rev r)); [apply in_map, I|exact E].
Qed.

Lemma white_app a b : white a -> white b -> white (a ++ b).
Proof.
  intros (la & FA & ->) (lb & FB & ->). exists (la ++ lb). split; [apply Forall_app; auto|]. symmetry. apply concat_app.
Qed.

Lemma trimmed_again s t u : trimmed s t -> trimmed t u -> trimmed s u.
Proof.
  intros ((a & b & WA & WB & ->) & _) ((c & d & WC & WD & ->) & N). split; [|exact N].
  exists (a ++ c), (d ++ b). split; [apply white_app; assumption|]. split; [apply white_app; assumption|].
  rewrite <- !app_assoc. reflexivity.
Qed.

Lemma take_while_split {A} (f : A -> bool) s :
  exists r, s = take_while f s ++ r /\ Forall (fun x => f x = true) (take_while f s)
    /\ (r = [] \/ exists x r', r = x :: r' /\ f x = false).
Proof.
  induction s as [|x s (r & E & F & H)]; cbn.
  - exists []. auto.
  - destruct (f x) eqn:X.
    + exists r. split; [cbn; f_equal; exact E|]. split; [constructor; assumption|exact H].
    + exists (x :: s). split; [reflexivity|]. split; [constructor|]. right. eauto.
Qed.

Lemma not_nl_in s : Forall (fun x => not_nl x = true) s -> ~ In nl s.
Proof. intros F I. rewrite Forall_forall in F. specialize (F _ I). unfold not_nl in F. rewrite Ascii.eqb_refl in F. discriminate. Qed.

Lemma count_filter s : count_occ ascii_dec s nl = List.length (filter (fun c => Ascii.eqb c nl) s).
Proof.
  induction s as [|x s IH]; [reflexivity|]. cbn [count_occ filter]. destruct (ascii_dec x nl) as [->|N].
  - rewrite Ascii.eqb_refl. cbn [List.length]. f_equal. exact IH.
  - apply Ascii.eqb_neq in N. rewrite N. exact IH.
Qed.

Lemma filter_not_nl s : ~ In nl s -> filter (fun c => Ascii.eqb c nl) s = [].
Proof.
  induction s as [|x s IH]; intros N; [reflexivity|]. cbn [filter]. destruct (Ascii.eqb_spec x nl) as [->|NE].
  - destruct N. left. reflexivity.
  - apply IH. intros I. apply N. right. exact I.
Qed.

Lemma chars_count s : chars s = char_count s.
Proof.
  unfold chars, char_count. f_equal. apply filter_ext. intros c. cbv zeta.
  do 2 f_equal. destruct (N.ltb_spec (N_of_ascii c) 192), (N.leb_spec (N_of_ascii c) 191); reflexivity || lia.
Qed.

Lemma error_reported s sp msg :
  sp_from sp <= List.length s -> reported_at s (sp_from sp) msg (error_at_span s sp msg).
Proof.
  intros L. unfold error_at_span, line_col, first_line.
  set (before := firstn (sp_from sp) s).
  assert (List.length before = sp_from sp) as LB by (unfold before; rewrite firstn_length; lia).
  destruct (take_while_split not_nl (rev before)) as (ra & EA & FA & HA).
  destruct (take_while_split not_nl (skipn (sp_from sp) s)) as (below & EB & FB & HB).
  set (left := rev (take_while not_nl (rev before))) in *.
  set (right := take_while not_nl (skipn (sp_from sp) s)) in *.
  assert (before = rev ra ++ left) as EL.
  { unfold left. rewrite <- rev_app_distr, <- EA, rev_involutive. reflexivity. }
  exists (rev ra), left, right, below, (trim (trim (left ++ right))).
  split; [rewrite (app_assoc (rev ra)), <- EL, <- EB; symmetry; apply firstn_skipn|].
  split.
  { destruct HA as [->|(x & r & -> & X)]; [left; reflexivity|right]. exists (rev r). cbn [rev]. unfold not_nl in X.
    apply negb_false_iff, Ascii.eqb_eq in X as ->. reflexivity. }
  assert (~ In nl left) as NL.
  { unfold left. intros I. apply in_rev in I. revert I. apply not_nl_in, FA. }
  split; [exact NL|]. split; [apply not_nl_in, FB|].
  split.
  { destruct HB as [->|(x & r & -> & X)]; [left; reflexivity|right]. exists r. unfold not_nl in X.
    apply negb_false_iff, Ascii.eqb_eq in X as ->. reflexivity. }
  split; [rewrite <- EL; exact LB|].
  split; [eapply trimmed_again; apply trim_trimmed|].
  do 2 eexists. split; [|split; [|reflexivity]].
  - rewrite EL, filter_app, app_length, (filter_not_nl left NL). cbn [List.length]. rewrite Nat.add_0_r, <- count_filter.
    change (1 + ?n) with (S n). rewrite <- nat_N_Z. apply dec_of_N_spec.
  - rewrite chars_count. change (1 + ?n) with (S n). rewrite <- nat_N_Z. apply dec_of_N_spec.
Qed.
