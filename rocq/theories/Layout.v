(** Texts lay out exactly the tokens the lexer finds (C79). *)
From Verif Require Import Base BaseLemmas ConfigLex ConfigParse SpecConfig SpecGrammar SpecLex LexLemmas Lexing SpecBlocks SpecLayout.
Local Open Scope list_scope.

Lemma lex_fuel_more k : forall s ts, lex_fuel k s = Some ts -> forall k', k <= k' -> lex_fuel k' s = Some ts.
Proof.
  induction k as [|k IH]; intros s ts E k' L.
  - destruct s; [|discriminate]. destruct k'; exact E.
  - destruct s as [|c s0]; [destruct k'; exact E|]. destruct k' as [|k']; [lia|].
    assert (c :: s0 <> []) as NE by discriminate. rewrite (lex_fuel_step k _ NE) in E. rewrite (lex_fuel_step k' _ NE).
    destruct (best_match rules (c :: s0) 0 RAny) as [n r].
    destruct (lex_fuel k (skipn n (c :: s0))) as [ts'|] eqn:F; [|discriminate].
    rewrite (IH _ _ F k') by lia. exact E.
Qed.

Lemma lex_next text rest r :
  text <> [] -> best_match rules (text ++ rest) 0 RAny = (List.length text, r) ->
  lex (text ++ rest) = match lex rest with
                       | Some ts => Some (match rule_token r text with Some t => t :: ts | None => ts end)
                       | None => None
                       end.
Proof.
  intros NE B. destruct (lex_total rest) as (ts & L). rewrite L. unfold lex in *.
  assert (exists k, List.length (text ++ rest) = S k /\ List.length rest <= k) as (k & -> & LK).
  { rewrite app_length. destruct text; [congruence|]. cbn. eexists. split; [reflexivity|lia]. }
  rewrite lex_fuel_step by (destruct text; [congruence|discriminate]). rewrite B.
  rewrite skipn_app, skipn_all, Nat.sub_diag, skipn_O. cbn [app]. rewrite (lex_fuel_more _ _ _ L k LK).
  rewrite firstn_app, firstn_all, Nat.sub_diag, firstn_O, app_nil_r. destruct (rule_token r text); reflexivity.
Qed.

Lemma lex_token t text rest r ts :
  text <> [] -> best_match rules (text ++ rest) 0 RAny = (List.length text, r) -> rule_token r text = Some t ->
  lex rest = Some ts -> lex (text ++ rest) = Some (t :: ts).
Proof. intros NE B T L. rewrite (lex_next _ _ _ NE B), L, T. reflexivity. Qed.

Lemma best_keep rs s len r : (forall r', In r' rs -> rule_len r' s <= len) -> best_match rs s len r = (len, r).
Proof.
  induction rs as [|r1 rs IH]; intros H; [reflexivity|]. cbn [best_match].
  destruct (Nat.ltb_spec len (rule_len r1 s)) as [K|K]; [pose proof (H r1 (or_introl eq_refl)); lia|].
  apply IH. intros r' I. apply H. right. exact I.
Qed.

(** White space. *)
Lemma white_ws c : white c <-> is_ws c = true.
Proof. unfold white. symmetry. apply is_ws_iff. Qed.

Lemma best_at_go before : forall r after s n len r0,
  rule_len r s = n -> len < n ->
  (forall r', In r' before -> rule_len r' s < n) -> (forall r', In r' after -> rule_len r' s <= n) ->
  best_match (before ++ r :: after) s len r0 = (n, r).
Proof.
  induction before as [|r1 before IH]; intros r after s n len r0 E P B A; cbn [app best_match].
  - rewrite E. destruct (Nat.ltb_spec len n) as [K|K]; [|lia]. apply best_keep, A.
  - pose proof (B r1 (or_introl eq_refl)) as B1.
    destruct (Nat.ltb_spec len (rule_len r1 s)) as [K|K]; apply IH; try assumption; intros r' I; apply B; right; exact I.
Qed.

Lemma best_at before r after s n :
  rules = before ++ r :: after -> rule_len r s = n -> 0 < n ->
  (forall r', In r' before -> rule_len r' s < n) -> (forall r', In r' after -> rule_len r' s <= n) ->
  best_match rules s 0 RAny = (n, r).
Proof. intros ->. apply best_at_go. Qed.

Lemma best_white c rest : white c -> best_match rules (c :: rest) 0 RAny = (S (m_ws rest), RWs).
Proof. intros [->|[->|[->| ->]]]; reflexivity. Qed.

(** First characters of rules' texts. *)
Lemma lit_head p t s c : In (RLit p t) rules -> (forall x, In x (map (hd " "%char) (flat_map (fun r => match r with RLit p _ => [p] | _ => [] end) rules)) -> x <> c) ->
  m_lit p (c :: s) = 0.
Proof.
  intros I H. assert (In p (flat_map (fun r => match r with RLit p _ => [p] | _ => [] end) rules)) as IP.
  { apply in_flat_map. exists (RLit p t). split; [exact I|left; reflexivity]. }
  assert (p <> []) as NE.
  { clear - I. unfold rules, kw_rule in I. cbn [In] in I. repeat (destruct I as [I|I]; [try discriminate I; injection I as <- <-; discriminate|]). destruct I. }
  specialize (H (hd " "%char p) (in_map _ _ _ IP)). unfold m_lit. destruct p as [|x p]; [congruence|]. cbn [hd] in H. cbn [starts_with].
  destruct (Ascii.eqb_spec x c); [congruence|reflexivity].
Qed.

Lemma take_drop_len {A} (f : A -> bool) s : s = take_while f s ++ drop_while f s.
Proof. exact (proj1 (take_while_hit f s)). Qed.

Lemma lex_white c rest : white c -> lex (c :: rest) = lex rest.
Proof.
  intros W. pose proof (best_white c rest W) as B. unfold m_ws in B.
  set (w := take_while is_ws rest) in *. set (d := drop_while is_ws rest).
  assert (rest = w ++ d) as E by (unfold w, d; apply take_drop_len).
  assert (lex (c :: rest) = lex d) as ->.
  { rewrite E in B |- *. change (c :: w ++ d) with ((c :: w) ++ d) in B |- *.
    rewrite (lex_next (c :: w) d RWs ltac:(discriminate) B). destruct (lex d); reflexivity. }
  destruct w as [|c2 w2] eqn:EW; [rewrite E; reflexivity|].
  assert (white c2) as W2.
  { apply white_ws. pose proof (proj2 (take_while_hit is_ws rest)) as F. fold w in F. rewrite EW in F. inversion F. assumption. }
  assert (best_match rules ((c2 :: w2) ++ d) 0 RAny = (List.length (c2 :: w2), RWs)) as B2.
  { cbn [app]. rewrite (best_white c2 (w2 ++ d) W2). f_equal. unfold m_ws. cbn [List.length]. f_equal.
    assert (take_while is_ws ((c2 :: w2) ++ d) = c2 :: w2) as T by (rewrite <- E; exact EW). cbn [app take_while] in T.
    rewrite (proj1 (white_ws c2) W2) in T. injection T as ->. reflexivity. }
  rewrite E. rewrite (lex_next (c2 :: w2) d RWs ltac:(discriminate) B2). destruct (lex d); reflexivity.
Qed.

Lemma best_comment x : best_match rules ($"//" ++ x) 0 RAny
  = (S (S (List.length (take_while (fun c => negb (Ascii.eqb c nl)) x))), RComment).
Proof. reflexivity. Qed.

Lemma no_nl body : ~ In nl body -> Forall (fun c => negb (Ascii.eqb c nl) = true) body.
Proof. intros N. apply Forall_forall. intros c I. destruct (Ascii.eqb_spec c nl) as [->|]; [contradiction|reflexivity]. Qed.

Lemma lex_comment body rest : ~ In nl body -> (rest = [] \/ exists r, rest = nl :: r) -> lex ($"//" ++ body ++ rest) = lex rest.
Proof.
  intros N R. assert (take_while (fun c => negb (Ascii.eqb c nl)) (body ++ rest) = body) as T.
  { apply take_while_ext; [apply no_nl, N|]. destruct R as [->|(r & ->)]; [exact I|reflexivity]. }
  pose proof (best_comment (body ++ rest)) as B. rewrite T in B. rewrite app_assoc in B |- *.
  rewrite (lex_next ($"//" ++ body) rest RComment ltac:(discriminate) B). destruct (lex rest); reflexivity.
Qed.

Lemma lex_filler f : filler f -> forall rest, lex (f ++ rest) = lex rest.
Proof.
  induction 1 as [|c s W _ IH|body s N _ IH]; intros rest; [reflexivity| |].
  - cbn [app]. rewrite lex_white by exact W. apply IH.
  - rewrite <- !app_assoc. rewrite lex_comment; [|exact N|right; eexists; reflexivity].
    cbn [app]. rewrite lex_white by (right; right; left; reflexivity). apply IH.
Qed.

Lemma lex_last f : last_filler f -> lex f = Some [].
Proof.
  intros [F|(g & body & F & N & ->)].
  - rewrite <- (app_nil_r f). rewrite lex_filler by exact F. reflexivity.
  - rewrite lex_filler by exact F. rewrite <- (app_nil_r body). rewrite lex_comment; [reflexivity|exact N|left; reflexivity].
Qed.

Lemma best_time s n c u rest : decimal s n -> time_unit c u ->
  best_match rules ((s ++ [c]) ++ rest) 0 RAny = (List.length (s ++ [c]), RTime).
Proof.
  intros D U. pose proof (decimal_digits _ _ D) as [NE F]. rewrite <- app_assoc, app_length, Nat.add_comm. cbn [app List.length Nat.add].
  destruct s as [|d s]; [congruence|]. assert (is_digit d = true) as DD by (inversion F; assumption).
  apply (best_at [] RTime (tl rules)); [reflexivity|apply (time_lexeme_match _ n c u); assumption|lia|intros r' []|].
  intros r' I. assert (In r' rules) as IR by (right; exact I).
  assert (forall x, is_digit x = false -> d <> x) as ND by (intros x Q ->; congruence).
  destruct r' as [| | |p t| | |]; cbn [rule_len].
  - rewrite (time_lexeme_match _ n c u) by assumption. lia.
  - unfold m_int. rewrite take_while_ext; [cbn; lia|exact F|]. exact (unit_not_digit _ _ U).
  - cbn [app m_string]. destruct (Ascii.eqb_spec d dquote); [subst; discriminate|lia].
  - cbn [app]. rewrite (lit_head p t _ d IR); [lia|]. intros x IX E. subst x.
    assert (forallb (fun x => negb (is_digit x)) (map (hd " "%char) (flat_map (fun r => match r with RLit p _ => [p] | _ => [] end) rules)) = true) as Q by (vm_compute; reflexivity).
    rewrite forallb_forall in Q. specialize (Q _ IX). rewrite DD in Q. discriminate.
  - unfold m_comment. cbn [app]. change (starts_with $"//" (d :: s ++ c :: rest)) with (Ascii.eqb "/"%char d && starts_with $"/" (s ++ c :: rest)). destruct (Ascii.eqb_spec "/"%char d); [subst; discriminate|]. cbn. lia.
  - unfold m_ws. cbn [app take_while]. destruct (is_ws d) eqn:W; [|cbn; lia]. apply is_ws_iff in W as [->|[->|[->| ->]]]; discriminate.
  - cbn. lia.
Qed.

Lemma starts_with_split p s : starts_with p s = true -> exists r, s = p ++ r.
Proof.
  revert s. induction p as [|x p IH]; intros s H; [exists s; reflexivity|].
  destruct s as [|y s]; [discriminate|]. cbn [starts_with] in H. apply andb_true_iff in H as [E H]. apply Ascii.eqb_eq in E. subst y.
  destruct (IH _ H) as (r & ->). exists r. reflexivity.
Qed.

Lemma best_kw k rest : (k = KwAuthUri -> forall r, rest <> $"_fields" ++ r) ->
  best_match rules (kw_text k ++ rest) 0 RAny = (List.length (kw_text k), kw_rule k).
Proof.
  intros H. destruct k; try reflexivity. specialize (H eq_refl).
  assert (m_lit $"auth_uri_fields" (kw_text KwAuthUri ++ rest) = 0) as Z.
  { unfold m_lit. change (starts_with $"auth_uri_fields" (kw_text KwAuthUri ++ rest)) with (starts_with $"_fields" rest).
    destruct (starts_with $"_fields" rest) eqn:S; [|reflexivity]. apply starts_with_split in S as (r & E). destruct (H r E). }
  apply (best_at (firstn 15 rules) (kw_rule KwAuthUri) (skipn 16 rules)); [reflexivity|reflexivity|vm_compute; lia| |].
  - intros r' I. cbn [firstn rules In] in I. repeat (destruct I as [<-|I]; [vm_compute; lia|]). destruct I.
  - intros r' I. cbn [skipn rules In] in I. destruct I as [<-|I]; [change (m_lit $"auth_uri_fields" (kw_text KwAuthUri ++ rest) <= List.length (kw_text KwAuthUri)); rewrite Z; lia|].
    repeat (destruct I as [<-|I]; [vm_compute; lia|]). destruct I.
Qed.

Lemma spelled_lex t text rest ts :
  spelled t text -> (text = $"auth_uri" -> forall r, rest <> $"_fields" ++ r) ->
  lex rest = Some ts -> lex (text ++ rest) = Some (t :: ts).
Proof.
  intros S H L.
  assert (forall p r, best_match rules (p ++ rest) 0 RAny = (List.length p, r) -> p <> [] -> rule_token r p = Some t -> lex (p ++ rest) = Some (t :: ts)) as K.
  { intros p r B NE T. exact (lex_token t p rest r ts NE B T L). }
  destruct S as [s (x & n & c & u & -> & D & U)|v| | | | | | | | |k s I];
    [|exact (lex_quote v rest ts L)|eapply K; [reflexivity|discriminate|reflexivity]..|].
  - eapply K; [apply (best_time x n c u); assumption|destruct x; discriminate|reflexivity].
  - assert (s = kw_text k) as ->.
    { cbn [In] in I. repeat (destruct I as [I|I]; [injection I as <- <-; reflexivity|]). destruct I. }
    eapply K; [apply best_kw; intros ->; apply H; reflexivity| |reflexivity]. clear. destruct k; discriminate.
Qed.

Lemma layout_lex ts s : laid_out ts s -> lex s = Some ts.
Proof.
  induction 1 as [f F|f t text rest ts F S H _ IH]; [apply lex_last, F|].
  rewrite lex_filler by exact F. apply spelled_lex; assumption.
Qed.

Lemma layout_proper ts s : laid_out ts s -> Forall proper ts.
Proof. induction 1 as [f F|f t text rest ts F S H _ IH]; constructor; [|exact IH]. destruct S; exact I. Qed.

Lemma layout_front f ts s : filler f -> laid_out ts s -> laid_out ts (f ++ s).
Proof.
  assert (forall f g, filler f -> filler g -> filler (f ++ g)) as APP.
  { intros f0 g F G. induction F as [|c s0 W _ IH|body s0 N _ IH]; [exact G|exact (fl_white c _ W IH)|].
    rewrite <- !app_assoc. exact (fl_comment body _ N IH). }
  intros F L. destruct L as [g G|g t text rest ts G S H L].
  - apply lo_end. destruct G as [G|(g0 & body & G & N & ->)]; [left; apply APP; assumption|].
    right. exists (f ++ g0), body. rewrite app_assoc. auto.
  - rewrite app_assoc. apply lo_token; auto.
Qed.

Lemma filler_tail c s : filler (c :: s) -> white c -> filler s.
Proof.
  intros F W. inversion F as [|c' s' W' F' E|body s' N F' E]; subst; [exact F'|].
  destruct W as [W|[W|[W|W]]]; discriminate W.
Qed.

Lemma layout_tail c ts s : laid_out ts (c :: s) -> white c -> laid_out ts s.
Proof.
  intros L W. remember (c :: s) as s0 eqn:E. destruct L as [g G|g t text rest ts G S H L].
  - subst g. apply lo_end. destruct G as [G|(g0 & body & G & N & E)]; [left; eapply filler_tail; eassumption|].
    right. destruct g0 as [|c0 g0].
    + destruct W as [W|[W|[W|W]]]; subst c; discriminate E.
    + injection E as <- ->. exists g0, body. split; [eapply filler_tail; eassumption|]. auto.
  - destruct g as [|c0 g].
    + exfalso. cbn [app] in E. destruct S as [x (y & n & u & v & -> & D & U)|v| | | | | | | | |k x I].
      * pose proof (decimal_digits _ _ D) as [NE F]. destruct y as [|d y]; [congruence|]. injection E as -> _.
        assert (is_digit c = true) as DD by (inversion F; assumption).
        destruct W as [W|[W|[W|W]]]; subst c; discriminate DD.
      * injection E as <- _. destruct W as [W|[W|[W|W]]]; discriminate W.
      * destruct W as [W|[W|[W|W]]]; subst c; discriminate E.
      * destruct W as [W|[W|[W|W]]]; subst c; discriminate E.
      * destruct W as [W|[W|[W|W]]]; subst c; discriminate E.
      * destruct W as [W|[W|[W|W]]]; subst c; discriminate E.
      * destruct W as [W|[W|[W|W]]]; subst c; discriminate E.
      * destruct W as [W|[W|[W|W]]]; subst c; discriminate E.
      * destruct W as [W|[W|[W|W]]]; subst c; discriminate E.
      * destruct W as [W|[W|[W|W]]]; subst c; discriminate E.
      * cbn [In] in I. destruct W as [W|[W|[W|W]]]; subst c; repeat (destruct I as [I|I]; [injection I as <- <-; discriminate E|]); destruct I.
    + cbn [app] in E. injection E as -> <-. apply lo_token; [eapply filler_tail; eassumption|assumption|assumption|assumption].
Qed.

Lemma lex_layout s ts : lexes s ts -> Forall proper ts -> laid_out ts s.
Proof.
  induction 1 as [|before r after text rest ts ER NE M MAX _ L IH]; intros P; [apply lo_end; left; constructor|].
  assert (In r lex_rules) as I by (rewrite ER; apply in_or_app; right; left; reflexivity). clear ER.
  assert (forall t, lr_token r text = Some t -> spelled t text -> (text = $"auth_uri" -> forall x, rest <> $"_fields" ++ x) ->
            laid_out (match lr_token r text with Some t => t :: ts | None => ts end) (text ++ rest)) as K.
  { intros t E S H. rewrite E in P |- *. inversion P as [|? ? P1 P2]. subst. apply (lo_token [] t text rest ts (fl_none) S H (IH P2)). }
  assert (text = $"auth_uri" -> forall x, rest <> $"_fields" ++ x) as AU.
  { intros ET x ERS. subst text rest.
    assert (In (lit $"auth_uri_fields" (TkKw KwAuthUriFields)) lex_rules) as I2 by (unfold lex_rules; do 16 right; left; reflexivity).
    specialize (MAX _ $"auth_uri_fields" x I2 eq_refl eq_refl). vm_compute in MAX. lia. }
  unfold lex_rules in I. cbn [In] in I.
  destruct I as [<-|I]; [exact (K _ eq_refl (sp_time _ M) AU)|].
  destruct I as [<-|I]; [exfalso; cbn in P; inversion P as [|? ? P1 _]; exact P1|].
  destruct I as [<-|I]; [destruct M as (v & ->); exact (K _ eq_refl (sp_string v) AU)|].
  do 8 (destruct I as [<-|I]; [cbn in M; subst text; exact (K _ eq_refl ltac:(constructor) AU)|]).
  do 21 (destruct I as [<-|I]; [cbn in M; subst text; refine (K _ eq_refl _ AU); constructor; cbn [In]; auto 25|]).
  destruct I as [<-|I].
  { destruct M as (body & -> & N & R). cbn [lr_token] in P |- *. specialize (IH P).
    destruct R as [->|(r' & ->)].
    - rewrite app_nil_r. assert (ts = []) as -> by (inversion L; [reflexivity|]; destruct text; [congruence|discriminate]).
      apply lo_end. right. exists [], body. split; [constructor|]. auto.
    - apply layout_tail in IH; [|right; right; left; reflexivity]. rewrite <- app_assoc.
      change ($"//" ++ body ++ nl :: r') with ($"//" ++ body ++ [nl] ++ r'). rewrite !app_assoc.
      apply layout_front; [|exact IH]. rewrite <- !app_assoc. exact (fl_comment body [] N fl_none). }
  destruct I as [<-|I].
  { cbn [lr_token lr_match] in *. apply layout_front; [|exact (IH P)]. clear - M.
    induction M as [|c s W _ IHM]; constructor; assumption. }
  destruct I as [<-|[]]. exfalso. cbn in P. inversion P as [|? ? P1 _]. exact P1.
Qed.

Lemma layout_iff s ts : Forall proper ts -> (lexes s ts <-> laid_out ts s).
Proof.
  intros P. split; [intros L; apply lex_layout; assumption|intros L; apply lex_iff, layout_lex, L].
Qed.
