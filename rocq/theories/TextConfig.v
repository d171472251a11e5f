(** A configuration read from text holds text. *)
From Verif Require Import Base BaseLemmas Time Utf8 Url UrlLemmas Oracles ConfigLex ConfigParse Config Located SpecGrammar
  ConfigParseProofs SpecConfig LexLemmas ConfigLemmas SpecLex Lexing SpecReport Places Locate State Server SpecDump SpecText Utf8Lemmas.

Ltac txt := repeat (apply utf8_app); try assumption; try reflexivity.

Definition token_txt (t : token) : Prop :=
  match t with TkString s => utf8 (unescape_str s) | _ => True end.

Lemma escape_utf8 v : forall p, utf8 (p ++ escape v) -> utf8 (p ++ v).
Proof.
  induction v as [|c v IH]; intros p H; [exact H|]. unfold escape in H. cbn [flat_map] in H. fold (escape v) in H. unfold escape_char in H.
  destruct (Ascii.eqb c dquote || Ascii.eqb c bslash) eqn:E.
  - assert (ascii7 c) as A.
    { apply orb_true_iff in E as [E|E]; apply Ascii.eqb_eq in E; subst c; reflexivity. }
    change (utf8 (p ++ bslash :: c :: escape v)) in H.
    destruct (utf8_cut _ _ _ H eq_refl) as [H1 H2]. destruct (utf8_cut [] _ _ H2 A) as [_ H3].
    apply utf8_app; [exact H1|]. apply utf8_cons; [exact A|]. apply (IH []), H3.
  - change (utf8 (p ++ [c] ++ escape v)) in H. rewrite app_assoc in H. apply IH in H. rewrite <- app_assoc in H. exact H.
Qed.

Lemma lexes_sub s ts : lexes s ts -> forall l, In (TkString l) ts -> exists p r, s = p ++ l ++ r.
Proof.
  intros L. induction L as [|before r after text rest ts RS NE M MX NB L IH]; intros l I; [destruct I|].
  assert (In (TkString l) ts -> exists p q, text ++ rest = p ++ l ++ q) as K.
  { intros J. destruct (IH l J) as (p & q & ->). exists (text ++ p), q. rewrite <- app_assoc. reflexivity. }
  destruct (lr_token r text) as [t|] eqn:T; [|apply K, I].
  destruct I as [->|I]; [|apply K, I].
  assert (In r lex_rules) as IR by (rewrite RS; apply in_or_app; right; left; reflexivity).
  assert (text = l) as ->.
  { unfold lex_rules in IR. cbn [In] in IR. unfold lit in IR.
    repeat (destruct IR as [<-|IR]; [cbn [lr_token] in T; try discriminate T; injection T as T; exact T|]). destruct IR. }
  exists [], rest. reflexivity.
Qed.

Lemma lexed_txt s ts : utf8 s -> lex s = Some ts -> Forall token_txt ts.
Proof.
  intros U L. apply Forall_forall. intros t I. destruct t as [t|t|l| | | | | | | | |k|]; try exact Logic.I.
  destruct (lexed_strings s ts l L I) as (v & -> & _). cbn [token_txt]. rewrite unescape_quote.
  apply lex_iff in L. destruct (lexes_sub _ _ L _ I) as (p & r & ->).
  unfold quote_string in U. cbn [app] in U.
  destruct (utf8_cut _ _ _ U eq_refl) as [_ U1]. rewrite <- app_assoc in U1. cbn [app] in U1.
  destruct (utf8_cut _ _ _ U1 eq_refl) as [U2 _]. apply (escape_utf8 v []), U2.
Qed.

(** * The syntax tree *)

Definition ustr (s : str) : Prop := utf8 (unescape_str s).

Definition field_txt (f : field) : Prop :=
  match f with
  | FRefreshAtLeast _ | FRefreshBeforeExpiry _ | FRefreshRetry _ => True
  | FAuthUri s | FClientId s | FClientSecret s | FLoginHint s | FRedirectUri s | FTokenUri s => ustr s
  | FScopes l => Forall ustr l
  | FAuthUriFields l => Forall (fun kv => ustr (fst kv) /\ ustr (snd kv)) l
  end.

Definition top_txt (t : toplevel) : Prop :=
  match t with
  | TLAccount n fs => ustr n /\ Forall field_txt fs
  | TLAuthNotifyCmd s | TLErrorNotifyCmd s | TLHttpListen s | TLHttpsListen s
  | TLTransientErrorIfCmd s | TLTokenEventCmd s => ustr s
  | _ => True
  end.

Lemma g_scopes_txt ts l : g_scopes ts l -> Forall token_txt ts -> Forall ustr l.
Proof.
  intros G. induction G as [ts l s G IH|s|]; intros F.
  - apply Forall_app in F as [F1 F2]. apply Forall_app. split; [auto|].
    rewrite Forall_forall in F2. constructor; [|constructor]. apply (F2 (TkString s)). simpl. auto.
  - inversion F; subst. constructor; [assumption|constructor].
  - constructor.
Qed.

Lemma g_uri_fields_txt ts l :
  g_uri_fields ts l -> Forall token_txt ts -> Forall (fun kv => ustr (fst kv) /\ ustr (snd kv)) l.
Proof.
  intros G. induction G as [ts l k v G IH|k v|]; intros F.
  - apply Forall_app in F as [F1 F2]. apply Forall_app. split; [auto|].
    rewrite Forall_forall in F2. constructor; [|constructor]. split.
    + apply (F2 (TkString k)). simpl. auto.
    + apply (F2 (TkString v)). simpl. auto.
  - rewrite Forall_forall in F. constructor; [|constructor]. split.
    + apply (F (TkString k)). simpl. auto.
    + apply (F (TkString v)). simpl. auto.
  - constructor.
Qed.

Lemma g_field_txt ts f : g_field ts f -> Forall token_txt ts -> field_txt f.
Proof.
  intros G F. destruct G as [s|ts l G|s|s|s|s|t|t|t|ts l G|s]; simpl; try exact Logic.I;
    try (rewrite Forall_forall in F; apply (F (TkString s)); simpl; auto; fail).
  - apply Forall_app in F as [_ F]. apply Forall_app in F as [F _]. eapply g_uri_fields_txt; eassumption.
  - apply Forall_app in F as [_ F]. apply Forall_app in F as [F _]. eapply g_scopes_txt; eassumption.
Qed.

Lemma g_fields_txt ts fs : g_fields ts fs -> Forall token_txt ts -> Forall field_txt fs.
Proof.
  intros G. induction G as [ts fs ts' f G IH G'|]; intros F; [|constructor].
  apply Forall_app in F as [F1 F2]. apply Forall_app. split; [auto|].
  constructor; [|constructor]. eapply g_field_txt; eassumption.
Qed.

Lemma g_toplevel_txt ts t : g_toplevel ts t -> Forall token_txt ts -> top_txt t.
Proof.
  intros G F. destruct G as [n ts fs G|s|s|t|s| |s| |s|s|t|t|t|s]; simpl; try exact Logic.I;
    try (rewrite Forall_forall in F; apply (F (TkString s)); simpl; auto; fail).
  split.
  - rewrite Forall_forall in F. apply (F (TkString n)). simpl. auto.
  - apply Forall_app in F as [_ F]. apply Forall_app in F as [F _]. eapply g_fields_txt; eassumption.
Qed.

Lemma g_toplevels_txt ts l : g_toplevels ts l -> Forall token_txt ts -> Forall top_txt l.
Proof.
  intros G. induction G as [ts fs ts' f G IH G'|]; intros F; [|constructor].
  apply Forall_app in F as [F1 F2]. apply Forall_app. split; [auto|].
  constructor; [|constructor]. eapply g_toplevel_txt; eassumption.
Qed.

(** * Account blocks *)

(** The value satisfies [P]; an error message is text. *)
Definition utf8_outcome {A} (P : A -> Prop) (o : outcome A) : Prop :=
  match o with Val x => P x | Err m => utf8 m | Panic => True end.

Lemma utf8_bind {A B} (P : A -> Prop) (Q : B -> Prop) (o : outcome A) (f : A -> outcome B) :
  utf8_outcome P o -> (forall x, P x -> utf8_outcome Q (f x)) -> utf8_outcome Q (bind o f).
Proof. destruct o; simpl; auto. Qed.

Lemma utf8_true {A} (o : outcome A) (P : A -> Prop) :
  (forall m, o = Err m -> utf8 m) -> (forall x, o = Val x -> P x) -> utf8_outcome P o.
Proof. destruct o; simpl; auto. Qed.

Lemma dup_utf8 n : utf8 n -> utf8 (dup_err n).
Proof. intros U. unfold dup_err, utf8. txt. Qed.

Lemma assigned_str_utf8 {T} n s (v : option T) : utf8 n -> ustr s -> utf8_outcome utf8 (check_not_assigned_str n s v).
Proof. intros N S. destruct v; simpl; [apply dup_utf8, N|exact S]. Qed.

Lemma assigned_uri_utf8 {T} O n s (v : option T) : utf8 n -> ustr s -> utf8_outcome utf8 (check_not_assigned_uri O n s v).
Proof.
  intros N S. destruct v; simpl; [apply dup_utf8, N|]. destruct (o_url_parse O (unescape_str s)) as [x|]; [|reflexivity].
  destruct (str_eqb (u_scheme x) $"http" || str_eqb (u_scheme x) $"https"); [exact S|reflexivity].
Qed.

Lemma assigned_utf8 {T} n (v : option T) : utf8 n -> utf8_outcome (fun _ => True) (check_not_assigned n v).
Proof. intros N. destruct v; simpl; [apply dup_utf8, N|exact Logic.I]. Qed.

Lemma duration_inner_utf8 t : utf8_outcome (fun _ => True) (time_inner t).
Proof.
  unfold time_inner. eapply utf8_bind with (P := fun _ => True).
  - unfold parse_u64. destruct (firstn _ t) as [|x l]; [reflexivity|].
    destruct (digits_val 0 (x :: l)) as [n|]; [|reflexivity]. destruct (n <? two64)%Z; reflexivity || exact Logic.I.
  - intros n _. destruct (rev t) as [|c r]; [exact Logic.I|]. apply utf8_bind with (P := fun _ => True); [|exact (fun _ _ => Logic.I)].
    assert (forall a b, utf8_outcome (fun _ => True) (checked_mul a b)) as CM.
    { intros a b. unfold checked_mul. destruct (a * b <? two64)%Z; [exact Logic.I|reflexivity]. }
    destruct (Ascii.eqb c "d"%char); [apply CM|]. destruct (Ascii.eqb c "h"%char); [apply CM|].
    destruct (Ascii.eqb c "m"%char); [apply CM|]. destruct (Ascii.eqb c "s"%char); exact Logic.I.
Qed.

Lemma duration_utf8 t : utf8_outcome (fun _ => True) (time_str_to_duration t).
Proof.
  pose proof (duration_inner_utf8 t) as D. unfold time_str_to_duration. destruct (time_inner t) as [z|m|]; [exact Logic.I| |exact Logic.I].
  exact (utf8_app $"Invalid time: " m eq_refl D).
Qed.

Lemma assigned_time_utf8 {T} n t (v : option T) (Q : Z -> Prop) :
  utf8 n -> (forall d, Q d) -> utf8_outcome Q (x <- check_not_assigned_time n t v ;; time_str_to_duration x).
Proof.
  intros N Qd. destruct v; simpl; [apply dup_utf8, N|].
  pose proof (duration_utf8 t) as D. destruct (time_str_to_duration t); simpl in *; auto.
Qed.

Lemma utf8_time {T B} n t (v : option T) (Q : B -> Prop) (f : Z -> outcome B) :
  utf8 n -> (forall d, utf8_outcome Q (f d)) ->
  utf8_outcome Q (x <- check_not_assigned_time n t v ;; d <- time_str_to_duration x ;; f d).
Proof.
  intros N F. destruct v; simpl; [apply dup_utf8, N|]. eapply utf8_bind; [apply duration_utf8|]. intros d _. apply F.
Qed.

Definition facc_txt (a : field_acc) : Prop :=
  opt_all utf8 (f_auth_uri a) /\ opt_all utf8_pairs (f_auth_uri_fields a) /\ opt_all utf8 (f_client_id a)
  /\ opt_all utf8 (f_client_secret a) /\ opt_all utf8 (f_redirect_uri a) /\ opt_all (Forall utf8) (f_scopes a)
  /\ opt_all utf8 (f_token_uri a).

Lemma opt_all_some {A} (P : A -> Prop) x : P x -> opt_all P (Some x).
Proof. intros H y [= <-]. exact H. Qed.

Lemma opt_all_none {A} (P : A -> Prop) : opt_all P None.
Proof. intros y [=]. Qed.

Lemma field_step_txt O a f : facc_txt a -> field_txt f -> utf8_outcome facc_txt (field_step O a f).
Proof.
  intros A F. destruct a as [au auf ci cs lh ru ral rbe rr sc tu].
  destruct A as (A1 & A2 & A3 & A4 & A5 & A6 & A7). cbn [f_auth_uri f_auth_uri_fields f_client_id f_client_secret f_redirect_uri f_scopes f_token_uri] in *.
  destruct f; cbn [field_step field_txt] in *;
    first
      [ eapply utf8_bind; [apply assigned_uri_utf8; [reflexivity|exact F]|]; intros x X;
        repeat split; try assumption; apply opt_all_some, X
      | eapply utf8_bind; [apply assigned_str_utf8; [reflexivity|exact F]|]; intros x X;
        repeat split; try assumption; apply opt_all_some, X
      | apply utf8_time; [reflexivity|]; intros d; repeat split; assumption
      | eapply utf8_bind; [apply assigned_utf8; reflexivity|]; intros x _; repeat split; try assumption;
        apply opt_all_some ].
  - unfold utf8_pairs. rewrite Forall_map. exact F.
  - rewrite Forall_map. exact F.
Qed.

Lemma fields_loop_txt O fs : forall a, facc_txt a -> Forall field_txt fs -> utf8_outcome facc_txt (fields_loop O a fs).
Proof.
  induction fs as [|f fs IH]; intros a A F; [exact A|]. inversion F as [|? ? F1 F2]. subst. cbn [fields_loop].
  eapply utf8_bind; [apply field_step_txt; eassumption|]. intros x X. apply IH; assumption.
Qed.

Lemma check_assigned_utf8 n (v : option str) : utf8 n -> opt_all utf8 v -> utf8_outcome utf8 (check_assigned n v).
Proof. intros N V. destruct v; simpl; [apply V; reflexivity|]. unfold utf8 in *. txt. Qed.

Lemma opt_default_all {A} (P : A -> Prop) d o : P d -> opt_all P o -> P (opt_default d o).
Proof. intros D V. destruct o; simpl; [apply V; reflexivity|exact D]. Qed.

Lemma from_fields_txt O n fs : utf8 n -> Forall field_txt fs -> utf8_outcome utf8_account (from_fields O n fs).
Proof.
  intros N F. unfold from_fields. eapply utf8_bind.
  { apply fields_loop_txt; [|exact F]. repeat split; apply opt_all_none. }
  intros a (A1 & A2 & A3 & A4 & A5 & A6 & A7). unfold fields_finish.
  eapply utf8_bind; [apply check_assigned_utf8; [reflexivity|exact A1]|]. intros au AU.
  eapply utf8_bind; [apply check_assigned_utf8; [reflexivity|exact A3]|]. intros ci CI.
  eapply utf8_bind; [apply check_assigned_utf8; [reflexivity|exact A7]|]. intros tu TU.
  match goal with |- context [if ?b then _ else _] => destruct b end; [reflexivity|].
  constructor; simpl; try assumption.
  - apply opt_default_all; [constructor|exact A2].
  - apply opt_default_all; [reflexivity|exact A5].
  - apply opt_default_all; [constructor|exact A6].
Qed.

(** * The whole file *)

Definition tacc_txt (a : top_acc) : Prop :=
  Forall (fun p => utf8 (fst p) /\ utf8_account (snd p)) (t_accounts a)
  /\ opt_all utf8 (t_auth_notify_cmd a) /\ opt_all utf8 (t_error_notify_cmd a)
  /\ opt_all (opt_all utf8) (t_http_listen a) /\ opt_all (opt_all utf8) (t_https_listen a)
  /\ opt_all utf8 (t_transient_error_if_cmd a) /\ opt_all utf8 (t_token_event_cmd a).

Lemma top_step_txt O a t : tacc_txt a -> top_txt t -> utf8_outcome tacc_txt (top_step O a t).
Proof.
  intros A F. destruct a as [acts anc ani enc hl hsl tei ral rbe rr tec].
  destruct A as (A1 & A2 & A3 & A4 & A5 & A6 & A7).
  cbn [t_accounts t_auth_notify_cmd t_error_notify_cmd t_http_listen t_https_listen t_transient_error_if_cmd t_token_event_cmd] in *.
  destruct t; cbn [top_step top_txt] in *; try reflexivity;
    try (apply utf8_time; [reflexivity|]; intros d; repeat split; assumption);
    try (eapply utf8_bind; [apply assigned_str_utf8; [reflexivity|exact F]|]; intros x X;
         repeat split; try assumption; repeat apply opt_all_some; exact X);
    try (eapply utf8_bind; [apply assigned_utf8; reflexivity|]; intros x _; repeat split; try assumption;
         apply opt_all_some, opt_all_none).
  destruct F as [F1 F2]. eapply utf8_bind; [apply from_fields_txt; eassumption|]. intros act AC.
  repeat split; try assumption. apply map_insert_forall; [split; assumption|exact A1].
Qed.

Lemma tops_loop_txt O ts : forall a, tacc_txt a -> Forall top_txt ts -> utf8_outcome tacc_txt (tops_loop O a ts).
Proof.
  induction ts as [|f fs IH]; intros a A F; [exact A|]. inversion F as [|? ? F1 F2]. subst. cbn [tops_loop].
  eapply utf8_bind; [apply top_step_txt; eassumption|]. intros x X. apply IH; assumption.
Qed.

Lemma redirect_checks_utf8 hl hsl l :
  Forall (fun p : str * account => utf8 (fst p)) l -> utf8_outcome (fun _ => True) (redirect_checks hl hsl l).
Proof.
  intros F. induction F as [|[n a] l X F IH]; [exact Logic.I|]. cbn [redirect_checks].
  eapply utf8_bind with (P := fun _ => True); [|intros _ _; exact IH]. unfold redirect_check. simpl in X. unfold utf8 in *.
  destruct (starts_with $"https" (a_redirect_uri a)).
  - destruct hsl as [[x|]|]; try exact Logic.I. simpl. unfold utf8.
    apply (utf8_app $"Account "); [reflexivity|]. apply utf8_app; [exact X|reflexivity].
  - destruct (starts_with $"http" (a_redirect_uri a)); [|exact Logic.I].
    destruct hl as [[x|]|]; try exact Logic.I. simpl. unfold utf8.
    apply (utf8_app $"Account "); [reflexivity|]. apply utf8_app; [exact X|reflexivity].
Qed.

Lemma hsort_forall {A} (f : A -> N) (P : A -> Prop) l : Forall P l -> Forall P (hsort f l).
Proof.
  rewrite !Forall_forall. intros F x I. apply hsort_in in I. apply F, I.
Qed.

Lemma tops_finish_txt h a : tacc_txt a -> utf8_outcome utf8_config (tops_finish h a).
Proof.
  intros (A1 & A2 & A3 & A4 & A5 & A6 & A7). unfold tops_finish.
  assert (Forall (fun p => utf8 (fst p) /\ utf8_account (snd p)) (hsort (fun p => h (fst p)) (t_accounts a))) as H
    by (apply hsort_forall, A1).
  set (L := hsort (fun p => h (fst p)) (t_accounts a)) in *. clearbody L.
  assert (utf8_outcome utf8_config
            match L with
            | [] => Err $"Must specify at least one account"
            | _ :: _ =>
                _ <- redirect_checks (t_http_listen a) (t_https_listen a) L ;;
                Val (mkConfig L (t_auth_notify_cmd a)
                 (opt_default auth_notify_interval_default (t_auth_notify_interval a))
                 (t_error_notify_cmd a)
                 (opt_default (Some listen_default) (t_http_listen a))
                 (opt_default (Some listen_default) (t_https_listen a))
                 (t_transient_error_if_cmd a) (t_refresh_at_least a)
                 (t_refresh_before_expiry a) (t_refresh_retry a) (t_token_event_cmd a))
            end) as K.
  { destruct L as [|x L]; [reflexivity|]. eapply utf8_bind with (P := fun _ => True).
    - apply redirect_checks_utf8. eapply Forall_impl; [|exact H]. intros p [X _]. exact X.
    - intros _ _. constructor; simpl; try assumption.
      + apply opt_default_all; [apply opt_all_some; reflexivity|exact A4].
      + apply opt_default_all; [apply opt_all_some; reflexivity|exact A5]. }
  destruct (t_http_listen a) as [[x|]|], (t_https_listen a) as [[y|]|]; try exact K. reflexivity.
Qed.

Lemma config_text O h s : utf8 s -> utf8_outcome utf8_config (config_from_str O h s).
Proof.
  intros U. unfold config_from_str. destruct (lex s) as [ts|] eqn:L; [|reflexivity].
  destruct (parse_tokens ts) as [l|] eqn:P; [|reflexivity].
  pose proof (lexed_txt _ _ U L) as F. apply parse_tokens_grammar in P. apply (g_toplevels_txt _ _ P) in F.
  unfold config_of_toplevels. eapply utf8_bind; [|intros a; apply tops_finish_txt].
  apply tops_loop_txt; [|exact F]. split; [constructor|]. repeat (split; [apply opt_all_none|]). apply opt_all_none.
Qed.

Lemma white_utf8 a : white a -> utf8 a.
Proof.
  intros (l & F & ->). induction F as [|w l I F IH]; [reflexivity|]. cbn [List.concat]. apply utf8_app; [|exact IH].
  assert (forallb utf8_valid space_chars = true) as A by (vm_compute; reflexivity).
  rewrite forallb_forall in A. apply A, I.
Qed.

Lemma digit_ascii7 c v : digit_of c v -> ascii7 c.
Proof.
  intros ([L H] & ->). unfold ascii7, between. rewrite N_ascii_embedding by lia. apply andb_true_iff. split; apply N.leb_le; lia.
Qed.

Lemma decimal_utf8 s n : decimal s n -> utf8 s.
Proof.
  intros D. induction D as [c v C|s n c v D IH C].
  - apply utf8_cons; [|reflexivity]. exact (digit_ascii7 _ _ C).
  - apply utf8_app; [exact IH|]. apply utf8_cons; [|reflexivity]. exact (digit_ascii7 _ _ C).
Qed.

Lemma report_utf8 s off reason report : utf8 s -> utf8 reason -> reported_at s off reason report -> utf8 report.
Proof.
  intros U R (above & left & right & below & code & ES & EA & _ & _ & EB & _ & ((a & b & WA & WB & ET) & _) & line & col & DL & DC & ->).
  assert (ascii7 nl) as N7 by reflexivity.
  assert (utf8 (left ++ right)) as UL.
  { assert (utf8 ((left ++ right) ++ below)) as U1.
    { rewrite <- app_assoc. destruct EA as [->|(x & ->)]; [rewrite ES in U; exact U|].
      rewrite ES, <- app_assoc in U. exact (proj2 (utf8_cut x nl _ U N7)). }
    destruct EB as [->|(x & ->)]; [rewrite app_nil_r in U1; exact U1|]. exact (proj1 (utf8_cut _ nl _ U1 N7)). }
  rewrite ET in UL. apply (utf8_trim a code b) in UL; [|apply white_utf8, WA|apply white_utf8, WB].
  apply (utf8_app $"Line "); [reflexivity|]. apply utf8_app; [exact (decimal_utf8 _ _ DL)|].
  apply (utf8_app $", column "); [reflexivity|]. apply utf8_app; [exact (decimal_utf8 _ _ DC)|].
  apply (utf8_app $":"); [reflexivity|]. apply utf8_app; [reflexivity|]. apply (utf8_app $"  "); [reflexivity|].
  apply utf8_app; [exact UL|]. apply utf8_app; [reflexivity|exact R].
Qed.

Lemma placed_utf8 s sp m : utf8 s -> utf8 m -> utf8 (error_at_span s sp m).
Proof.
  intros U M. destruct (le_lt_dec (sp_from sp) (List.length s)) as [L|L].
  - exact (report_utf8 _ _ _ _ U M (error_reported s sp m L)).
  - assert (error_at_span s sp m = error_at_span s (mkSpan (List.length s) (sp_to sp)) m) as ->.
    { unfold error_at_span, line_col, first_line. cbn [sp_from]. rewrite !skipn_all2, !firstn_all2 by lia. reflexivity. }
    refine (report_utf8 _ _ _ _ U M (error_reported s (mkSpan (List.length s) (sp_to sp)) m _)). reflexivity.
Qed.

Lemma located_text O h s : utf8 s -> utf8_outcome utf8_config (from_str O h s).
Proof.
  intros U. pose proof (config_text O h s U) as T. pose proof (from_str_same O h s) as S.
  destruct (config_from_str O h s) as [c|m|], (from_str O h s) as [c'|m'|]; cbn in S, T |- *; try tauto; [subst; exact T|].
  destruct S as [->|(sp & ->)]; [exact T|]. apply placed_utf8; assumption.
Qed.

Lemma config_path_text O e : utf8_outcome utf8_config (config_from_path O e).
Proof.
  unfold config_from_path. destruct (e_file e) as [s|]; [|reflexivity].
  destruct (utf8_valid s) eqn:U; [apply located_text, U|reflexivity].
Qed.
