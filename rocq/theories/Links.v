(** Authorisation URLs are what SpecLinks.v says (C49, C48, C50). *)
From Verif Require Import Base BaseLemmas Time Utf8 Base64 Url UrlLemmas Json Oracles Config Dump State Http Timers Server
  ConfigParse SpecConfig SpecBlocks SpecServer SpecLinks Steps Inv Reach Own Trace Pend Reads.

Lemma begins_with_iff p s : starts_with p (map ascii_lower s) = true <-> begins_with p s.
Proof. apply starts_with_iff. Qed.

Lemma set_port_written u p u' :
  set_port u p = Some u' ->
  u_scheme u' = u_scheme u /\ u_user u' = u_user u /\ u_host u' = u_host u
  /\ written_port (u_scheme u) p (u_port u')
  /\ u_path u' = u_path u /\ u_query u' = u_query u /\ u_frag u' = u_frag u.
Proof.
  unfold set_port. destruct (u_host u) as [[|c h]|]; try discriminate. intros E. injection E as <-. cbn.
  split; [reflexivity|]. split; [reflexivity|]. split; [reflexivity|]. split; [|auto].
  unfold written_port, default_port.
  destruct (str_eqb_spec (u_scheme u) $"http") as [S|S].
  - rewrite S. destruct p as [x|]; [|right; split; [reflexivity|intros [[_ X]|[_ X]]; discriminate]].
    destruct (N.eqb_spec x 80) as [->|N]; [left; auto|right]. split; [reflexivity|].
    intros [[_ X]|[X _]]; [congruence|discriminate].
  - destruct (str_eqb_spec (u_scheme u) $"https") as [S'|S'].
    + rewrite S'. destruct p as [x|]; [|right; split; [reflexivity|intros [[_ X]|[_ X]]; discriminate]].
      destruct (N.eqb_spec x 443) as [->|N]; [left; auto|right]. split; [reflexivity|].
      intros [[X _]|[_ X]]; [discriminate|congruence].
    + right. split; [destruct p; reflexivity|]. tauto.
Qed.

Lemma redirect_link_ok O act hp hsp r :
  account_redirect_uri O act hp hsp = Val r -> redirect_link O act hp hsp r.
Proof.
  unfold account_redirect_uri. destruct (negb _); [discriminate|]. intros E.
  destruct (o_url_parse O (a_redirect_uri act)) as [conf|] eqn:P; [|discriminate]. cbn [ok_or bind] in E.
  destruct (is_some hsp && starts_with $"https" (map ascii_lower (a_redirect_uri act))) eqn:B.
  - apply andb_true_iff in B as [B1 B2]. destruct (set_port conf hsp) as [u|] eqn:S; [|discriminate].
    injection E as <-. exists conf, hsp. split; [exact P|]. split.
    + left. split; [apply begins_with_iff, B2|]. split; [destruct hsp; discriminate|reflexivity].
    + apply set_port_written, S.
  - destruct (set_port conf hp) as [u|] eqn:S; [|discriminate].
    injection E as <-. exists conf, hp. split; [exact P|]. split.
    + right. split; [|reflexivity]. intros [X Y]. apply begins_with_iff in X. rewrite X in B.
      destruct hsp; [discriminate|congruence].
    + apply set_port_written, S.
Qed.

Lemma join_spaces s l : join $" " (s :: l) = s ++ flat_map (fun x => $" " ++ x) l.
Proof.
  revert s. induction l as [|x l IH]; intros s; [symmetry; apply app_nil_r|].
  change (join $" " (s :: x :: l)) with (s ++ $" " ++ join $" " (x :: l)). rewrite IH. reflexivity.
Qed.

Lemma auth_params_explicit act ch ru st :
  auth_params act ch ru st
  = [($"access_type", $"offline"); ($"code_challenge", ch); ($"code_challenge_method", $"S256");
     ($"client_id", a_client_id act); ($"redirect_uri", ru); ($"response_type", $"code"); ($"state", st)]
    ++ scope_params (a_scopes act) ++ a_auth_uri_fields act.
Proof.
  unfold auth_params. destruct (a_scopes act) as [|s l]; [reflexivity|]. rewrite join_spaces. reflexivity.
Qed.

Lemma auth_url_link O hp hsp act cvr st u :
  auth_url O hp hsp act cvr st u -> auth_link O act hp hsp cvr st u.
Proof.
  intros (ru & base & R & P & ->). exists base, ru. split; [exact P|]. split; [apply redirect_link_ok, R|].
  rewrite raw_pairs_extend, auth_params_explicit. cbn [extend_pairs u_scheme u_user u_host u_port u_path u_frag].
  repeat split; reflexivity.
Qed.

(** As decoded by a server that insists on UTF-8. *)
Lemma parse_raw_segments l :
  Forall (fun p => utf8_valid (fst p) = true /\ utf8_valid (snd p) = true) (map raw_segment l) ->
  map parse_segment l = map raw_segment l.
Proof.
  induction l as [|g l IH]; intros F; [reflexivity|]. cbn [map] in *. inversion F as [|? ? H F']; subst.
  rewrite IH by exact F'. f_equal. unfold parse_segment, raw_segment, form_decode in *.
  destruct (split_first "="%char g) as [[k v]|]; cbn [fst snd] in H; destruct H as [H1 H2].
  - rewrite !utf8_lossy_valid by assumption. reflexivity.
  - rewrite utf8_lossy_valid by assumption. reflexivity.
Qed.

Lemma query_is_raw u :
  Forall (fun p => utf8_valid (fst p) = true /\ utf8_valid (snd p) = true) (raw_pairs u) ->
  query_pairs u = raw_pairs u.
Proof. apply parse_raw_segments. Qed.

(** * Every URL handed out *)

Definition issued_ok (O : oracles) (hp hsp : option N) (t : list obs) (o : obs) : Prop :=
  match o with
  | OAuthUrl n u =>
      exists t0 req wu c act bs bv,
        t = t0 ++ [OClient req]
        /\ (req = $"refresh:" ++ wu ++ $" " ++ n \/ req = $"showtoken:" ++ wu ++ $" " ++ n)
        /\ config_at t0 = Some c /\ lookup n (c_accounts c) = Some act
        /\ auth_url O hp hsp act (b64_encode bv) (b64_encode bs) u
  | _ => True
  end.

Lemma reach_issued O w : reachable O w -> trace_all (issued_ok O (w_http w) (w_https w)) (w_trace w).
Proof.
  revert w. apply (reach_ind O).
  - intros e c hp hsp pk _ _. change (w_trace (init_world c hp hsp pk)) with ([] ++ [OConfig c]).
    apply trace_all_snoc; [apply trace_all_nil|exact Logic.I].
  - intros w l w' R I I' A IH S T.
    destruct T as [tid e p lk' p' os N C|tid e p w' N SY|https bytes P].
    + cbn [after_cs w_http w_https w_trace]. apply trace_all_app; [exact IH|]. intros a x b E. destruct x; try exact Logic.I.
      assert (In (OAuthUrl name u) os) as IO by (rewrite E; apply in_elt).
      destruct C; simpl in IO; try (destruct IO; fail);
        repeat (destruct IO as [IO|IO]; try discriminate IO); try contradiction.
      injection IO as <- <-. change (issued_ok O (w_http w) (w_https w) (w_trace w ++ a) (OAuthUrl (d_name e0) u0)).
      assert (a = [OClient req]) as -> by (destruct a as [|? [|? [|? ?]]]; try discriminate E; injection E as <- _; reflexivity).
      exists (w_trace w), req, wu, (lconfig (w_lk w)), act, (e_state_bytes e), (e_verifier_bytes e).
      split; [reflexivity|]. split; [tauto|]. split; [apply (reach_config_at _ _ R)|]. split; [assumption|].
      exists ru, base. split; [assumption|]. split; [assumption|reflexivity].
    + destruct SY; try (simpl; exact IH).
      destruct (tstep_ports _ _ _ _ (t_syn O w tid e _ _ N (s_do w tid e a k))) as [-> ->].
      rewrite do_action_trace. change (w_trace (set_thread w tid k)) with (w_trace w).
      apply trace_all_app; [exact IH|]. intros b x c E. destruct x; try exact Logic.I. exfalso.
      assert (In (OAuthUrl name u) (action_obs a)) as IO by (rewrite E; apply in_elt).
      assert (Forall (fun p => forall a, In a (chain p) -> match a with AEmit (OAuthUrl _ _) => False | _ => True end) (w_threads w)) as F.
      { clear - R. revert w R. apply (reach_ind O).
        - intros. repeat constructor; intros a [].
        - intros w l w' R I I' A F S T. eapply tstep_chain_inv; try eassumption.
          intros e p lk' p' os a C Ia. pose proof (csr_chain _ _ _ _ _ _ _ a C Ia) as X.
          destruct a; try exact Logic.I. destruct o; try exact Logic.I. exact X. }
      rewrite Forall_forall in F. specialize (F _ (nth_error_In _ _ N) a (or_introl eq_refl)).
      destruct a; simpl in IO; try destruct IO as [IO|[]]; try discriminate; try contradiction.
      subst o. exact F.
    + simpl. apply trace_all_snoc; [exact IH|exact Logic.I].
Qed.

(** C49 *)
Lemma issued_link O w t1 n u t2 :
  reachable O w -> w_trace w = t1 ++ OAuthUrl n u :: t2 ->
  exists t0 req wu c act bs bv,
    t1 = t0 ++ [OClient req]
    /\ (req = $"refresh:" ++ wu ++ $" " ++ n \/ req = $"showtoken:" ++ wu ++ $" " ++ n)
    /\ config_at t0 = Some c /\ lookup n (c_accounts c) = Some act
    /\ auth_link O act (w_http w) (w_https w) (b64_encode bv) (b64_encode bs) u.
Proof.
  intros R E. destruct (reach_issued O w R t1 _ t2 E) as (t0 & req & wu & c & act & bs & bv & H1 & H2 & H3 & H4 & H5).
  exists t0, req, wu, c, act, bs, bv. repeat (split; [assumption|]). apply auth_url_link, H5.
Qed.

(** C48: a hint given in an account block is never in the URL. *)
Lemma hint_dropped O name fs act t hp hsp cvr st u conf v :
  block_means O name fs act -> In (FLoginHint t) fs ->
  auth_link O act hp hsp cvr st u -> o_url_parse O (a_auth_uri act) = Some conf ->
  In ($"login_hint", v) (raw_pairs u) -> In ($"login_hint", v) (raw_pairs conf).
Proof.
  intros M I (conf' & r & P & _ & _ & _ & _ & _ & _ & _ & E) P' X.
  assert (conf' = conf) as -> by congruence. rewrite E in X. apply in_app_or in X as [X|X]; [exact X|exfalso].
  apply in_app_or in X as [X|X].
  - cbn in X. repeat (destruct X as [X|X]; [discriminate|]). exact X.
  - apply in_app_or in X as [X|X].
    + destruct (a_scopes act); [destruct X|]. destruct X as [X|[]]. discriminate.
    + exact (hint_not_in_fields _ _ _ _ _ _ M I X).
Qed.

(** * C50 *)

Lemma b64_chars bs c : In c (b64_encode bs) -> b64_alphabet c = true.
Proof. pose proof (b64_encode_alphabet bs) as H. rewrite forallb_forall in H. apply H. Qed.

Lemma b64_in_alphabet bs c :
  In c (b64_encode bs) ->
  In c $"ABCDEFGHIJKLMNOPQRSTUVWXYZabcdefghijklmnopqrstuvwxyz0123456789-_".
Proof.
  intros I. apply b64_chars in I.
  pose proof (byte_sweep (fun c => negb (b64_alphabet c)
    || existsb (Ascii.eqb c) $"ABCDEFGHIJKLMNOPQRSTUVWXYZabcdefghijklmnopqrstuvwxyz0123456789-_")
    ltac:(vm_compute; reflexivity) c) as H.
  cbv beta in H. rewrite I in H. change (negb true) with false in H. rewrite orb_false_l in H.
  apply existsb_exists in H as (x & Ix & E). apply Ascii.eqb_eq in E. subst x. exact Ix.
Qed.

Lemma b64_lengths bs :
  (List.length bs = 8 -> List.length (b64_encode bs) = 11)
  /\ (List.length bs = 64 -> List.length (b64_encode bs) = 86 /\ 43 <= 86 <= 128).
Proof.
  split; intros L; rewrite b64_encode_length, L; [reflexivity|]. split; [reflexivity|lia].
Qed.

Lemma b64_survives bs :
  form_encode (b64_encode bs) = b64_encode bs /\ form_decode (b64_encode bs) = b64_encode bs.
Proof.
  assert (form_encode (b64_encode bs) = b64_encode bs) as E.
  { apply form_encode_unreserved, forallb_forall. intros c I. apply alphabet_unreserved, (b64_chars bs), I. }
  split; [exact E|]. unfold form_decode. rewrite <- E at 1. rewrite form_encode_dec. apply utf8_lossy_valid.
  apply utf8_valid_ascii, forallb_forall. intros c I. apply alphabet_ascii, (b64_chars bs), I.
Qed.
