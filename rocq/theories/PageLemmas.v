(** Proofs about what the browser is shown (C82). *)
From Verif Require Import Base BaseLemmas Time Utf8 Base64 Url Json Oracles Config Dump State Http Timers Server
  SpecHttp SpecServer SpecPages HttpLemmas StateLemmas Steps Inv Reach Own Trace Origin Pend Decide.

Lemma no_request O https bytes : parse_get O https bytes = None -> forall u, ~ get_request O https bytes u.
Proof. intros E u G. apply parse_get_iff in G. congruence. Qed.

(** * What is shown *)

Lemma start_shows O w https bytes :
  reachable O w -> exists lk' r k, http_start O w https bytes = Val (lk', do_all [AEmit (OHttpResp r)] k, [])
    /\ shown_page O w https bytes r.
Proof.
  intros R. pose proof (reach_inv _ _ R) as I. pose proof (inv_wf _ _ I) as W.
  unfold http_start. destruct (parse_get O https bytes) as [uri|] eqn:P.
  2:{ do 3 eexists. split; [reflexivity|]. apply sh_unreadable. exact (no_request O https bytes P). }
  apply parse_get_iff in P. unfold find_pair. destruct (lookup $"state" (query_pairs uri)) as [st|] eqn:L.
  2:{ do 3 eexists. split; [reflexivity|]. exact (sh_no_state O w https bytes uri P L). }
  destruct (act_id_matching_token_state (w_lk w) st) as [i|] eqn:M.
  2:{ do 3 eexists. split; [reflexivity|]. apply (sh_unknown O w https bytes uri st P L).
      intros n (cvr & ln & u & e0 & H & _ & T). unfold act_id_matching_token_state in M.
      destruct (find _ (details (w_lk w))) as [e1|] eqn:F; [discriminate M|].
      apply (find_none _ _ F) in H. rewrite T, str_eqb_refl in H. discriminate H. }
  apply state_some in M as (e0 & cvr & ln & u & H & <- & T).
  destruct (get_account O w I e0 H) as (act & AC & NA & CA). rewrite CA. cbn [bind].
  assert (awaits w (d_name e0) st) as AW by (exists cvr, ln, u, e0; repeat split; assumption).
  destruct (account_redirect_uri O act (w_http w) (w_https w)) as [ru|m|] eqn:RU; cbn [bind].
  2:{ exfalso. exact (redirect_known O w e0 cvr ln st u act m R H T AC RU). }
  2:{ exfalso. exact (redirect_uri_no_panic O w I act RU). }
  match goal with |- context [negb ?b] => destruct b eqn:B end; cbn [negb].
  2:{ do 3 eexists. split; [reflexivity|]. apply (sh_elsewhere O w https bytes uri st (d_name e0) act ru); try assumption.
      intros SO. apply same_origin_dec in SO. congruence. }
  apply same_origin_dec in B.
  destruct (lookup $"error" (query_pairs uri)) as [reason|] eqn:ER.
  { rewrite (tokenstate_replace_in _ _ _ W H). cbn [bind].
    pose proof (ct_account_new 0 (w_lk w) e0 TSEmpty act W H AC) as CN. rewrite N.add_0_r in CN. rewrite CN. cbn [bind].
    do 3 eexists. split; [reflexivity|].
    apply (sh_refused O w https bytes uri st (d_name e0) act ru reason); assumption. }
  destruct (lookup $"code" (query_pairs uri)) as [code|] eqn:CO.
  2:{ do 3 eexists. split; [reflexivity|]. apply (sh_useless O w https bytes uri st (d_name e0) act ru); assumption. }
  rewrite (ct_tokenstate_in _ _ W H), T. cbn [bind]. do 3 eexists. split; [reflexivity|].
  apply (sh_code O w https bytes uri st (d_name e0) act ru code); assumption.
Qed.

Lemma browser_shown O w tid e https bytes :
  reachable O w -> w_alive w = true -> nth_error (w_threads w) tid = Some (PHttpStart https bytes) ->
  exists lk' r k, step O w (LTick tid e) = SNext (set_thread (set_lk w lk') tid (do_all [AEmit (OHttpResp r)] k))
    /\ shown_page O w https bytes r.
Proof.
  intros R A N. destruct (start_shows O w https bytes R) as (lk' & r & k & E & S). exists lk', r, k.
  split; [|exact S]. rewrite (http_val O w tid e https bytes _ _ _ A N E), emit_nil. reflexivity.
Qed.

(** * Nothing else is shown *)

Lemma shows_one O w https bytes r1 r2 :
  (forall n m st, awaits w n st -> awaits w m st -> n = m) ->
  shown_page O w https bytes r1 -> shown_page O w https bytes r2 -> r1 = r2.
Proof.
  intros U S1 S2.
  assert (forall u v, get_request O https bytes u -> get_request O https bytes v -> u = v) as GU.
  { intros u v G1 G2. apply parse_get_iff in G1, G2. congruence. }
  destruct S1 as [N1|u1 G1 L1|u1 st1 G1 L1 X1|u1 st1 n1 a1 ru1 G1 L1 A1 C1 R1 O1|u1 st1 n1 a1 ru1 re1 G1 L1 A1 C1 R1 O1 E1
                 |u1 st1 n1 a1 ru1 G1 L1 A1 C1 R1 O1 E1 D1|u1 st1 n1 a1 ru1 c1 G1 L1 A1 C1 R1 O1 E1 D1];
  destruct S2 as [N2|u2 G2 L2|u2 st2 G2 L2 X2|u2 st2 n2 a2 ru2 G2 L2 A2 C2 R2 O2|u2 st2 n2 a2 ru2 re2 G2 L2 A2 C2 R2 O2 E2
                 |u2 st2 n2 a2 ru2 G2 L2 A2 C2 R2 O2 E2 D2|u2 st2 n2 a2 ru2 c2 G2 L2 A2 C2 R2 O2 E2 D2];
  try reflexivity;
  try (exfalso; eapply N1; eassumption); try (exfalso; eapply N2; eassumption);
  assert (u1 = u2) as -> by (apply GU; assumption);
  try (exfalso; congruence);
  assert (st1 = st2) as -> by congruence;
  try (exfalso; eapply X1; eassumption); try (exfalso; eapply X2; eassumption);
  assert (n1 = n2) as -> by (eapply U; eassumption);
  unfold configured in *; assert (a1 = a2) as -> by congruence; assert (ru1 = ru2) as -> by congruence;
  exfalso; first [congruence | contradiction].
Qed.

(** * In the whole history *)

Definition pages : list str := [bad_request; not_found; page_unknown; page_processing].

Definition page_action (a : action) : Prop :=
  match a with AEmit (OHttpResp r) => In r pages | _ => True end.

Lemma csr_page O w e p lk' p' os a : csr O w e p lk' p' os -> In a (chain p') -> page_action a.
Proof.
  intros C I. pose proof (csr_chain O w e p lk' p' os a C I) as X.
  destruct a; try exact Logic.I. destruct o; try exact Logic.I. destruct X as (h0 & b0 & ->).
  inversion C; subst; cbn [chain respond In] in I;
    repeat match goal with H : _ \/ _ |- _ => destruct H as [H|H] end; try contradiction; try discriminate;
    match goal with H : AEmit _ = AEmit _ |- _ => injection H as <- end; simpl;
    repeat match goal with H : In _ _ |- _ => destruct H as [<-|H] end; try contradiction; auto.
Qed.

Lemma csr_no_page O w e p lk' p' os r : csr O w e p lk' p' os -> ~ In (OHttpResp r) os.
Proof.
  intros C. inversion C; subst; cbn [In]; try tauto; intuition discriminate.
Qed.

Lemma reach_page_chain O w : reachable O w -> Forall (fun p => forall a, In a (chain p) -> page_action a) (w_threads w).
Proof.
  revert w. apply (reach_ind O).
  - intros. repeat constructor; intros a [].
  - intros w l w' R I I' A F S T. eapply tstep_chain_inv; try eassumption.
    intros e p lk' p' os a C Ia. exact (csr_page _ _ _ _ _ _ _ _ C Ia).
Qed.

Lemma only_pages O w : reachable O w -> forall r, In (OHttpResp r) (w_trace w) -> In r pages.
Proof.
  revert w. apply (reach_ind O (fun w => forall r, In (OHttpResp r) (w_trace w) -> In r pages)).
  - intros e c hp hsp pk _ _ r [H|[]]. discriminate H.
  - intros w l w' R I I' A IH S T r H.
    destruct T as [tid e p lk' p' os N C|tid e p w' N SY|https bytes P].
    + cbn [after_cs w_trace] in H. apply in_app_or in H as [H|H]; [exact (IH r H)|].
      exfalso. exact (csr_no_page _ _ _ _ _ _ _ r C H).
    + destruct SY; try (apply (IH r); exact H).
      rewrite do_action_trace in H. apply in_app_or in H as [H|H]; [exact (IH r H)|].
      pose proof (reach_page_chain _ _ R) as F. rewrite Forall_forall in F.
      specialize (F _ (nth_error_In _ _ N) a (or_introl eq_refl)).
      destruct a; simpl in H; try contradiction; destruct H as [H|[]]; try discriminate H. subst o. exact F.
    + simpl in H. apply in_app_or in H as [H|[H|[]]]; [exact (IH r H)|discriminate H].
Qed.

(** * Well-formedness *)

Lemma page_ok text : http_response (page text).
Proof.
  exists $"HTTP/1.1 200 OK", [], ($"<html><body><h2>" ++ text ++ $"</h2></body></html>").
  split; [reflexivity|]. split; [|constructor].
  exists "2"%char, "0"%char, "0"%char, $"OK". split; [reflexivity|]. split.
  - constructor; [vm_compute; auto 12|]. constructor; [vm_compute; auto 12|]. constructor; [vm_compute; auto 12|constructor].
  - split; vm_compute; intuition discriminate.
Qed.

Lemma bare_status_bad a b c body : ~ http_response (response [a; b; c] body).
Proof.
  intros (l & fs & body' & E & (x & y & z & reason & -> & _) & _).
  unfold response in E. cbn [lit list_ascii_of_string app] in E.
  injection E. intros. discriminate.
Qed.
