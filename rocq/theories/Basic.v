(** Account versions, reloads, and what one account's business does to others
    (C02, C03, C05, C06, C08, C13). *)
From Verif Require Import Base BaseLemmas Time Utf8 Base64 Url UrlLemmas Json Oracles Config Dump State Http
  Timers Server StateLemmas ConfigLemmas SpecServer Steps Inv Reach Own Trace Origin Reply Shown Pend.

Lemma will_do_chain p : will_do p = chain p.
Proof. induction p; simpl; congruence. Qed.

(** * C06 *)

Lemma id_identifies O w1 w2 w3 e1 e3 :
  reachable O w1 -> steps O w1 w2 -> steps O w2 w3 ->
  has (w_lk w1) e1 -> has (w_lk w3) e3 -> d_id e1 = d_id e3 ->
  e1 = e3 /\ has (w_lk w2) e1.
Proof.
  intros R1 S12 S23 H1 H3 E.
  assert (reachable O w2) as R2 by (eapply steps_reachable; eassumption).
  pose proof (inv_wf _ _ (reach_inv _ _ R1)) as W1.
  pose proof (steps_evolves _ _ _ R1 S12) as EV12. pose proof (steps_evolves _ _ _ R2 S23) as EV23.
  pose proof (wf_entry_count _ _ W1 H1) as L1.
  assert (has (w_lk w2) e3) as H2 by (apply EV23; [exact H3|destruct EV12; lia]).
  assert (has (w_lk w1) e3) as H13 by (apply EV12; [exact H2|lia]).
  assert (e1 = e3) as -> by (apply (wf_id_inj (w_lk w1)); assumption). auto.
Qed.

Lemma ids_distinct O w : reachable O w -> NoDup (act_ids (w_lk w)).
Proof. intros R. apply wf_ids, (inv_wf O), reach_inv, R. Qed.

(** * C05 *)

Fixpoint idle (lk : locked) (i : account_id) (p : pc) : Prop :=
  match p with
  | PDo _ k => idle lk i k
  | PDone | PHttpNotify _ _ _ => True
  | _ => work_id p = Some i
  end.

Lemma idle_work lk i p : work_id p = Some i -> idle lk i p.
Proof. induction p; simpl; auto; discriminate. Qed.

Lemma idle_emit_none lk lk' i p : idle lk i p -> idle lk' i p.
Proof. induction p; simpl; auto. Qed.

Lemma csr_idle O w e p lk' p' os i :
  csr O w e p lk' p' os -> idle (w_lk w) i p -> (forall e0, has (w_lk w) e0 -> d_id e0 <> i) ->
  lk' = w_lk w /\ idle lk' i p'.
Proof.
  intros C ID ST.
  destruct C; simpl in ID; try discriminate; try (split; [reflexivity|]; simpl; auto; fail);
    try (exfalso; injection ID as ID; match goal with H : has (w_lk w) ?e0 |- _ => exact (ST e0 H ID) end).
  - split; [reflexivity|]. destruct (e_post e) as [b|m|c b|k m]; simpl; auto. destruct (is_transient k); exact ID.
  - split; [reflexivity|]. unfold ref_body_next. destruct (o_json O body) as [v|m]; [|exact ID].
    destruct (json_str $"error" v); [exact ID|].
    destruct (json_str $"access_token" v); [|exact ID].
    destruct (json_u64 $"expires_in" v); [|exact ID].
    destruct (json_str $"token_type" v) as [ty|]; [|exact ID].
    destruct (str_eqb ty $"Bearer"); exact ID.
  - split; [reflexivity|]. destruct (e_post e) as [b|m|c b|k m]; simpl; auto. destruct tries as [|[|t]]; simpl; auto.
  - split; [reflexivity|]. destruct wa; simpl; auto.
  - split; [reflexivity|]. destruct wa; simpl; auto.
Qed.

Lemma label_tid l tid : (exists e, l = LTick tid e) \/ (forall e, l <> LTick tid e).
Proof.
  destruct l as [t e|h b]; [|right; discriminate].
  destruct (Nat.eq_dec t tid) as [->|NE]; [left; eauto|right; intros e' [= -> _]; congruence].
Qed.

(** The thread keeps doing nothing to the state. *)
Lemma idle_step O w l w' tid i p :
  reachable O w -> tstep O w l w' -> (i < account_count (w_lk w))%N ->
  (forall e0, has (w_lk w) e0 -> d_id e0 <> i) ->
  nth_error (w_threads w) tid = Some p -> idle (w_lk w) i p ->
  (i < account_count (w_lk w'))%N /\ (forall e0, has (w_lk w') e0 -> d_id e0 <> i)
  /\ (exists p', nth_error (w_threads w') tid = Some p' /\ idle (w_lk w') i p')
  /\ (forall e, l = LTick tid e -> w_lk w' = w_lk w).
Proof.
  intros R T LT ST N ID. destruct (tstep_ok _ _ _ _ (reach_inv _ _ R) T) as [_ EV].
  split; [destruct EV; lia|]. split.
  { intros e0 H0 E0. destruct (proj2 EV e0 H0) as [K _]; [lia|]. exact (ST e0 K E0). }
  destruct (label_tid l tid) as [[e ->]|NE].
  - inversion T as [tid' e' p0 lk' p' os N' C|tid' e' p0 w2 N' SY|]; subst.
    + rewrite N in N'. injection N' as <-. destruct (csr_idle _ _ _ _ _ _ _ _ C ID ST) as [-> ID'].
      split; [|reflexivity]. exists p'. split; [|exact ID']. simpl. eapply nth_list_set_same. exact N.
    + rewrite N in N'. injection N' as <-.
      destruct SY; simpl in ID; try discriminate.
      split; [|intros ? _; destruct a; reflexivity]. exists k.
      split; [|destruct a; exact (idle_emit_none _ _ _ _ ID)].
      pose proof (nth_list_set_same _ k _ _ N) as NS.
      destruct a; simpl; try exact NS. rewrite nth_error_app1; [exact NS|].
      apply nth_error_Some. congruence.
  - split; [|intros e ->; exfalso; apply (NE e); reflexivity].
    exists p. split; [eapply tstep_other; eassumption|]. eapply idle_emit_none. exact ID.
Qed.

Lemma idle_steps O w w' tid i :
  reachable O w -> steps O w w' -> (i < account_count (w_lk w))%N ->
  (forall e0, has (w_lk w) e0 -> d_id e0 <> i) ->
  (exists p, nth_error (w_threads w) tid = Some p /\ idle (w_lk w) i p) ->
  reachable O w' /\ (i < account_count (w_lk w'))%N /\ (forall e0, has (w_lk w') e0 -> d_id e0 <> i)
  /\ (exists p, nth_error (w_threads w') tid = Some p /\ idle (w_lk w') i p).
Proof.
  intros R S. induction S as [w|w1 l w2 w3 S IH E]; intros LT ST P; [auto|].
  destruct (IH R LT ST P) as (R2 & LT2 & ST2 & p2 & N2 & ID2).
  destruct (step_ok _ _ _ _ (reach_inv _ _ R2) E) as (_ & _ & T & _).
  destruct (idle_step _ _ _ _ _ _ _ R2 T LT2 ST2 N2 ID2) as (LT3 & ST3 & P3 & _).
  split; [eapply reach_step; eassumption|auto].
Qed.

Lemma outdated_no_effect O w0 wm w1 w2 w3 tid p1 i n ts0 act e :
  reachable O w0 -> steps O w0 wm -> steps O wm w1 -> steps O w1 w2 ->
  In (mkEntry n i ts0) (details (w_lk w0)) -> configured w0 n act ->
  (holds wm n ts0 -> forall act', configured wm n act' -> ~ same_security act' act) ->
  nth_error (w_threads w1) tid = Some p1 -> work_id p1 = Some i ->
  step O w2 (LTick tid e) = SNext w3 -> w_lk w3 = w_lk w2.
Proof.
  intros R0 S0m Sm1 S12 H0 A0 CH N1 W1 ST.
  assert (reachable O wm) as Rm by (eapply steps_reachable; eassumption).
  assert (reachable O w1) as R1 by (eapply steps_reachable; eassumption).
  pose proof (steps_evolves _ _ _ R0 S0m) as EV0. pose proof (steps_evolves _ _ _ Rm Sm1) as EV1.
  pose proof (wf_entry_count _ _ (inv_wf _ _ (reach_inv _ _ R0)) H0) as LT. simpl in LT.
  assert (forall e0, has (w_lk w1) e0 -> d_id e0 <> i) as STL.
  { intros e0 H1 E1.
    assert (has (w_lk wm) e0) as Hm by (apply EV1; [exact H1|destruct EV0; lia]).
    destruct (proj2 EV0 e0 Hm) as [H00 (a & a' & A & A' & SE)]; [lia|].
    assert (e0 = mkEntry n i ts0) as -> by (apply (wf_id_inj (w_lk w0)); auto; apply (inv_wf O), reach_inv, R0).
    simpl in *. apply (CH (ex_intro _ _ (conj Hm (conj eq_refl eq_refl))) a' A').
    unfold configured, account_of in *. rewrite A0 in A. injection A as <-. apply secure_eq_same. exact SE. }
  assert (i < account_count (w_lk w1))%N as LT1 by (destruct EV0, EV1; lia).
  assert (idle (w_lk w1) i p1) as ID1 by (apply idle_work; exact W1).
  destruct (idle_steps O w1 w2 tid i R1 S12 LT1 STL (ex_intro _ p1 (conj N1 ID1)))
    as (R2 & LT2 & ST2 & p2 & N2 & ID2).
  destruct (step_ok _ _ _ _ (reach_inv _ _ R2) ST) as (_ & _ & T & _).
  eapply (idle_step _ _ _ _ _ _ _ R2 T LT2 ST2 N2 ID2). reflexivity.
Qed.

(** * C02, C03 *)

Lemma main_step O w e req :
  reachable O w -> w_alive w = true -> nth_error (w_threads w) 0 = Some PMain -> e_client e = Some req ->
  step O w (LTick 0 e) = run_cs (emit w [OClient req]) 0 PMain (request O e w req).
Proof. intros R A N EC. unfold step. rewrite A, N. simpl. rewrite EC. reflexivity. Qed.

Lemma reload_request O w e : request O e w $"reload:" = req_reload O e w $"reload:".
Proof. reflexivity. Qed.

Lemma holds_fun O w n ts ts' : reachable O w -> holds w n ts -> holds w n ts' -> ts = ts'.
Proof.
  intros R (e & H & E & <-) (e' & H' & E' & <-). f_equal.
  apply (wf_name_inj (w_lk w)); try assumption; [apply (inv_wf O), reach_inv, R|congruence].
Qed.

Lemma configured_holds O w n act : reachable O w -> configured w n act -> exists ts, holds w n ts.
Proof.
  intros R C. pose proof (inv_wf _ _ (reach_inv _ _ R)) as W.
  assert (In n (names (w_lk w))) as I by (rewrite (wf_names _ W); eapply lookup_in_keys; exact C).
  apply in_map_iff in I as (e & E & H). exists (d_ts e), e. auto.
Qed.

Lemma holds_configured O w n ts : reachable O w -> holds w n ts -> exists act, configured w n act /\ a_name act = n.
Proof.
  intros R (e & H & <- & _). destruct (wf_account _ _ (inv_wf _ _ (reach_inv _ _ R)) H) as (a & A & N).
  exists a. auto.
Qed.

Lemma reload_ok O w e c :
  reachable O w -> w_alive w = true -> nth_error (w_threads w) 0 = Some PMain ->
  e_client e = Some $"reload:" -> config_from_path O e = Val c ->
  exists lk',
    step O w (LTick 0 e) =
      SNext (emit (set_thread (set_lk w lk') 0
                     (do_all [ASigNotifier; ASigRefresher; AEmit (OReply $"reload:" $"ok:")] PMain))
               [OClient $"reload:"; OConfig c])
    /\ lconfig lk' = c
    /\ (forall n ts, holds (set_lk w lk') n ts <->
         exists a', lookup n (c_accounts c) = Some a' /\
           ((exists a, configured w n a /\ same_security a a' /\ holds w n ts)
            \/ ((forall a, configured w n a -> ~ same_security a a') /\ ts = TSEmpty)))
    /\ (forall n i ts a a', In (mkEntry n i ts) (details (w_lk w)) -> configured w n a ->
         lookup n (c_accounts c) = Some a' -> same_security a a' -> In (mkEntry n i ts) (details lk')).
Proof.
  intros R A N EC CF. pose proof (reach_inv _ _ R) as I. pose proof (inv_wf _ _ I) as W.
  rewrite (main_step _ _ _ _ R A N EC), reload_request. unfold req_reload. rewrite CF.
  destruct (update_conf_total (w_lk w) c W) as [lk' U]. rewrite U. cbn [bind run_cs].
  exists lk'. split.
  { unfold emit, set_thread, set_lk, reply. cbn. rewrite <- app_assoc. reflexivity. }
  assert (conf_ok O c) as CO by (eapply config_from_path_ok; exact CF).
  destruct (update_conf_spec _ _ _ W (co_wf _ _ CO) U) as (W' & EV & LC & K).
  split; [exact LC|]. split.
  2:{ intros n i ts a a' H0 A0 A' SS. unfold configured in A0.
      assert (In n (names lk')) as IN by (rewrite (wf_names _ W'), LC; eapply lookup_in_keys; exact A').
      apply in_map_iff in IN as (e1 & E1 & H1).
      destruct (K e1 H1) as (a2 & A2 & M). rewrite E1 in *. unfold account_of in *. rewrite LC, A' in A2.
      injection A2 as <-. rewrite A0 in M.
      assert (secure_eq a' a = true) as SE by (apply secure_eq_same, same_security_sym; exact SS).
      rewrite SE in M. assert (e1 = mkEntry n i ts) as <-; [|exact H1].
      apply (wf_name_inj (w_lk w)); try assumption. }
  intros n ts. unfold holds, configured. simpl. split.
  - intros (e1 & H1 & <- & <-). destruct (K e1 H1) as (a' & A' & M). exists a'.
    unfold account_of in *. rewrite LC in A'. split; [exact A'|].
    destruct (lookup (d_name e1) (c_accounts (lconfig (w_lk w)))) as [a|].
    + destruct (secure_eq a' a) eqn:SE.
      * left. exists a. split; [reflexivity|]. apply secure_eq_same in SE. split; [apply same_security_sym; exact SE|].
        exists e1. auto.
      * right. split; [|apply M]. intros a0 [= <-] SS. apply same_security_sym, secure_eq_same in SS. congruence.
    + right. split; [discriminate|apply M].
  - intros (a' & A' & X).
    assert (In n (names lk')) as IN by (rewrite (wf_names _ W'), LC; eapply lookup_in_keys; exact A').
    apply in_map_iff in IN as (e1 & E1 & H1). exists e1. split; [exact H1|]. split; [exact E1|].
    destruct (K e1 H1) as (a2 & A2 & M). rewrite E1 in *. unfold account_of in *. rewrite LC, A' in A2.
    injection A2 as <-.
    destruct X as [(a & A0 & SS & e0 & H0 & E0 & <-)|[NS ->]].
    + rewrite A0 in M. assert (secure_eq a' a = true) as SE by (apply secure_eq_same, same_security_sym; exact SS).
      rewrite SE in M. f_equal. apply (wf_name_inj (w_lk w)); try assumption. congruence.
    + destruct (lookup n (c_accounts (lconfig (w_lk w)))) as [a|]; [|apply M].
      destruct (secure_eq a' a) eqn:SE; [|apply M].
      exfalso. apply (NS a eq_refl). apply same_security_sym, secure_eq_same. exact SE.
Qed.

Lemma reload_failed O w e m :
  reachable O w -> w_alive w = true -> nth_error (w_threads w) 0 = Some PMain ->
  e_client e = Some $"reload:" -> config_from_path O e = Err m ->
  step O w (LTick 0 e) =
    SNext (emit (set_thread w 0 (PDo (AEmit (OReply $"reload:" ($"error:" ++ m))) PMain)) [OClient $"reload:"]).
Proof.
  intros R A N EC CF. rewrite (main_step _ _ _ _ R A N EC), reload_request. unfold req_reload. rewrite CF.
  unfold run_cs, emit, set_thread, set_lk, reply. cbn. rewrite app_nil_r. reflexivity.
Qed.

(** * C08 *)

Lemma accounts_known O w :
  reachable O w ->
  exists c, config_at (w_trace w) = Some c
    /\ map d_name (details (w_lk w)) = keys (c_accounts c) /\ NoDup (keys (c_accounts c)) /\ c_accounts c <> [].
Proof.
  intros R. pose proof (inv_wf _ _ (reach_inv _ _ R)) as W. exists (lconfig (w_lk w)).
  split; [apply (reach_config_at _ _ R)|]. split; [apply (wf_names _ W)|].
  destruct (wf_config _ W) as (ND & _ & NE & _). auto.
Qed.

(** Sorting *)
From Coq Require Sorting.Sorted.
Lemma str_leb_le a b : str_leb a b = true -> str_le a b.
Proof.
  revert b. induction a as [|x a IH]; intros [|y b]; simpl; [intros _; constructor|intros _; constructor|discriminate|].
  destruct (N.ltb_spec (N_of_ascii x) (N_of_ascii y)); [intros _; apply le_lt; assumption|].
  destruct (N.ltb_spec (N_of_ascii y) (N_of_ascii x)); [discriminate|]. intros E.
  assert (x = y) as <- by (rewrite <- (ascii_N_embedding x), <- (ascii_N_embedding y); f_equal; lia).
  apply le_eq. auto.
Qed.

Lemma str_leb_total a b : str_leb a b = true \/ str_leb b a = true.
Proof.
  revert b. induction a as [|x a IH]; intros [|y b]; simpl; auto.
  destruct (N.ltb_spec (N_of_ascii x) (N_of_ascii y)); auto.
  destruct (N.ltb_spec (N_of_ascii y) (N_of_ascii x)); auto.
Qed.

Lemma sort_insert_perm x l : Permutation (sort_insert x l) (x :: l).
Proof.
  induction l as [|y l IH]; simpl; [reflexivity|]. destruct (str_leb x y); [reflexivity|].
  rewrite IH. apply perm_swap.
Qed.

Lemma str_sort_perm l : Permutation (str_sort l) l.
Proof. induction l as [|x l IH]; simpl; [reflexivity|]. rewrite sort_insert_perm, IH. reflexivity. Qed.

Lemma sort_insert_sorted x l : Sorted.LocallySorted str_le l -> Sorted.LocallySorted str_le (sort_insert x l).
Proof.
  intros S. induction S as [|y|y z l S IH L]; simpl.
  - constructor.
  - destruct (str_leb x y) eqn:E; [constructor; [constructor|apply str_leb_le; exact E]|].
    constructor; [constructor|]. destruct (str_leb_total x y) as [X|X]; [congruence|apply str_leb_le; exact X].
  - destruct (str_leb x y) eqn:E; [constructor; [constructor; assumption|apply str_leb_le; exact E]|].
    simpl in IH. destruct (str_leb x z) eqn:E2.
    + constructor; [exact IH|]. destruct (str_leb_total x y) as [X|X]; [congruence|apply str_leb_le; exact X].
    + constructor; [exact IH|exact L].
Qed.

Lemma str_sort_sorted l : Sorted.LocallySorted str_le (str_sort l).
Proof. induction l as [|x l IH]; simpl; [constructor|]. apply sort_insert_sorted. exact IH. Qed.

Lemma status_lines_spec O w clk : wf (w_lk w) -> forall ds j ls,
  incl ds (details (w_lk w)) -> status_lines O (w_lk w) clk j (map d_id ds) = Val ls ->
  exists txts, ls = map (fun p => d_name (fst p) ++ $": " ++ snd p) (combine ds txts)
    /\ List.length txts = List.length ds
    /\ forall k e0 txt, nth_error ds k = Some e0 -> nth_error txts k = Some txt ->
         status_ok O (clk (3 * (j + k))) (clk (3 * (j + k) + 1)) (clk (3 * (j + k) + 2)) (d_ts e0) txt.
Proof.
  intros W. induction ds as [|e0 ds IH]; intros j ls INC E.
  - injection E as <-. exists []. split; [reflexivity|]. split; [reflexivity|]. intros [|k] e1 txt; discriminate.
  - assert (has (w_lk w) e0) as H0 by (apply INC; left; reflexivity).
    destruct (wf_account _ _ W H0) as (act & A & NA).
    cbn [map status_lines] in E. rewrite (ct_account_in _ _ _ W H0 A) in E. cbn [bind] in E.
    rewrite (ct_tokenstate_in _ _ W H0) in E. cbn [bind] in E.
    destruct (status_text_spec O (clk (3 * j)) (clk (3 * j + 1)) (clk (3 * j + 2)) (d_ts e0)) as [(t & ET & K0)|[ET _]];
      rewrite ET in E; cbn [bind] in E; [|discriminate E].
    destruct (status_lines O (w_lk w) clk (S j) (map d_id ds)) as [l| |] eqn:EL; cbn [bind] in E; try discriminate E.
    injection E as <-. destruct (IH (S j) l) as (txts & -> & L & K); [intros x Hx; apply INC; right; exact Hx|exact EL|].
    exists (t :: txts). split; [|split].
    + cbn [map combine fst snd]. rewrite NA. reflexivity.
    + cbn [List.length]. rewrite L. reflexivity.
    + intros [|k] e1 txt N1 N2.
      * injection N1 as <-. injection N2 as <-. rewrite Nat.add_0_r. exact K0.
      * replace (j + S k) with (S j + k) by lia. eapply K; eassumption.
Qed.

Lemma status_request O w e : request O e w $"status:" = req_status O e w $"status:".
Proof. reflexivity. Qed.

Lemma status_lists O w e :
  reachable O w -> w_alive w = true -> nth_error (w_threads w) 0 = Some PMain ->
  e_client e = Some $"status:" -> ~ breaks_down O w (LTick 0 e) ->
  exists txts lines,
    step O w (LTick 0 e)
      = SNext (emit (set_thread w 0 (PDo (AEmit (OReply $"status:" ($"ok:" ++ join [nl] lines))) PMain))
                 [OClient $"status:"])
    /\ List.length txts = List.length (details (w_lk w))
    /\ Permutation lines (map (fun p => d_name (fst p) ++ $": " ++ snd p) (combine (details (w_lk w)) txts))
    /\ Sorted.LocallySorted str_le lines
    /\ forall k e0 txt, nth_error (details (w_lk w)) k = Some e0 -> nth_error txts k = Some txt ->
         status_ok O (e_clk e (3 * k)) (e_clk e (3 * k + 1)) (e_clk e (3 * k + 2)) (d_ts e0) txt.
Proof.
  intros R A N EC NB. pose proof (inv_wf _ _ (reach_inv _ _ R)) as W.
  rewrite (main_step _ _ _ _ R A N EC), status_request. unfold req_status.
  change (act_ids (w_lk w)) with (map d_id (details (w_lk w))).
  destruct (status_lines_ok O w (reach_inv _ _ R) (e_clk e) (details (w_lk w)) 0 (incl_refl _)) as [[ls0 E]|(_ & k & e0 & N0 & F0)].
  2: { exfalso. apply NB. eapply bd_status; eassumption. }
  destruct (status_lines_spec O w (e_clk e) W (details (w_lk w)) 0 ls0 (incl_refl _) E) as (txts & -> & L & K).
  rewrite E. cbn [bind run_cs].
  set (ls := map (fun p => d_name (fst p) ++ $": " ++ snd p) (combine (details (w_lk w)) txts)).
  exists txts, (str_sort ls).
  assert (str_sort ls <> []) as NE.
  { intros X. pose proof (str_sort_perm ls) as P. rewrite X in P. apply Permutation_nil in P.
    unfold ls in P. apply map_eq_nil in P.
    destruct (accounts_known _ _ R) as (c & _ & NM & _ & CE).
    destruct (details (w_lk w)) as [|e0 ds].
    - simpl in NM. apply CE. destruct (c_accounts c); [reflexivity|discriminate].
    - destruct txts; discriminate. }
  split.
  - destruct (str_sort ls) eqn:SE; [congruence|].
    unfold emit, set_thread, set_lk, reply. cbn. rewrite app_nil_r. reflexivity.
  - split; [exact L|]. split; [apply str_sort_perm|]. split; [apply str_sort_sorted|exact K].
Qed.

(** A text for the status cannot both be found and not. *)
Lemma date_not_both O r i t : date_shown O r i t -> no_date O r i -> False.
Proof. intros [[B _]|[_ D]] [NB D']; [exact (NB B)|congruence]. Qed.

Lemma ok_not_fails O r1 r2 r3 ts t : status_ok O r1 r2 r3 ts t -> status_fails O r1 r2 r3 ts -> False.
Proof.
  intros K F.
  destruct K as [|cv st u|cv i st u t D|a t1 t2 E D1 D2|a i t E L D|a E L]; inversion F; subst; try lia; try congruence;
    try match goal with D : date_shown _ ?r ?i _, X : no_date _ ?r ?i |- _ => exact (date_not_both _ _ _ _ D X) end.
  match goal with X : last_attempt a = Some ?j |- _ => rewrite X in L; injection L as -> end. eapply date_not_both; eassumption.
Qed.

Lemma breaks_down_panics O w l : reachable O w -> breaks_down O w l -> step O w l = SPanic.
Proof.
  intros R B. destruct B as [tid e k e0 A N C N0 F].
  assert (tid = 0%nat) as ->
    by (pose proof (ro_pc _ (reach_roles _ _ R) _ _ N) as RO; destruct tid as [|[|[|[|]]]]; try discriminate RO; reflexivity).
  rewrite (main_step _ _ _ _ R A N C), status_request. unfold req_status.
  change (act_ids (w_lk w)) with (map d_id (details (w_lk w))).
  destruct (status_lines_ok O w (reach_inv _ _ R) (e_clk e) (details (w_lk w)) 0 (incl_refl _)) as [[ls E]|(E & _)];
    rewrite E; [|reflexivity].
  exfalso.
  destruct (status_lines_spec O w (e_clk e) (inv_wf _ _ (reach_inv _ _ R)) (details (w_lk w)) 0 ls (incl_refl _) E)
    as (txts & _ & L & K).
  destruct (nth_error txts k) as [t|] eqn:NT.
  - exact (ok_not_fails _ _ _ _ _ _ (K k e0 t N0 NT) F).
  - apply nth_error_None in NT. assert (k < List.length (details (w_lk w)))%nat by (apply nth_error_Some; congruence). lia.
Qed.

Lemma answered_not_broken O w l : reachable O w -> step O w l <> SPanic -> ~ breaks_down O w l.
Proof. intros R S B. exact (S (breaks_down_panics O w l R B)). Qed.

Lemma dates_for_all O w l : reachable O w -> (forall t, o_fmt_time O t <> None) -> step O w l <> SPanic.
Proof.
  intros R D E. destruct (panics_only O w l R E) as [tid e k e0 A N C N0 F].
  destruct F as [cv i st u [_ X]|a LT [_ X]|a LT [_ X]|a i LT L [_ X]]; exact (D _ X).
Qed.

(** * C13 *)

Lemma entry_eta e : e = mkEntry (d_name e) (d_id e) (d_ts e).
Proof. destruct e. reflexivity. Qed.

Lemma frame_bump k lk e0 ts e1 :
  wf lk -> has lk e0 -> d_name e1 <> d_name e0 -> has (bump k lk (d_id e0) ts) e1 <-> has lk e1.
Proof.
  intros W H NE. unfold has. split.
  - intros I. apply bump_in in I as [(e2 & I2 & E2 & ->)|[I _]]; [|exact I].
    exfalso. apply NE. simpl. assert (e2 = e0) by (apply (wf_id_inj lk); auto). congruence.
  - intros I. apply bump_in_other; [exact I|]. intros X. apply NE. f_equal. apply (wf_id_inj lk); auto.
Qed.

Lemma frame O w l w' e1 :
  reachable O w -> step O w l = SNext w' ->
  ~ concerns O w (d_name e1) l -> ~ global_step w l ->
  In e1 (details (w_lk w)) <-> In e1 (details (w_lk w')).
Proof.
  intros R S NC NG. pose proof (reach_inv _ _ R) as I. pose proof (inv_wf _ _ I) as W.
  destruct (step_ok _ _ _ _ I S) as (_ & _ & T & _). clear S.
  destruct T as [tid e p lk' p' os N C|tid e p w' N SY|https bytes P].
  - assert (forall e0, has (w_lk w) e0 -> d_name e1 = d_name e0 -> concerns O w (d_name e0) (LTick tid e) -> False) as NC'
      by (intros e0 _ E0 X; apply NC; rewrite E0; exact X).
    pose proof (ro_pc _ (reach_roles _ _ R) _ _ N) as RO.
    assert (forall e0, has (w_lk w) e0 -> work_id p = Some (d_id e0) -> d_name e1 <> d_name e0) as WK.
    { intros e0 H0 E0 EN. apply (NC' e0 H0 EN). eapply con_work; try eassumption.
      rewrite <- entry_eta. exact H0. }
    simpl.
    destruct C; try reflexivity;
      try (symmetry; apply frame_bump; try assumption; apply WK; [assumption|reflexivity]).
    + (* m_auth *)
      symmetry. apply frame_bump; try assumption. intros EN. simpl in RO.
      destruct tid as [|[|[|[|tid]]]]; try discriminate. apply (NC' e0); try assumption.
      apply (con_request _ _ _ _ wu req); try assumption. tauto.
    + (* m_revoke *)
      symmetry. apply frame_bump; try assumption. intros EN. simpl in RO.
      destruct tid as [|[|[|[|tid]]]]; try discriminate. apply (NC' e0); try assumption.
      eapply (con_request _ _ _ _ []); try eassumption; [intros []|]. right. right. assumption.
    + exfalso. simpl in RO. destruct tid as [|[|[|[|tid]]]]; try discriminate. apply NG.
      apply gl_reload; [exact N|]. congruence.
    + exfalso. simpl in RO. destruct tid as [|[|[|[|tid]]]]; try discriminate. apply NG.
      eapply gl_restore; [exact N|]. rewrite <- H0. exact H.
    + (* h_error *)
      symmetry. apply frame_bump; try assumption. intros EN. apply (NC' e0); try assumption.
      eapply con_callback; [exact N|eassumption|eassumption|].
      exists e0. split; [assumption|]. split; [reflexivity|eassumption].
    + exfalso. simpl in RO. destruct tid as [|[|[|[|tid]]]]; try discriminate. apply NG.
      apply gl_notify. exact N.
  - destruct SY; try reflexivity. destruct a; reflexivity.
  - reflexivity.
Qed.

(** What the notifier does to an account: it records when it last notified. *)
Lemma notifier_frame O w e w' n ts' :
  reachable O w -> nth_error (w_threads w) 2 = Some PNtScan -> step O w (LTick 2 e) = SNext w' ->
  holds w' n ts' ->
  holds w n ts' \/ exists cvr ln st u, holds w n (TSPending cvr ln st u) /\ ts' = TSPending cvr (Some (env_now e)) st u.
Proof.
  intros R N S (e1 & H1 & <- & <-). pose proof (reach_inv _ _ R) as I.
  destruct (step_ok _ _ _ _ I S) as (_ & _ & T & _). clear S.
  inversion T as [tid e' p lk' p' os N' C|tid e' p w2 N' SY|]; subst.
  - rewrite N in N'. injection N' as <-. inversion C; subst. simpl in H1.
    match goal with F : Forall2 _ _ _ |- _ => destruct (Forall2_in_r _ _ _ _ F H1) as (e0 & I0 & X) end.
    cbv beta in X. destruct (notify_due (w_lk w) (env_now e) e0) eqn:ND.
    + destruct X as (NE & _ & X). right. unfold notify_due in ND.
      destruct (d_ts e0) as [|cvr ln st u|a] eqn:T0; try discriminate.
      exists cvr, ln, st, u. split; [exists e0; auto|exact X].
    + left. subst e1. exists e0. auto.
  - rewrite N in N'. injection N' as <-. inversion SY.
Qed.
