(** The counters of the state stay far below the limits of their types. *)
From Verif Require Import Base BaseLemmas Time Utf8 Base64 Url Json Oracles Config Dump State Http Timers Server
  StateLemmas ConfigLemmas Steps Inv Reach SpecServer SpecRestore Decide DumpLemmas Life Trace.
From Verif Require Texts.
Local Open Scope N_scope.

Definition size {A} (l : list A) : N := N.of_nat (List.length l).

Lemma update_details_count old new ns : forall n l n',
  update_details old new ns n = Val (l, n') -> n' <= n + size ns.
Proof.
  unfold size. induction ns as [|x ns IH]; intros n l n' H; cbn [update_details] in H.
  - injection H as _ <-. cbn. lia.
  - cbn [List.length]. rewrite Nat2N.inj_succ.
    assert (forall k l0 n0, update_details old new ns k = Val (l0, n0) -> k <= n + 1 -> n0 <= n + N.succ (N.of_nat (List.length ns))) as K.
    { intros k l0 n0 U L. apply IH in U. lia. }
    destruct (lookup x (c_accounts (lconfig old))) as [oa|]; cbn [bind] in H.
    + destruct (lookup x (c_accounts new)) as [na|]; cbn [unwrap bind] in H; [|discriminate H].
      destruct (secure_eq na oa).
      * destruct (find_name x (details old)) as [e|]; cbn [unwrap bind] in H; [|discriminate H].
        destruct (update_details old new ns n) as [[l0 n0]| |] eqn:U; cbn [bind] in H; try discriminate H.
        injection H as _ <-. apply (K _ _ _ U). lia.
      * destruct (update_details old new ns (N.succ n)) as [[l0 n0]| |] eqn:U; cbn [bind] in H; try discriminate H.
        injection H as _ <-. apply (K _ _ _ U). lia.
    + destruct (update_details old new ns (N.succ n)) as [[l0 n0]| |] eqn:U; cbn [bind] in H; try discriminate H.
      injection H as _ <-. apply (K _ _ _ U). lia.
Qed.

Lemma update_conf_count lk c lk' :
  update_conf lk c = Val lk' -> account_count lk' <= account_count lk + size (c_accounts c).
Proof.
  unfold update_conf. destruct (update_details lk c (keys (c_accounts c)) (account_count lk)) as [[ds n]| |] eqn:U; cbn [bind]; try discriminate.
  intros [= <-]. apply update_details_count in U. unfold size, keys in *. rewrite map_length in U. exact U.
Qed.

Lemma restore_candidates_size c d clk ds : forall i rs,
  restore_candidates c d clk i ds = Val rs -> (List.length rs <= List.length ds)%nat.
Proof.
  induction ds as [|e ds IH]; intros i rs H; cbn [restore_candidates] in H.
  - injection H as <-. cbn. lia.
  - destruct (lookup (d_name e) (c_accounts c)) as [act|]; cbn [unwrap bind] in H; [|discriminate H].
    destruct (restore_candidates c d clk (S i) ds) as [l| |] eqn:U; cbn [bind] in H; try discriminate H.
    apply IH in U. cbn [List.length].
    assert (forall l', (l' = l \/ exists x, l' = x :: l) -> (List.length l' <= S (List.length ds))%nat) as K.
    { intros l' [->|[x ->]]; cbn [List.length]; lia. }
    apply (K rs).
    destruct (lookup (d_name e) (d_accounts d)) as [[ad td]|]; [|injection H as <-; left; reflexivity].
    destruct (secure_restorable act ad); [|injection H as <-; left; reflexivity].
    destruct (d_ts e); try (match type of H with context [tokenstate_restore ?a ?b td] => destruct (tokenstate_restore a b td) end);
      injection H as <-; eauto.
Qed.

Lemma restore_apply_count rs : forall ds n ds' n',
  restore_apply rs ds n = Val (ds', n') -> n' = n + size rs.
Proof.
  unfold size. induction rs as [|[x ts] rs IH]; intros ds n ds' n' H; cbn [restore_apply] in H.
  - injection H as _ <-. cbn. lia.
  - destruct (update_first _ _ ds) as [l|]; cbn [unwrap bind] in H; [|discriminate H].
    apply IH in H. cbn [List.length]. lia.
Qed.

Lemma auth_restore_count O lk bytes clk h lk' :
  auth_restore O lk bytes clk h = Val lk' -> account_count lk' <= account_count lk + size (details lk).
Proof.
  unfold auth_restore. destruct (List.length bytes <? nonce_len)%nat; [discriminate|].
  destruct (o_decrypt O _ _) as [p|]; [|discriminate].
  unfold locked_restore. destruct (deserialize p) as [d|]; cbn [ok_or bind]; [|intros [= <-]; lia].
  destruct (negb (N.eqb (d_version d) dump_version)); [intros [= <-]; lia|].
  destruct (restore_candidates (lconfig lk) d clk 0 (details lk)) as [rs| |] eqn:C; cbn [bind]; try discriminate; [|intros [= <-]; lia].
  destruct (restore_apply _ (details lk) (account_count lk)) as [[ds n]| |] eqn:A; cbn [bind]; try discriminate; [|intros [= <-]; lia].
  intros [= <-]. apply restore_apply_count in A. apply restore_candidates_size in C. cbn [account_count]. subst n.
  assert (List.length (hsort (fun p0 : str * tokenstate => h (fst p0)) rs) = List.length rs) as L.
  { apply Permutation_length, hsort_perm. }
  unfold size in *. rewrite L. lia.
Qed.

Lemma tokenstate_replace_count lk i ts lk' j :
  tokenstate_replace lk i ts = Val (lk', j) -> account_count lk' = N.succ (account_count lk).
Proof.
  unfold tokenstate_replace. destruct (update_first _ _ _); cbn [unwrap bind]; [|discriminate]. intros [= <- _]. reflexivity.
Qed.

Lemma notify_scan_count now ids : forall lk lk' cmds,
  notify_scan lk now ids = Val (lk', cmds) -> account_count lk' <= account_count lk + size ids.
Proof.
  unfold size. induction ids as [|i ids IH]; intros lk lk' cmds H; cbn [notify_scan] in H.
  - injection H as <- _. cbn. lia.
  - cbn [List.length]. rewrite Nat2N.inj_succ.
    assert (forall lk0 lk1 cs, notify_scan lk0 now ids = Val (lk1, cs) -> account_count lk0 <= account_count lk + 1 ->
              account_count lk1 <= account_count lk + N.succ (N.of_nat (List.length ids))) as K.
    { intros lk0 lk1 cs U L. apply IH in U. lia. }
    revert H.
    repeat match goal with
    | |- bind ?x _ = _ -> _ => destruct x eqn:?; cbn [bind]; try discriminate
    | |- (match ?x with _ => _ end) = _ -> _ => destruct x eqn:?; cbn [bind]; try discriminate
    end; intros H; try (injection H as <- _);
    try (eapply K; [eassumption|]; try (match goal with R : tokenstate_replace _ _ _ = Val _ |- _ => apply tokenstate_replace_count in R end); lia).
Qed.

(** The greatest number of accounts in a configuration is at least that of the
    one in force. *)
Definition few_accounts (m : N) (t : list obs) : Prop :=
  forall c, In (OConfig c) t -> size (c_accounts c) <= m.

Lemma config_at_in t c : config_at t = Some c -> In (OConfig c) t.
Proof.
  induction t as [|o t IH]; [discriminate|]. cbn [config_at].
  destruct (config_at t) as [c'|]; [intros [= ->]; right; apply IH; reflexivity|].
  destruct o; try discriminate. intros [= ->]. left. reflexivity.
Qed.

Lemma details_size O w m : reachable O w -> few_accounts m (w_trace w) -> size (details (w_lk w)) <= m.
Proof.
  intros R F. pose proof (reach_inv _ _ R) as I. pose proof (wf_names _ (inv_wf _ _ I)) as N.
  apply (f_equal (@List.length str)) in N. unfold names, keys in N. rewrite !map_length in N.
  unfold size. rewrite N. apply F, config_at_in. exact (reach_config_at _ _ R).
Qed.

Lemma count_step O w l w' m :
  reachable O w -> step O w l = SNext w' -> few_accounts m (w_trace w') ->
  account_count (w_lk w') <= account_count (w_lk w) + (m + 2).
Proof.
  intros R S F. pose proof (reach_inv _ _ R) as I. destruct (step_ok _ _ _ _ I S) as (_ & _ & T & A).
  assert (few_accounts m (w_trace w)) as F0.
  { destruct (Texts.tstep_grows _ _ _ _ T) as [os E]. intros c H. apply F. rewrite E. apply in_or_app. left. exact H. }
  pose proof (details_size O w m R F0) as D.
  destruct T as [tid e p lk' p' os N C|tid e p w' N SY|https bytes P].
  - destruct C; try (cbn [w_lk after_cs emit set_thread set_lk bump account_count]; lia).
    + (* m_reload *)
      match goal with U : update_conf _ _ = Val lk' |- _ => apply update_conf_count in U end.
      assert (size (c_accounts c) <= m).
      { apply F. cbn. apply in_or_app. right. right. left. reflexivity. }
      cbn. lia.
    + (* m_restore *)
      assert (tid = 0%nat) as -> by (eapply main_tid; eassumption).
      assert (asked w e ($"restore:" ++ bytes)) as AS by (split; [exact A|]; split; [exact N|congruence]).
      destruct (asked_restore O w e bytes R AS) as [(m0 & _ & J)|(lk2 & AR & J)].
      * unfold just_answers in J. rewrite S in J. injection J as J1.
        cbn. rewrite J1. lia.
      * unfold restores_to in J. rewrite S in J. injection J as J1.
        cbn. subst lk'. apply auth_restore_count in AR. lia.
    + (* n_scan *)
      unfold step in S. rewrite A in S. cbn [negb] in S. rewrite N in S. cbn [step_thread] in S.
      unfold nt_scan in S. destruct (notify_scan (w_lk w) (env_now e) (act_ids (w_lk w))) as [[lk2 cmds]| |] eqn:NS; cbn [bind run_cs] in S; try discriminate S.
      * injection S as S1. cbn. subst lk'. apply notify_scan_count in NS.
        unfold act_ids, size in *. rewrite map_length in NS. lia.
      * injection S as S1. cbn. rewrite <- S1. lia.
  - destruct SY; try (cbn; lia). destruct a; cbn; lia.
  - cbn. lia.
Qed.

Lemma fails_step O w l w' n :
  reachable O w -> step O w l = SNext w' ->
  (forall e a, In e (details (w_lk w)) -> d_ts e = TSActive a -> fails a <= n) ->
  forall e a, In e (details (w_lk w')) -> d_ts e = TSActive a -> fails a <= n + 1.
Proof.
  intros R S K. pose proof (reach_inv _ _ R) as I. destruct (step_ok _ _ _ _ I S) as (_ & _ & T & _).
  assert (forall e a, In e (details (w_lk w)) -> d_ts e = TSActive a -> fails a <= n + 1) as K1.
  { intros e a H E. specialize (K e a H E). lia. }
  assert (forall k i ts, (forall a, ts = TSActive a -> fails a <= n + 1) ->
    forall e a, In e (details (bump k (w_lk w) i ts)) -> d_ts e = TSActive a -> fails a <= n + 1) as B.
  { intros k i ts H e a IN E. apply bump_in in IN as [(e1 & H1 & E1 & ->)|[IN _]]; [apply H; exact E|eapply K1; eassumption]. }
  destruct T as [tid e p lk' p' os N C|tid e p w' N SY|https bytes P].
  - destruct C; cbn [w_lk after_cs emit set_thread set_lk]; try exact K1;
      try (apply B; intros a1 E1; first [discriminate E1 | injection E1 as <-; cbn [fails set_attempt set_ongoing]; try lia];
           match goal with H : has _ _, D : d_ts _ = TSActive _ |- _ => specialize (K _ _ H D); lia end).
    + (* m_reload *)
      intros e1 a1 IN1 E1.
      match goal with U : update_conf _ _ = Val lk', Q : conf_ok _ _ |- _ =>
        destruct (update_conf_spec _ _ _ (inv_wf _ _ I) (co_wf _ _ Q) U) as (_ & _ & _ & X) end.
      destruct (X e1 IN1) as (a' & _ & Y). destruct (account_of (w_lk w) (d_name e1)) as [a0|].
      * destruct (secure_eq a' a0); [eapply K1; eassumption|]. destruct Y as [_ Y]. rewrite Y in E1. discriminate E1.
      * destruct Y as [_ Y]. rewrite Y in E1. discriminate E1.
    + (* m_restore *)
      intros e1 a1 IN1 E1.
      match goal with Q : Forall2 _ _ _ |- _ => destruct (Forall2_in_r _ _ _ _ Q IN1) as (f0 & IN0 & RS) end.
      destruct RS as [_ [->|[_ (_ & a & ad & td & i & _ & _ & _ & TS & _)]]]; [eapply K1; eassumption|].
      rewrite E1 in TS. destruct td; [discriminate TS|]. injection TS as ->. cbn [fails]. lia.
    + (* n_scan *)
      intros e1 a1 IN1 E1.
      match goal with Q : Forall2 _ _ _ |- _ => destruct (Forall2_in_r _ _ _ _ Q IN1) as (f0 & IN0 & RS) end.
      cbv beta in RS. destruct (notify_due (w_lk w) (env_now e) f0); [|subst e1; eapply K1; eassumption].
      destruct RS as (_ & _ & TS). rewrite E1 in TS. destruct (d_ts f0) as [| |a0] eqn:D0; try discriminate TS.
      injection TS as ->. eapply K1; eassumption.
  - destruct SY; try exact K1. destruct a; exact K1.
  - exact K1.
Qed.

Lemma run_snoc O ls : forall w l w', run O w (ls ++ [l]) = Some (SNext w') ->
  exists w1, run O w ls = Some (SNext w1) /\ step O w1 l = SNext w'.
Proof.
  induction ls as [|l0 ls IH]; intros w l w' H; cbn [app run] in H |- *.
  - destruct (step O w l) as [| |w2] eqn:S; try discriminate H. exists w. split; [reflexivity|]. congruence.
  - destruct (step O w l0) as [| |w2]; try discriminate H. apply IH, H.
Qed.

Lemma run_reachable O ls w w' : reachable O w -> run O w ls = Some (SNext w') -> reachable O w'.
Proof.
  revert w. induction ls as [|l ls IH]; intros w R H; cbn [run] in H.
  - injection H as <-. exact R.
  - destruct (step O w l) as [| |w2] eqn:S; try discriminate H. eapply IH; [|exact H]. eapply reach_step; eassumption.
Qed.

Lemma counters_bounded O e c hp hsp pk ls w m :
  config_from_path O e = Val c -> run O (init_world c hp hsp pk) ls = Some (SNext w) -> few_accounts m (w_trace w) ->
  account_count (w_lk w) <= (m + 2) * (1 + size ls)
  /\ forall e0 a, In e0 (details (w_lk w)) -> d_ts e0 = TSActive a -> fails a <= size ls.
Proof.
  intros C. revert w. induction ls as [|l ls IH] using rev_ind; intros w H F.
  - cbn [run] in H. injection H as <-. split.
    + assert (size (c_accounts c) <= m) as L by (apply F; left; reflexivity).
      cbn. unfold size, keys in *. rewrite map_length. lia.
    + intros e0 a IN E. exfalso. cbn in IN. clear -IN E. revert IN. generalize 0. induction (keys (c_accounts c)) as [|n ns IHn]; cbn [new_details]; [contradiction|].
      intros k [<-|IN]; [discriminate E|]. eapply IHn, IN.
  - apply run_snoc in H as (w1 & H1 & S).
    assert (reachable O w1) as R by (eapply run_reachable; [eapply reach_init; exact C|exact H1]).
    assert (few_accounts m (w_trace w1)) as F1.
    { pose proof (reach_inv _ _ R) as I. destruct (step_ok _ _ _ _ I S) as (_ & _ & T & _).
      destruct (Texts.tstep_grows _ _ _ _ T) as [os E]. intros c0 IN. apply F. rewrite E. apply in_or_app. left. exact IN. }
    destruct (IH w1 H1 F1) as [A B].
    pose proof (count_step O w1 l w m R S F) as A1. pose proof (fails_step O w1 l w (size ls) R S B) as B1.
    assert (size (ls ++ [l]) = size ls + 1) as L by (unfold size; rewrite app_length; cbn; lia).
    rewrite L. split; [nia|exact B1].
Qed.

(** In the terms of the code's types. *)
Lemma counters_fit O e c hp hsp pk ls w :
  config_from_path O e = Val c -> run O (init_world c hp hsp pk) ls = Some (SNext w) ->
  few_accounts (2 ^ 60) (w_trace w) -> size ls < 2 ^ 64 - 1 ->
  account_count (w_lk w) < 2 ^ 128
  /\ forall e0, In e0 (details (w_lk w)) ->
       d_id e0 < 2 ^ 128 /\ forall a, d_ts e0 = TSActive a -> fails a < 2 ^ 64.
Proof.
  intros C H F L. destruct (counters_bounded O e c hp hsp pk ls w _ C H F) as [A B].
  assert (account_count (w_lk w) < 2 ^ 128) as A1.
  { eapply N.le_lt_trans; [exact A|].
    apply N.le_lt_trans with ((2 ^ 60 + 2) * 2 ^ 64).
    - apply N.mul_le_mono_l. lia.
    - reflexivity. }
  split; [exact A1|]. intros e0 IN. split.
  - assert (reachable O w) as R by (eapply run_reachable; [eapply reach_init; exact C|exact H]).
    eapply N.lt_trans; [|exact A1]. eapply wf_entry_count; [exact (inv_wf _ _ (reach_inv _ _ R))|exact IN].
  - intros a E. specialize (B e0 a IN E). lia.
Qed.
