(** Proofs about the mutexes. *)
From Verif Require Import Base BaseLemmas Time Utf8 Url Json Oracles Config Dump State Http Timers Server
  StateLemmas Steps Inv Reach Own Trace Reply SpecServer Dialog SpecStatus Locks SpecLocks.
Local Open Scope nat_scope.

(** * What is not locked is not looked at *)

Lemma request_unlocked O e w lk req :
  request_locks req = false ->
  (exists m, request O e w req = Err m /\ request O e (set_lk w lk) req = Err m)
  \/ (exists p os, request O e w req = Val (w_lk w, p, os) /\ request O e (set_lk w lk) req = Val (lk, p, os)).
Proof.
  unfold request_locks, request. destruct (split_first ":"%char req) as [[cmd rest]|]; [|intros _; left; eauto].
  unfold from_utf8. destruct (utf8_valid cmd) eqn:U; cbn [andb]; [|intros _; left; eexists; split; reflexivity].
  intros L. cbn [bind]. unfold dispatch. cbv zeta.
  set (empty := match rest with [] => true | _ => false end) in *.
  destruct (str_eqb cmd $"dump" && empty) eqn:E1; cbn [orb] in L; [discriminate L|].
  destruct (str_eqb cmd $"info" && empty) eqn:E2.
  { right. eexists. eexists. split; reflexivity. }
  destruct (str_eqb cmd $"reload" && empty) eqn:E3; cbn [orb] in L; [discriminate L|].
  destruct (str_eqb cmd $"refresh") eqn:E4; cbn [orb] in L; [discriminate L|].
  destruct (str_eqb cmd $"restore") eqn:E5; cbn [orb] in L; [discriminate L|].
  destruct (str_eqb cmd $"revoke") eqn:E6; cbn [orb] in L; [discriminate L|].
  destruct (str_eqb cmd $"showtoken") eqn:E7; cbn [orb] in L; [discriminate L|].
  destruct (str_eqb cmd $"shutdown" && empty) eqn:E8.
  { right. eexists. eexists. split; reflexivity. }
  destruct (str_eqb cmd $"status" && empty) eqn:E9; cbn [orb] in L; [discriminate L|].
  right. eexists. eexists. split; reflexivity.
Qed.

Definition alike (l : lock) (a b : sres) : Prop :=
  match a, b with
  | SStuck, SStuck | SPanic, SPanic => True
  | SNext x, SNext y => swapped x l y
  | _, _ => False
  end.

Ltac sw :=
  match goal with
  | |- swapped ?a LkState ?b => exact (sw_state a (w_lk b))
  | |- swapped ?a LkEvPred ?b => exact (sw_evpred a (w_ev b))
  | |- swapped ?a LkEvQueue ?b => exact (sw_evqueue a (w_evq b))
  | |- swapped ?a LkNtPred ?b => exact (sw_ntpred a (w_nt b))
  | |- swapped ?a LkRfPred ?b => exact (sw_rfpred a (w_rf b))
  end.

Lemma run_cs_alike l w w2 tid q c :
  l <> LkState -> swapped w l w2 -> alike l (run_cs w tid q c) (run_cs w2 tid q c).
Proof.
  intros NL S. destruct S; try (exfalso; apply NL; reflexivity);
    destruct c as [[[x y] z]|m|]; cbn [run_cs alike]; try exact I; sw.
Qed.

Lemma blind O w tid p e l w2 :
  locks O p (e_client e) <> Some l -> swapped w l w2 ->
  alike l (step_thread O w tid p e) (step_thread O w2 tid p e).
Proof.
  intros NL S.
  assert (forall q c1 c2, l <> LkState -> c1 = c2 -> alike l (run_cs w tid q c1) (run_cs w2 tid q c2)) as RC.
  { intros q c1 c2 N <-. apply run_cs_alike; assumption. }
  assert (l <> LkState -> w_lk w2 = w_lk w) as LK.
  { intros N. destruct S; [exfalso; apply N|..]; reflexivity. }
  destruct p; cbn [locks] in NL; cbn [step_thread];
    try (apply RC; [congruence|rewrite LK by congruence; reflexivity]).
  - exact I.
  - destruct a, S; cbn [alike]; try (exfalso; apply NL; reflexivity); sw.
  - destruct (e_client e) as [req|]; [|exact I]. destruct (request_locks req) eqn:RL.
    + assert (l <> LkState) as N by congruence.
      destruct S; try (exfalso; apply N; reflexivity);
        [change (request O e (set_ev w c) req) with (request O e w req)
        |change (request O e (set_evq w q) req) with (request O e w req)
        |change (request O e (set_nt w c) req) with (request O e w req)
        |change (request O e (set_rf w c) req) with (request O e w req)];
        destruct (request O e w req) as [[[x y] z]|m|]; cbn [run_cs alike]; try exact I; sw.
    + destruct S.
      * destruct (request_unlocked O e w lk req RL) as [(m & -> & ->)|(q & os & -> & ->)];
          cbn [run_cs alike]; sw.
      * change (request O e (set_ev w c) req) with (request O e w req).
        destruct (request O e w req) as [[[x y] z]|m|]; cbn [run_cs alike]; try exact I; sw.
      * change (request O e (set_evq w q) req) with (request O e w req).
        destruct (request O e w req) as [[[x y] z]|m|]; cbn [run_cs alike]; try exact I; sw.
      * change (request O e (set_nt w c) req) with (request O e w req).
        destruct (request O e w req) as [[[x y] z]|m|]; cbn [run_cs alike]; try exact I; sw.
      * change (request O e (set_rf w c) req) with (request O e w req).
        destruct (request O e w req) as [[[x y] z]|m|]; cbn [run_cs alike]; try exact I; sw.
  - destruct S; cbn [alike]; sw.
  - destruct S; cbn [alike]; sw.
  - destruct S; cbn [alike]; sw.
  - unfold http_start. destruct (parse_get O https bytes) as [uri|].
    + destruct (find_pair $"state" (query_pairs uri)) as [st|].
      * assert (l <> LkState) as N by congruence.
        destruct S; try (exfalso; apply N; reflexivity); apply RC; [exact N|reflexivity|exact N|reflexivity|exact N|reflexivity|exact N|reflexivity].
      * destruct S; cbn [run_cs alike]; sw.
    + destruct S; cbn [run_cs alike]; sw.
  - destruct S; cbn [alike]; sw.
  - unfold http_body. destruct (o_json O body) as [v|m].
    + apply RC; [congruence|]. rewrite LK by congruence. reflexivity.
    + destruct S; cbn [run_cs alike]; sw.
  - destruct S; try (exfalso; apply NL; reflexivity); cbn [w_ev set_lk set_evq set_nt set_rf];
      destruct (cv_pred (w_ev w)); cbn [alike]; sw.
  - destruct S; try (exfalso; apply NL; reflexivity); cbn [w_ev set_lk set_evq set_nt set_rf];
      destruct (negb (cv_waiting (w_ev w)) || e_wake e); cbn [alike]; try exact I; sw.
  - destruct S; try (exfalso; apply NL; reflexivity); cbn [w_evq set_lk set_ev set_nt set_rf];
      destruct (w_evq w) as [|[n ev] q]; cbn [alike]; sw.
  - rewrite LK by congruence. destruct S; try (exfalso; apply NL; reflexivity);
      destruct (c_token_event_cmd (lconfig (w_lk w))); cbn [alike]; sw.
  - destruct S; cbn [alike]; sw.
  - destruct S; cbn [alike]; sw.
  - rewrite LK by congruence. destruct S; try (exfalso; apply NL; reflexivity);
      destruct (next_wakeup notify_at (w_lk w) (e_clk e)); cbn [alike]; try exact I; sw.
  - destruct S; try (exfalso; apply NL; reflexivity); cbn [w_nt set_lk set_evq set_ev set_rf];
      destruct (wait_or_go e (w_nt w) nw); cbn [alike]; sw.
  - destruct S; try (exfalso; apply NL; reflexivity); cbn [w_nt set_lk set_evq set_ev set_rf];
      destruct (negb (cv_waiting (w_nt w)) || e_wake e); cbn [alike]; try exact I; sw.
  - rewrite LK by congruence. destruct S; try (exfalso; apply NL; reflexivity);
      destruct (next_wakeup refresh_at (w_lk w) (e_clk e)); cbn [alike]; try exact I; sw.
  - destruct S; try (exfalso; apply NL; reflexivity); cbn [w_rf set_lk set_evq set_ev set_nt];
      destruct (wait_or_go e (w_rf w) nw); cbn [alike]; sw.
  - destruct S; try (exfalso; apply NL; reflexivity); cbn [w_rf set_lk set_evq set_ev set_nt];
      destruct (negb (cv_waiting (w_rf w)) || e_wake e); cbn [alike]; try exact I; sw.
Qed.

Lemma run_cs_keeps l w tid q c w' :
  l <> LkState -> run_cs w tid q c = SNext w' -> guarded_same l w w'.
Proof.
  intros NL S. destruct c as [[[x y] z]|m|]; cbn [run_cs] in S; [|..|discriminate S]; injection S as <-;
    destruct l; try reflexivity; exfalso; apply NL; reflexivity.
Qed.

Lemma do_action_keeps O tid e w a k l :
  locks O (PDo a k) (e_client e) <> Some l -> guarded_same l w (do_action (set_thread w tid k) a).
Proof.
  intros NL. destruct a; cbn [locks] in NL; destruct l; try reflexivity; exfalso; apply NL; reflexivity.
Qed.

Lemma same_keeps l w w' :
  w_lk w' = w_lk w -> w_ev w' = w_ev w -> w_evq w' = w_evq w -> w_nt w' = w_nt w -> w_rf w' = w_rf w ->
  guarded_same l w w'.
Proof. intros E1 E2 E3 E4 E5. destruct l; cbn; congruence. Qed.

Lemma unlocked_keeps O w tid p e l w' :
  locks O p (e_client e) <> Some l -> step_thread O w tid p e = SNext w' -> guarded_same l w w'.
Proof.
  intros NL S.
  destruct p; cbn [locks] in NL; cbn [step_thread] in S;
    try (eapply run_cs_keeps; [|exact S]; congruence);
    try (injection S as <-; apply same_keeps; reflexivity).
  - discriminate S.
  - injection S as <-. eapply (do_action_keeps O tid e). exact NL.
  - destruct (e_client e) as [req|]; [|discriminate S]. destruct (request_locks req) eqn:RL.
    + assert (l <> LkState) as N by congruence. pose proof (run_cs_keeps l _ _ _ _ _ N S) as G.
      destruct l; exact G.
    + destruct (request_unlocked O e w (w_lk w) req RL) as [(m & E & _)|(q & os & E & _)]; rewrite E in S;
        cbn [run_cs] in S; injection S as <-; apply same_keeps; reflexivity.
  - unfold http_start in S. destruct (parse_get O https bytes) as [uri|].
    + destruct (find_pair $"state" (query_pairs uri)) as [st|].
      * eapply run_cs_keeps; [|exact S]. congruence.
      * cbn [run_cs] in S. injection S as <-. apply same_keeps; reflexivity.
    + cbn [run_cs] in S. injection S as <-. apply same_keeps; reflexivity.
  - unfold http_body in S. destruct (o_json O body) as [v|m].
    + eapply run_cs_keeps; [|exact S]. congruence.
    + cbn [run_cs] in S. injection S as <-. apply same_keeps; reflexivity.
  - destruct (cv_pred (w_ev w)); injection S as <-;
      destruct l; try reflexivity; try assumption; exfalso; apply NL; reflexivity.
  - destruct (negb (cv_waiting (w_ev w)) || e_wake e); [|discriminate S]; injection S as <-;
      destruct l; try reflexivity; try assumption; exfalso; apply NL; reflexivity.
  - destruct (w_evq w) as [|[n ev] q] eqn:EQ; injection S as <-;
      destruct l; try reflexivity; try assumption; exfalso; apply NL; reflexivity.
  - destruct (c_token_event_cmd (lconfig (w_lk w))); injection S as <-; apply same_keeps; reflexivity.
  - destruct (next_wakeup notify_at (w_lk w) (e_clk e)); try discriminate S; injection S as <-; apply same_keeps; reflexivity.
  - destruct (wait_or_go e (w_nt w) nw); injection S as <-;
      destruct l; try reflexivity; try assumption; exfalso; apply NL; reflexivity.
  - destruct (negb (cv_waiting (w_nt w)) || e_wake e); [|discriminate S]; injection S as <-;
      destruct l; try reflexivity; try assumption; exfalso; apply NL; reflexivity.
  - destruct (next_wakeup refresh_at (w_lk w) (e_clk e)); try discriminate S; injection S as <-; apply same_keeps; reflexivity.
  - destruct (wait_or_go e (w_rf w) nw); injection S as <-;
      destruct l; try reflexivity; try assumption; exfalso; apply NL; reflexivity.
  - destruct (negb (cv_waiting (w_rf w)) || e_wake e); [|discriminate S]; injection S as <-;
      destruct l; try reflexivity; try assumption; exfalso; apply NL; reflexivity.
Qed.

(** * Who has a mutex *)

Record finv (O : oracles) (f : fine) : Prop := mkFinv {
  fi_reach : reachable O (f_world f);
  fi_excl : forall t1 t2 l, holds_lock f t1 l -> holds_lock f t2 l -> t1 = t2;
  fi_has : forall t l c, f_phase f t = Has l c ->
    exists p, nth_error (w_threads (f_world f)) t = Some p /\ locks O p c = Some l;
  fi_did : forall t l, f_phase f t = Did l -> exists p, nth_error (w_threads (f_world f)) t = Some p;
}.

Lemma phase_same ph t x : set_phase ph t x t = x.
Proof. unfold set_phase. rewrite Nat.eqb_refl. reflexivity. Qed.

Lemma phase_other ph t x t' : t' <> t -> set_phase ph t x t' = ph t'.
Proof. intros N. unfold set_phase. destruct (Nat.eqb t' t) eqn:E; [apply Nat.eqb_eq in E; contradiction|reflexivity]. Qed.

Lemma step_stays O w l w' tid p :
  reachable O w -> step O w l = SNext w' -> (forall e, l <> LTick tid e) ->
  nth_error (w_threads w) tid = Some p -> nth_error (w_threads w') tid = Some p.
Proof.
  intros R S NL N. destruct (step_ok _ _ _ _ (reach_inv _ _ R) S) as (_ & _ & T & _).
  eapply tstep_other; eassumption.
Qed.

Lemma step_thread_there O w tid e w' :
  reachable O w -> step O w (LTick tid e) = SNext w' -> exists p, nth_error (w_threads w') tid = Some p.
Proof.
  intros R S. assert (tid < List.length (w_threads w)) as L.
  { unfold step in S. destruct (w_alive w); [|discriminate S]. cbn [negb] in S.
    apply nth_error_Some. destruct (nth_error (w_threads w) tid); discriminate. }
  destruct (step_ok _ _ _ _ (reach_inv _ _ R) S) as (_ & _ & T & _).
  assert (List.length (w_threads w) <= List.length (w_threads w')) as LE.
  { destruct T as [t e1 q lk' p' os N' C|t e1 q w1 N' SY|https bytes P].
    - cbn. rewrite list_set_length. lia.
    - destruct SY; cbn in *; rewrite ?list_set_length; try lia.
      destruct a; cbn in *; rewrite ?app_length, ?list_set_length; lia.
    - cbn. rewrite app_length. lia. }
  destruct (nth_error (w_threads w') tid) as [p|] eqn:N; [eauto|]. apply nth_error_None in N. lia.
Qed.

Lemma fine_inv O f : fine_reachable O f -> finv O f.
Proof.
  intros F. induction F as [e c hp hsp pk C|f lb f' F IH S].
  { constructor; cbn.
    - eapply reach_init. exact C.
    - intros t1 t2 l H. discriminate H.
    - intros t l c0 H. discriminate H.
    - intros t l H. discriminate H. }
  destruct IH as [R EX HA DI].
  inversion S as [tid p e l A N P L NS FR EL EF|tid e l w' P ST EL EF|tid p l A N P K EL EF
    |tid p e w' N P L ST EL EF|tid p e w' N K P ST EL EF|https bytes w' ST EL EF]; subst.
  - constructor; cbn.
    + exact R.
    + intros t1 t2 l0 H1 H2. unfold holds_lock in H1, H2. cbn in H1, H2.
      destruct (Nat.eq_dec t1 tid) as [->|N1], (Nat.eq_dec t2 tid) as [->|N2]; auto.
      * rewrite phase_same in H1. rewrite phase_other in H2 by exact N2. cbn in H1. injection H1 as ->.
        exfalso. exact (FR _ H2).
      * rewrite phase_same in H2. rewrite phase_other in H1 by exact N1. cbn in H2. injection H2 as ->.
        exfalso. exact (FR _ H1).
      * rewrite phase_other in H1 by exact N1. rewrite phase_other in H2 by exact N2. eapply EX; eassumption.
    + intros t l0 c H. destruct (Nat.eq_dec t tid) as [->|NT].
      * rewrite phase_same in H. injection H as <- <-. eauto.
      * rewrite phase_other in H by exact NT. eauto.
    + intros t l0 H. destruct (Nat.eq_dec t tid) as [->|NT].
      * rewrite phase_same in H. discriminate H.
      * rewrite phase_other in H by exact NT. eauto.
  - assert (forall t, in_hand (set_phase (f_phase f) tid (Did l) t) = in_hand (f_phase f t)) as IH.
    { intros t. destruct (Nat.eq_dec t tid) as [->|NT]; [rewrite phase_same, P; reflexivity|].
      rewrite phase_other by exact NT. reflexivity. }
    constructor; cbn.
    + eapply reach_step; eassumption.
    + intros t1 t2 l0 H1 H2. unfold holds_lock in H1, H2. cbn in H1, H2. rewrite IH in H1, H2. eapply EX; eassumption.
    + intros t l0 c H. destruct (Nat.eq_dec t tid) as [->|NT]; [rewrite phase_same in H; discriminate H|].
      rewrite phase_other in H by exact NT. destruct (HA _ _ _ H) as (p & N & L). exists p. split; [|exact L].
      eapply step_stays; try eassumption. intros e' [= E _]. congruence.
    + intros t l0 H. destruct (Nat.eq_dec t tid) as [->|NT].
      * eapply step_thread_there; eassumption.
      * rewrite phase_other in H by exact NT. destruct (DI _ _ H) as (p & N). exists p.
        eapply step_stays; try eassumption. intros e' [= E _]. congruence.
  - assert (forall t l0, in_hand (set_phase (f_phase f) tid Without t) = Some l0 -> in_hand (f_phase f t) = Some l0) as IH.
    { intros t l0. destruct (Nat.eq_dec t tid) as [->|NT]; [rewrite phase_same; discriminate|].
      rewrite phase_other by exact NT. auto. }
    constructor; cbn.
    + exact R.
    + intros t1 t2 l0 H1 H2. eapply EX; eapply IH; eassumption.
    + intros t l0 c H. destruct (Nat.eq_dec t tid) as [->|NT]; [rewrite phase_same in H; discriminate H|].
      rewrite phase_other in H by exact NT. eauto.
    + intros t l0 H. destruct (Nat.eq_dec t tid) as [->|NT]; [rewrite phase_same in H; discriminate H|].
      rewrite phase_other in H by exact NT. eauto.
  - constructor; cbn.
    + eapply reach_step; eassumption.
    + exact EX.
    + intros t l0 c H. assert (t <> tid) as NT by congruence.
      destruct (HA _ _ _ H) as (q & N' & L'). exists q. split; [|exact L'].
      eapply step_stays; try eassumption. intros e' [= E _]. congruence.
    + intros t l0 H. assert (t <> tid) as NT by congruence.
      destruct (DI _ _ H) as (q & N'). exists q.
      eapply step_stays; try eassumption. intros e' [= E _]. congruence.
  - constructor; cbn.
    + eapply reach_step; eassumption.
    + exact EX.
    + intros t l0 c H. assert (t <> tid) as NT by congruence.
      destruct (HA _ _ _ H) as (q & N' & L'). exists q. split; [|exact L'].
      eapply step_stays; try eassumption. intros e' [= E _]. congruence.
    + intros t l0 H. destruct (Nat.eq_dec t tid) as [->|NT].
      * eapply step_thread_there; eassumption.
      * destruct (DI _ _ H) as (q & N'). exists q.
        eapply step_stays; try eassumption. intros e' [= E _]. congruence.
  - constructor; cbn.
    + eapply reach_step; eassumption.
    + exact EX.
    + intros t l0 c H. destruct (HA _ _ _ H) as (q & N' & L'). exists q. split; [|exact L'].
      eapply step_stays; try eassumption. discriminate.
    + intros t l0 H. destruct (DI _ _ H) as (q & N'). exists q.
      eapply step_stays; try eassumption. discriminate.
Qed.

Lemma step_tick O w tid e w' :
  step O w (LTick tid e) = SNext w' ->
  exists p, nth_error (w_threads w) tid = Some p /\ step_thread O w tid p e = SNext w' /\ w_alive w = true.
Proof.
  unfold step. destruct (w_alive w); [|discriminate]. cbn [negb].
  destruct (nth_error (w_threads w) tid) as [p|]; [|discriminate]. intros S. exists p. auto.
Qed.

Lemma guarded_refl l w : guarded_same l w w.
Proof. apply same_keeps; reflexivity. Qed.

Lemma guarded O f lb f' l :
  fine_reachable O f -> fstep O f lb f' ->
  (exists t, by_thread lb t /\ holds_lock f t l) \/ guarded_same l (f_world f) (f_world f').
Proof.
  intros F S. destruct (fine_inv _ _ F) as [R EX HA DI].
  inversion S as [tid p e l0 A N P L NS FR EL EF|tid e l0 w' P ST EL EF|tid p l0 A N P K EL EF
    |tid p e w' N P L ST EL EF|tid p e w' N K P ST EL EF|https bytes w' ST EL EF]; subst; cbn [f_world].
  - right. apply guarded_refl.
  - destruct (HA _ _ _ P) as (p & N & L).
    destruct (step_tick _ _ _ _ _ ST) as (p' & N' & ST' & _). assert (p' = p) as -> by congruence.
    assert ({l0 = l} + {l0 <> l}) as [->|NE] by decide equality.
    + left. exists tid. split; [reflexivity|]. unfold holds_lock. rewrite P. reflexivity.
    + right. eapply unlocked_keeps; [|exact ST']. rewrite L. congruence.
  - right. apply guarded_refl.
  - right. destruct (step_tick _ _ _ _ _ ST) as (p' & N' & ST' & _). assert (p' = p) as -> by congruence.
    eapply unlocked_keeps; [|exact ST']. rewrite L. discriminate.
  - right. destruct (step_tick _ _ _ _ _ ST) as (p' & N' & ST' & _). assert (p' = p) as -> by congruence.
    eapply unlocked_keeps; [|exact ST']. destruct p; try discriminate K. destruct a; try discriminate K.
    discriminate.
  - right. unfold step in ST. destruct (w_alive (f_world f)); [|discriminate ST]. cbn [negb] in ST.
    destruct (is_some (if https then w_https (f_world f) else w_http (f_world f))); [|discriminate ST].
    injection ST as <-. apply same_keeps; reflexivity.
Qed.

(** * Nobody waits for ever *)

Definition woken (e : env) : env :=
  mkEnv (e_clk e) (e_state_bytes e) (e_verifier_bytes e) (e_nonce e) (e_client e) (e_file e)
    (e_hash e) (e_idhash e) (e_post e) (e_cmd_ok e) true.

Lemma not_stuck O w tid p e l :
  w_alive w = true -> nth_error (w_threads w) tid = Some p -> locks O p (e_client e) = Some l ->
  e_wake e = true -> step O w (LTick tid e) <> SStuck.
Proof.
  intros A N L WK S. unfold step in S. rewrite A, N in S. cbn [negb] in S.
  assert (forall w q c, run_cs w tid q c <> SStuck) as RC.
  { intros w0 q [[[x y] z]|m|]; discriminate. }
  destruct p; cbn [locks] in L; cbn [step_thread] in S; try discriminate L; try discriminate S;
    try (exfalso; exact (RC _ _ _ S)).
  - destruct (e_client e) as [req|]; [|discriminate L]. exact (RC _ _ _ S).
  - destruct (cv_pred (w_ev w)); discriminate S.
  - rewrite WK, orb_true_r in S. discriminate S.
  - destruct (w_evq w) as [|[n ev] q]; discriminate S.
  - destruct (c_token_event_cmd (lconfig (w_lk w))); discriminate S.
  - destruct (next_wakeup notify_at (w_lk w) (e_clk e)); discriminate S.
  - destruct (wait_or_go e (w_nt w) nw); discriminate S.
  - rewrite WK, orb_true_r in S. discriminate S.
  - destruct (next_wakeup refresh_at (w_lk w) (e_clk e)); discriminate S.
  - destruct (wait_or_go e (w_rf w) nw); discriminate S.
  - rewrite WK, orb_true_r in S. discriminate S.
Qed.

Lemma locked_step_alive O w tid p e l w' :
  nth_error (w_threads w) tid = Some p -> locks O p (e_client e) = Some l ->
  step O w (LTick tid e) = SNext w' -> w_alive w' = true.
Proof.
  intros N L S. destruct (step_tick _ _ _ _ _ S) as (p' & N' & ST & A). assert (p' = p) as -> by congruence.
  assert (forall w0 q c, w_alive w0 = true -> run_cs w0 tid q c = SNext w' -> w_alive w' = true) as RC.
  { intros w0 q [[[x y] z]|m|] A0 E; try discriminate E; cbn in E; injection E as <-; exact A0. }
  destruct p; cbn [locks] in L; cbn [step_thread] in ST; try discriminate L;
    try (eapply RC; [exact A|exact ST]).
  - destruct a; try discriminate L; injection ST as <-; exact A.
  - destruct (e_client e) as [req|]; [|discriminate L]. eapply RC; [|exact ST]. exact A.
  - destruct (cv_pred (w_ev w)); injection ST as <-; exact A.
  - destruct (negb (cv_waiting (w_ev w)) || e_wake e); [|discriminate ST]. injection ST as <-. exact A.
  - destruct (w_evq w) as [|[n ev] q]; injection ST as <-; exact A.
  - destruct (c_token_event_cmd (lconfig (w_lk w))); injection ST as <-; exact A.
  - destruct (next_wakeup notify_at (w_lk w) (e_clk e)); try discriminate ST; injection ST as <-; exact A.
  - destruct (wait_or_go e (w_nt w) nw); injection ST as <-; exact A.
  - destruct (negb (cv_waiting (w_nt w)) || e_wake e); [|discriminate ST]. injection ST as <-. exact A.
  - destruct (next_wakeup refresh_at (w_lk w) (e_clk e)); try discriminate ST; injection ST as <-; exact A.
  - destruct (wait_or_go e (w_rf w) nw); injection ST as <-; exact A.
  - destruct (negb (cv_waiting (w_rf w)) || e_wake e); [|discriminate ST]. injection ST as <-. exact A.
Qed.

Lemma keeps_status O w tid p :
  reachable O w -> nth_error (w_threads w) tid = Some p -> keeps_lock p = true ->
  tid = 0 /\ exists txt k, p = PDo (AEmit (OReply $"status:" txt)) k.
Proof.
  intros R N K. destruct p as [|a k| | | | | | | | | | | | | | | | | | | | | | | | | | | | ]; try discriminate K.
  destruct a as [| | | | |o|]; try discriminate K.
  destruct o as [| |req txt| | | | | | | | | | | | ]; try discriminate K.
  cbn [keeps_lock] in K. apply str_eqb_eq in K. subst req. split; [|eauto].
  eapply (chain_role_main _ _ _ _ $"status:" txt R N). left. reflexivity.
Qed.

Lemma in_hand_range O f t l : finv O f -> in_hand (f_phase f t) = Some l -> t < List.length (w_threads (f_world f)).
Proof.
  intros [R EX HA DI] H. destruct (f_phase f t) as [|l0 c|l0] eqn:P; [discriminate H|..].
  - destruct (HA _ _ _ P) as (p & N & _). apply nth_error_Some. congruence.
  - destruct (DI _ _ P) as (p & N). apply nth_error_Some. congruence.
Qed.

Lemma held_or_not O f l : finv O f -> (exists t, holds_lock f t l) \/ (forall t, in_hand (f_phase f t) <> Some l).
Proof.
  intros FI.
  assert (forall n, (exists t, holds_lock f t l) \/ (forall t, t < n -> in_hand (f_phase f t) <> Some l)) as H.
  { induction n as [|n [IH|IH]]; [right; intros t L; lia|left; exact IH|].
    assert ({in_hand (f_phase f n) = Some l} + {in_hand (f_phase f n) <> Some l}) as [E|NE]
      by (repeat decide equality).
    - left. exists n. exact E.
    - right. intros t L. destruct (Nat.eq_dec t n) as [->|N]; [exact NE|]. apply IH. lia. }
  destruct (H (List.length (w_threads (f_world f)))) as [X|X]; [left; exact X|right].
  intros t E. exact (X t (in_hand_range _ _ _ _ FI E) E).
Qed.

Definition with_client (e : env) (c : option str) : env :=
  mkEnv (e_clk e) (e_state_bytes e) (e_verifier_bytes e) (e_nonce e) c (e_file e)
    (e_hash e) (e_idhash e) (e_post e) (e_cmd_ok e) true.

Lemma may_take O f tid l :
  w_alive (f_world f) = true -> wants O f tid l -> (forall t, in_hand (f_phase f t) <> Some l) ->
  exists f', fstep O f (FTake tid) f'.
Proof.
  intros A (p & e & N & P & L & NS) FR. eexists. eapply fs_take; eassumption.
Qed.

(** Someone else's step does not end the wish. *)
Lemma still_wants O f f1 tid l :
  w_alive (f_world f1) = true ->
  (forall p, nth_error (w_threads (f_world f)) tid = Some p -> nth_error (w_threads (f_world f1)) tid = Some p) ->
  (f_phase f tid = Without -> f_phase f1 tid = Without) ->
  wants O f tid l -> wants O f1 tid l.
Proof.
  intros A SN SP (p & e & N & P & L & NS). exists p, (with_client e (e_client e)).
  split; [exact (SN _ N)|]. split; [exact (SP P)|]. split; [exact L|].
  eapply not_stuck; [exact A|exact (SN _ N)|exact L|reflexivity].
Qed.

Lemma did_gives_way O f tid t l :
  fine_reachable O f -> w_alive (f_world f) = true -> wants O f tid l -> f_phase f t = Did l ->
  (l = LkState /\ writes_status f)
  \/ exists f1, fstep O f (FDrop t) f1 /\ exists f2, fstep O f1 (FTake tid) f2.
Proof.
  intros F A W P. pose proof (fine_inv _ _ F) as [R EX HA DI].
  destruct (DI _ _ P) as (p & N).
  assert (t <> tid) as NT by (intros ->; destruct W as (q & e & _ & P' & _); congruence).
  assert ((l = LkState /\ keeps_lock p = true) \/ (l = LkState -> keeps_lock p = false)) as [[-> K]|K].
  { destruct (keeps_lock p); [|right; reflexivity]. destruct l; [left; auto|right; discriminate..]. }
  - left. split; [reflexivity|]. destruct (keeps_status _ _ _ _ R N K) as (-> & txt & k & ->).
    split; [unfold holds_lock; rewrite P; reflexivity|]. exists txt, k. exact N.
  - right. eexists. split; [eapply fs_drop; eassumption|].
    apply (may_take O _ tid l).
    + exact A.
    + eapply still_wants; [exact A|..|exact W]; [auto|]. intros E. cbn. rewrite phase_other by congruence. exact E.
    + intros t'. cbn. destruct (Nat.eq_dec t' t) as [->|N']; [rewrite phase_same; discriminate|].
      rewrite phase_other by exact N'. intros E. apply N'. eapply EX; [exact E|]. unfold holds_lock. rewrite P. reflexivity.
Qed.

Lemma no_deadlock O f tid l :
  fine_reachable O f -> w_alive (f_world f) = true -> wants O f tid l ->
  exists f', fsteps O (fun lb => exists t, t <> tid /\ holds_lock f t l /\ by_thread lb t) f f'
    /\ ((exists f'', fstep O f' (FTake tid) f'')
        \/ (l = LkState /\ (writes_status f' \/ may_break O f'))).
Proof.
  intros F A W. pose proof (fine_inv _ _ F) as FI.
  destruct (held_or_not _ _ l FI) as [(t & H)|FR].
  2: { exists f. split; [constructor|]. left. eapply may_take; eassumption. }
  assert (t <> tid) as NT.
  { intros ->. destruct W as (q & e & _ & P' & _). unfold holds_lock in H. rewrite P' in H. discriminate H. }
  destruct (f_phase f t) as [|l0 c|l0] eqn:P.
  - unfold holds_lock in H. rewrite P in H. discriminate H.
  - assert (l0 = l) as -> by (unfold holds_lock in H; rewrite P in H; cbn in H; congruence).
    destruct (fi_has _ _ FI _ _ _ P) as (p & N & L). destruct W as (q & e0 & W).
    set (e := with_client e0 c).
    pose proof (not_stuck O (f_world f) t p e l A N L eq_refl) as NS.
    destruct (step O (f_world f) (LTick t e)) as [| |w1] eqn:S; [contradiction|..].
    + exists f. split; [constructor|]. right.
      pose proof (panics_only _ _ _ (fi_reach _ _ FI) S) as B.
      assert (l = LkState) as ->.
      { inversion B; subst. assert (p = PMain) as -> by congruence. cbn in L.
        match goal with H : e_client e = Some _ |- _ => cbn in H; rewrite H in L end.
        match type of L with (if ?b then _ else _) = _ => destruct b; congruence end. }
      split; [reflexivity|]. right. exists t, e. split; [exact P|exact B].
    + set (f1 := mkFine w1 (set_phase (f_phase f) t (Did l))).
      assert (fstep O f (FWork t) f1) as S1 by (apply (fs_work O f t e l w1); assumption).
      assert (fine_reachable O f1) as F1 by (eapply fr_step; eassumption).
      assert (w_alive (f_world f1) = true) as A1 by (eapply (locked_step_alive O _ t p e); eassumption).
      assert (wants O f1 tid l) as W1.
      { eapply still_wants; [exact A1|..|exists q, e0; exact W].
        - intros p0 N0. eapply step_stays; [exact (fi_reach _ _ FI)|exact S| |exact N0]. intros e' [= E _]. congruence.
        - intros E. cbn. rewrite phase_other by congruence. exact E. }
      destruct (did_gives_way O f1 tid t l F1 A1 W1 (phase_same _ _ _)) as [(-> & WS)|(f2 & S2 & f3 & S3)].
      * exists f1. split; [eapply fss_step; [|exact S1|constructor]; exists t; repeat split; assumption|].
        right. split; [reflexivity|]. left. exact WS.
      * exists f2. split.
        { eapply fss_step; [|exact S1|]. { exists t; repeat split; assumption. }
          eapply fss_step; [|exact S2|constructor]. exists t; repeat split; assumption. }
        left. eauto.
  - assert (l0 = l) as -> by (unfold holds_lock in H; rewrite P in H; cbn in H; congruence).
    destruct (did_gives_way O f tid t l F A W P) as [(-> & WS)|(f2 & S2 & f3 & S3)].
    + exists f. split; [constructor|]. right. split; [reflexivity|]. left. exact WS.
    + exists f2. split.
      { eapply fss_step; [|exact S2|constructor]. exists t; repeat split; assumption. }
      left. eauto.
Qed.

(** Once the client has read the answer, the mutex is given back. *)
Lemma reading_releases O f :
  fine_reachable O f -> w_alive (f_world f) = true -> writes_status f ->
  exists f1 f2, fstep O f (FWrite 0) f1 /\ fstep O f1 (FDrop 0) f2 /\ forall t, ~ holds_lock f2 t LkState.
Proof.
  intros F A (H & txt & k & N). pose proof (fine_inv _ _ F) as [R EX HA DI].
  assert (f_phase f 0 = Did LkState) as P.
  { unfold holds_lock in H. destruct (f_phase f 0) as [|l c|l] eqn:P; [discriminate H|..].
    - destruct (HA _ _ _ P) as (p & N' & L). rewrite N in N'. injection N' as <-. discriminate L.
    - cbn in H. congruence. }
  set (e := mkEnv (fun _ => mkReads 0 0 0 0) [] [] [] None None (fun _ => 0%N) (fun _ => 0%N) (PRBody []) true true).
  assert (step O (f_world f) (LTick 0 e)
    = SNext (emit (set_thread (f_world f) 0 k) [OReply $"status:" txt])) as S.
  { unfold step. rewrite A, N. reflexivity. }
  eexists. eexists. split; [eapply fs_write; [exact N|reflexivity|exact P|exact S]|].
  split.
  - eapply (fs_drop _ _ 0 k LkState).
    + exact A.
    + change (nth_error (list_set 0 k (w_threads (f_world f))) 0 = Some k). eapply nth_list_set_same. exact N.
    + exact P.
    + intros _. destruct (keeps_lock k) eqn:K; [|reflexivity]. exfalso.
      destruct k as [|a k| | | | | | | | | | | | | | | | | | | | | | | | | | | | ]; try discriminate K.
      destruct a as [| | | | |o|]; try discriminate K.
      destruct o as [| |req txt'| | | | | | | | | | | | ]; try discriminate K.
      destruct (reach_answering _ _ R _ N) as [X|(r & X & _)]; discriminate X.
  - intros t. unfold holds_lock. cbn. destruct (Nat.eq_dec t 0) as [->|NT]; [rewrite phase_same; discriminate|].
    rewrite phase_other by exact NT. intros E. apply NT. eapply EX; [exact E|]. unfold holds_lock. rewrite P. reflexivity.
Qed.

(** * A client that does not read *)

Lemma held_up O f f' :
  fine_reachable O f -> writes_status f -> fsteps O (fun lb => ~ by_thread lb 0) f f' ->
  w_lk (f_world f') = w_lk (f_world f) /\ writes_status f'
  /\ forall tid p, nth_error (w_threads (f_world f)) tid = Some p -> f_phase f tid = Without ->
       (forall c, locks O p c = Some LkState) ->
       nth_error (w_threads (f_world f')) tid = Some p /\ f_phase f' tid = Without.
Proof.
  intros F WS S. induction S as [f|f lb f1 f2 AL S1 S IH]; [auto|].
  assert (fine_reachable O f1) as F1 by (eapply fr_step; eassumption).
  pose proof (fine_inv _ _ F) as [R EX HA DI]. destruct WS as (H & txt & k & N).
  assert (w_lk (f_world f1) = w_lk (f_world f)) as LK.
  { destruct (guarded _ _ _ _ LkState F S1) as [(t & BT & HT)|G]; [|exact G].
    exfalso. apply AL. rewrite (EX _ _ _ H HT). exact BT. }
  assert (forall tid p, ~ by_thread lb tid -> nth_error (w_threads (f_world f)) tid = Some p ->
            nth_error (w_threads (f_world f1)) tid = Some p /\ f_phase f1 tid = f_phase f tid) as ST.
  { intros tid p NB NP. inversion S1; subst; cbn in NB |- *; rewrite ?phase_other by congruence; (split; [|reflexivity]);
      try exact NP; (eapply step_stays; [exact R|eassumption| |exact NP]); intros e' E; congruence. }
  destruct (ST _ _ AL N) as (N1 & P1).
  assert (writes_status f1) as WS1.
  { split; [unfold holds_lock in *; rewrite P1; exact H|]. exists txt, k. exact N1. }
  destruct (IH F1 WS1) as (LK2 & WS2 & TH). split; [congruence|]. split; [exact WS2|].
  intros tid p NP P L.
  assert (~ by_thread lb tid) as NB.
  { intros BT. inversion S1 as [t q e l A Nq Pq Lq NS FR EL EF|t e l w' Pq Sq EL EF|t q l A Nq Pq K EL EF
      |t q e w' Nq Pq Lq Sq EL EF|t q e w' Nq K Pq Sq EL EF|https bytes w' Sq EL EF]; subst; cbn in BT; try subst t;
      try congruence; try contradiction. }
  destruct (ST _ _ NB NP) as (NP1 & PP1). apply TH; [exact NP1|congruence|exact L].
Qed.

(** * Every state of the server is one of these *)

Definition quiet (f : fine) : Prop := forall t, f_phase f t = Without.

Definition writing_only (f : fine) : Prop :=
  f_phase f 0 = Did LkState /\ is_writing (f_world f) /\ forall t, t <> 0 -> f_phase f t = Without.

Lemma phase_back ph t x : (forall t', ph t' = Without) -> forall t', set_phase (set_phase (set_phase ph t x) t x) t Without t' = Without.
Proof.
  intros H t'. destruct (Nat.eq_dec t' t) as [->|N]; [apply phase_same|]. rewrite !phase_other by exact N. apply H.
Qed.

Lemma writing_dec w : {is_writing w} + {~ is_writing w}.
Proof.
  unfold is_writing. destruct (nth_error (w_threads w) 0) as [p|]; [|right; intros (txt & k & E); discriminate E].
  destruct (keeps_lock p) eqn:K.
  - left. destruct p as [|a k| | | | | | | | | | | | | | | | | | | | | | | | | | | | ]; try discriminate K.
    destruct a as [| | | | |o|]; try discriminate K.
    destruct o as [| |req txt| | | | | | | | | | | | ]; try discriminate K.
    cbn [keeps_lock] in K. apply str_eqb_eq in K. subst req. eauto.
  - right. intros (txt & k & E). injection E as ->. cbn [keeps_lock] in K.
    rewrite (proj2 (str_eqb_eq $"status:" $"status:") eq_refl) in K. discriminate K.
Qed.

Lemma prompt_reachable O w : promptly O w -> reachable O w.
Proof. intros P. induction P as [e c hp hsp pk C|w l w' P IH S PR]; [eapply reach_init; exact C|eapply reach_step; eassumption]. Qed.

Lemma prompt_fine O w : promptly O w ->
  exists f, fine_reachable O f /\ f_world f = w /\ (quiet f \/ writing_only f).
Proof.
  intros P. induction P as [e c hp hsp pk C|w l w' P IH S PR].
  { eexists. split; [eapply fr_start; exact C|]. split; [reflexivity|]. left. intros t. reflexivity. }
  pose proof (prompt_reachable _ _ P) as R.
  destruct IH as ([w0 ph] & F & E & [Q|(P0 & WR & OT)]); cbn in E; subst w0.
  - destruct l as [tid e|https bytes].
    + destruct (step_tick _ _ _ _ _ S) as (p & N & ST & A).
      destruct (locks O p (e_client e)) as [lk|] eqn:L.
      * set (f1 := mkFine w (set_phase ph tid (Has lk (e_client e)))).
        set (f2 := mkFine w' (set_phase (f_phase f1) tid (Did lk))).
        assert (fstep O (mkFine w ph) (FTake tid) f1) as S1.
        { apply (fs_take O (mkFine w ph) tid p e lk); cbn; auto; [congruence|].
          intros t. rewrite (Q t : ph t = Without). discriminate. }
        assert (fstep O f1 (FWork tid) f2) as S2.
        { apply (fs_work O f1 tid e lk w'); [apply phase_same|exact S]. }
        assert (fine_reachable O f2) as F2 by (eapply fr_step; [eapply fr_step; [exact F|exact S1]|exact S2]).
        assert (w_alive w' = true) as A' by (eapply locked_step_alive; eassumption).
        destruct (step_thread_there _ _ _ _ _ R S) as (p' & N').
        assert ((lk = LkState /\ keeps_lock p' = true) \/ (lk = LkState -> keeps_lock p' = false)) as [[-> K]|K].
        { destruct (keeps_lock p'); [|right; reflexivity]. destruct lk; [left; auto|right; discriminate..]. }
        -- exists f2. split; [exact F2|]. split; [reflexivity|]. right.
           assert (reachable O w') as R' by (eapply reach_step; eassumption).
           destruct (keeps_status _ _ _ _ R' N' K) as (-> & txt & k & ->).
           split; [apply phase_same|]. split; [exists txt, k; exact N'|].
           intros t NT. cbn. rewrite !phase_other by exact NT. apply Q.
        -- eexists. split; [eapply fr_step; [exact F2|]; eapply (fs_drop O f2 tid p' lk); [exact A'|exact N'|apply phase_same|exact K]|].
           split; [reflexivity|]. left. intros t. cbn.
           destruct (Nat.eq_dec t tid) as [->|NT]; [apply phase_same|]. rewrite !phase_other by exact NT. apply Q.
      * eexists. split; [eapply fr_step; [exact F|]; eapply (fs_plain O _ tid p e w'); [exact N|apply Q|exact L|exact S]|].
        split; [reflexivity|]. left. exact Q.
    + eexists. split; [eapply fr_step; [exact F|]; eapply (fs_conn O _ https bytes w'); exact S|].
      split; [reflexivity|]. left. exact Q.
  - destruct (PR WR) as (e & ->). cbn in P0, OT, WR. destruct WR as (txt & k & N).
    destruct (step_tick _ _ _ _ _ S) as (p & N' & ST & A).
    assert (w' = emit (set_thread w 0 k) [OReply $"status:" txt]) as EW.
    { rewrite N in N'. injection N' as <-. cbn in ST. injection ST as <-. reflexivity. }
    destruct (reading_releases O _ F A) as (f1 & f2 & S1 & S2 & FR).
    { split; [unfold holds_lock; cbn; rewrite P0; reflexivity|]. exists txt, k. exact N. }
    exists f2. split; [eapply fr_step; [eapply fr_step; [exact F|exact S1]|exact S2]|].
    inversion S1 as [| | | |t q e1 w1 Nq K Pq Sq EL EF|]; subst f1. subst t.
    inversion S2 as [| |t q1 l1 A1 N1 P1 K1 EL1 EF1| | |]; subst f2. subst t.
    cbn [f_world] in Nq, Sq |- *. split.
    + unfold step in Sq. rewrite A, N in Sq. cbn [negb step_thread do_action] in Sq. injection Sq as <-. symmetry. exact EW.
    + left. intros t. cbn. destruct (Nat.eq_dec t 0) as [->|NT]; [apply phase_same|].
      rewrite phase_other by exact NT. apply OT. exact NT.
Qed.

(** Runs in which the answers to [status] are read at once. *)
Fixpoint prompt_run (O : oracles) (w : world) (ls : list label) : option world :=
  match ls with
  | [] => Some w
  | l :: ls' =>
      if (match nth_error (w_threads w) 0 with Some p => keeps_lock p | None => false end)
         && negb (match l with LTick 0 _ => true | _ => false end)
      then None
      else match step O w l with SNext w' => prompt_run O w' ls' | _ => None end
  end.

Lemma prompt_run_ok O ls : forall w w', promptly O w -> prompt_run O w ls = Some w' -> promptly O w'.
Proof.
  induction ls as [|l ls IH]; cbn [prompt_run]; intros w w' P E; [congruence|].
  match type of E with (if ?b then _ else _) = _ => destruct b eqn:B; [discriminate E|] end.
  destruct (step O w l) as [| |w1] eqn:S; try discriminate E. eapply IH; [|exact E].
  eapply pr_step; [exact P|exact S|]. intros (txt & k & N). rewrite N in B.
  assert (keeps_lock (PDo (AEmit (OReply $"status:" txt)) k) = true) as K by (apply str_eqb_eq; reflexivity).
  rewrite K in B. cbn [andb] in B. destruct l as [[|t] e|h b]; try discriminate B. eauto.
Qed.
