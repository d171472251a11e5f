(** Unless told to stop, the server can go on for ever, whatever comes from outside. *)
From Verif Require Import Base BaseLemmas Time Utf8 Base64 Url Json Oracles Config Dump State Http Timers Server
  StateLemmas ConfigLemmas Steps Inv Reach Own SpecServer SpecTimers SpecSessions SpecFair SpecStop Trace Reply Dialog Remind Wake Events Sched Sessions
  Counters Fair Stop.

(** [e] at time [t]. *)
Definition env_at (t : Z) (wake : bool) (e : env) : env :=
  mkEnv (fun _ => mkReads t t t t) (e_state_bytes e) (e_verifier_bytes e) (e_nonce e) (e_client e) (e_file e)
    (e_hash e) (e_idhash e) (e_post e) (e_cmd_ok e) wake.

Lemma env_at_same t wake e : same_inputs (env_at t wake e) e.
Proof. repeat split. Qed.

(** Is thread [tid] asleep until a time before [t]? *)
Definition oversleeps (w : world) (tid : nat) (t : Z) : bool :=
  match nth_error (w_threads w) tid with
  | Some (PRfBlocked (Some d)) => cv_waiting (w_rf w) && (d <? t)%Z
  | Some (PNtBlocked (Some d)) => cv_waiting (w_nt w) && (d <? t)%Z
  | _ => false
  end.

(** The threads take turns: 0; 0, 1, 2; 0, 1, 2, 3, 4; ... *)
Definition turn (m : nat) : nat := m - Nat.sqrt m * Nat.sqrt m.

Lemma turn_again tid k : exists m, k <= m /\ turn m = tid.
Proof.
  set (n := k + tid). exists (n * n + tid). split; [unfold n; nia|].
  unfold turn. rewrite (Nat.sqrt_unique _ n); [lia|]. unfold n. nia.
Qed.

Section GoOn.
Context (O : oracles) (w0 : world) (t0 : Z) (out : nat -> world -> env) (conn : nat -> world -> option (bool * str)).
Hypothesis R0 : reachable O w0.
Hypothesis A0 : w_alive w0 = true.
Hypothesis NT : ~ told_to_stop (w_trace w0).
Hypothesis NS : forall k w, e_client (out k w) <> Some $"shutdown:".
Hypothesis NB : forall k w e, reachable O w -> same_inputs e (out k w) -> ~ breaks_down O w (LTick 0 e).

Definition now_at (k : nat) : Z := (t0 + Z.of_nat k)%Z.

(** What may happen at time [k] in state [w]. *)
Definition try_label (k : nat) (w : world) : option label :=
  if Nat.even k then match conn k w with Some (https, bytes) => Some (LHttpConn https bytes) | None => None end
  else let tid := turn (Nat.div2 k) in
       Some (LTick tid (env_at (now_at k) (oversleeps w tid (now_at k)) (out k w))).

Definition next_at (k : nat) (w : world) : option label * world :=
  match try_label k w with
  | Some l => match step O w l with SNext w' => (Some l, w') | _ => (None, w) end
  | None => (None, w)
  end.

Fixpoint gs (k : nat) : world := match k with 0 => w0 | S j => snd (next_at j (gs j)) end.
Definition gl (k : nat) : option label := fst (next_at k (gs k)).

Lemma gl_next k : match gl k with Some l => step O (gs k) l = SNext (gs (S k)) | None => gs (S k) = gs k end.
Proof.
  unfold gl. cbn [gs]. unfold next_at. destruct (try_label k (gs k)) as [l|]; [|reflexivity].
  destruct (step O (gs k) l) eqn:S; cbn [fst snd]; try reflexivity. exact S.
Qed.

Lemma g_endless : endless O gs gl.
Proof. constructor; [exact R0|exact gl_next]. Qed.

Lemma g_reach k : reachable O (gs k).
Proof. exact (reach_at O gs gl g_endless k). Qed.

Lemma gl_tick k tid e : gl k = Some (LTick tid e) ->
  Nat.even k = false /\ tid = turn (Nat.div2 k) /\ e = env_at (now_at k) (oversleeps (gs k) tid (now_at k)) (out k (gs k)).
Proof.
  unfold gl, next_at. destruct (try_label k (gs k)) as [l|] eqn:T; [|discriminate].
  destruct (step O (gs k) l); cbn [fst]; try discriminate. intros [= ->]. unfold try_label in T.
  destruct (Nat.even k); [destruct (conn k (gs k)) as [[h b]|]; discriminate T|].
  injection T as <- <-. split; [reflexivity|]. split; reflexivity.
Qed.

Lemma gl_conn k https bytes : gl k = Some (LHttpConn https bytes) -> conn k (gs k) = Some (https, bytes).
Proof.
  unfold gl, next_at. destruct (try_label k (gs k)) as [l|] eqn:T; [|discriminate].
  destruct (step O (gs k) l); cbn [fst]; try discriminate. intros [= ->]. unfold try_label in T.
  destruct (Nat.even k); [|discriminate T]. destruct (conn k (gs k)) as [[h b]|]; [|discriminate T]. injection T as -> ->. reflexivity.
Qed.

(** The server stays alive. *)
Lemma g_alive k : w_alive (gs k) = true /\ exists p, nth_error (w_threads (gs k)) 0 = Some p /\ ~ halts p.
Proof.
  induction k as [|k (A & p & N & H)].
  - split; [exact A0|]. destruct (permanent_threads O w0 0 R0) as (p & N & _); [lia|]. exists p. split; [exact N|].
    intros X. destruct (st_main _ (reach_stopping _ _ R0) 0 p N X) as [_ Y]. exact (NT Y).
  - pose proof (gl_next k) as S. destruct (gl k) as [l|] eqn:GL.
    2: { rewrite S. split; [exact A|]. exists p. split; [exact N|exact H]. }
    pose proof (g_reach k) as R.
    destruct (step_ok _ _ _ _ (reach_inv _ _ R) S) as (_ & _ & T & _).
    split.
    + remember (gs (Datatypes.S k)) as w' eqn:EW. clear EW. destruct T as [tid e q lk' p' os N' C|tid e q w' N' SY|https bytes P]; try exact A.
      destruct SY; try exact A. destruct a; try exact A. exfalso.
      destruct (st_main _ (reach_stopping _ _ R) tid _ N' (or_introl eq_refl)) as [-> _].
      apply H. rewrite N in N'. injection N' as ->. left. reflexivity.
    + assert ({exists e, l = LTick 0 e} + {forall e, l <> LTick 0 e}) as [(e & ->)|NE].
      { destruct l as [[|tid] e|]; [left; eexists; reflexivity|right; intros e' X; discriminate X|right; intros e' X; discriminate X]. }
      2: { exists p. split; [|exact H]. eapply tstep_other; eassumption. }
      destruct (permanent_threads O _ 0 (g_reach (Datatypes.S k))) as (p1 & N1 & _); [lia|]. exists p1. split; [exact N1|]. intros X.
      destruct (own_step _ _ _ _ _ _ R N S) as [(lk' & p' & os & C & E')|SY].
      * assert (p1 = p') as ->.
        { rewrite E' in N1. pose proof (nth_list_set_same _ p' _ _ N) as L.
          change (nth_error (list_set 0 p' (w_threads (gs k))) 0 = Some p1) in N1. rewrite L in N1. injection N1 as ->. reflexivity. }
        pose proof (csr_halts _ _ _ _ _ _ _ C X) as ->.
        destruct (step_halts _ _ _ _ _ _ R S N N1 X) as [EC _].
        destruct (gl_tick k _ _ GL) as (_ & _ & E). rewrite E in EC. exact (NS _ _ EC).
      * pose proof (ro_pc _ (reach_roles _ _ R) _ _ N) as RN.
        destruct SY; try discriminate RN.
        assert (nth_error (w_threads (do_action (set_thread (gs k) 0 k0) a)) 0 = Some k0) as N2.
        { pose proof (nth_list_set_same _ k0 _ _ N) as L.
          destruct a; try exact L. change (nth_error (list_set 0 k0 (w_threads (gs k)) ++ [PRefStart i]) 0 = Some k0). rewrite nth_error_app1; [exact L|]. apply nth_error_Some. rewrite L. discriminate. }
        rewrite N1 in N2. injection N2 as ->. apply H. right. exact X.
Qed.

Lemma turn_time tid k : exists j, k <= j /\ Nat.even j = false /\ turn (Nat.div2 j) = tid.
Proof.
  destruct (turn_again tid k) as (m & L & T). exists (S (2 * m)). split; [lia|]. split.
  - rewrite Nat.even_succ, Nat.odd_mul. reflexivity.
  - rewrite Nat.div2_succ_double. exact T.
Qed.

(** At its turn a thread goes, unless it waits. *)
Lemma at_turn k tid : Nat.even k = false -> turn (Nat.div2 k) = tid -> tid < List.length (w_threads (gs k)) ->
  goes gl k tid \/ over (gs k) tid
  \/ waits (gs k) (env_at (now_at k) (oversleeps (gs k) tid (now_at k)) (out k (gs k))) tid.
Proof.
  intros EV T L.
  destruct (enabled_or_waiting O (gs k) tid (env_at (now_at k) (oversleeps (gs k) tid (now_at k)) (out k (gs k)))
              (g_reach k) (proj1 (g_alive k)) L) as [[OV _]|[W|(w' & S)]].
  { destruct tid as [|tid]; [apply (NB k); [apply g_reach|apply env_at_same]|].
    destruct (nth_error (w_threads (gs k)) (S tid)) as [p|] eqn:N; [|apply nth_error_None in N; lia].
    apply (main_only _ _ _ _ _ N). intros ->. pose proof (ro_pc _ (reach_roles _ _ (g_reach k)) _ _ N) as RN.
    destruct tid as [|[|[|]]]; discriminate RN. }
  - right. left. exact OV.
  - right. right. exact W.
  - left. exists (env_at (now_at k) (oversleeps (gs k) tid (now_at k)) (out k (gs k))).
    unfold gl, next_at, try_label. rewrite EV, T. cbv zeta. rewrite S. reflexivity.
Qed.

Lemma threads_stay k d : List.length (w_threads (gs k)) <= List.length (w_threads (gs (k + d))).
Proof.
  destruct (Nat.le_gt_cases (List.length (w_threads (gs k))) (List.length (w_threads (gs (k + d))))) as [L|G]; [exact L|].
  exfalso. revert G. induction d as [|d IH]; intros G; [rewrite Nat.add_0_r in G; lia|].
  rewrite Nat.add_succ_r in G. apply IH. clear IH.
  enough (List.length (w_threads (gs (k + d))) <= List.length (w_threads (gs (S (k + d))))) by lia.
  pose proof (gl_next (k + d)) as S. destruct (gl (k + d)) as [l|]; [|rewrite S; lia].
  destruct (step_ok _ _ _ _ (reach_inv _ _ (g_reach (k + d))) S) as (_ & _ & T & _).
  destruct (Nat.le_gt_cases (List.length (w_threads (gs (k + d)))) (List.length (w_threads (gs (Datatypes.S (k + d)))))) as [L|G']; [exact L|].
  remember (gs (Datatypes.S (k + d))) as w' eqn:EW. clear EW S G.
  destruct T as [tid e q lk' p' os N' C|tid e q w' N' SY|https bytes P].
  - cbn. rewrite list_set_length. lia.
  - destruct SY; cbn in *; rewrite ?list_set_length in *; try lia.
    destruct a; cbn in *; rewrite ?app_length, ?list_set_length in *; lia.
  - cbn. rewrite app_length. lia.
Qed.

Lemma g_fair : fair gs gl.
Proof.
  intros tid k L. destruct (turn_time tid k) as (j & KJ & EV & T). exists j. split; [exact KJ|].
  assert (tid < List.length (w_threads (gs j))) as LJ.
  { pose proof (threads_stay k (j - k)) as X. replace (k + (j - k)) with j in X by lia. lia. }
  destruct (at_turn j tid EV T LJ) as [G|[OV|W]]; [right; exact G|left; exact (rest_over _ _ OV)|left].
  destruct W as [N _|N C _|t N C _|t N C _].
  - exact (rest_client _ N).
  - apply rest_eventer. split; [exact N|exact C].
  - apply (rest_notifier _ t). split; [exact N|exact C].
  - apply (rest_refresher _ t). split; [exact N|exact C].
Qed.

Lemma g_passes t : passes gl t.
Proof.
  exists (Z.to_nat (t - t0 + 1)). intros k tid e i L E. destruct (gl_tick k tid e E) as (_ & _ & ->).
  cbn. unfold now_at. lia.
Qed.

Lemma g_steady : steady t0 gl.
Proof.
  split.
  - intros k tid e i E. destruct (gl_tick k tid e E) as (_ & _ & ->). cbn. unfold now_at. lia.
  - intros j k tid1 tid2 e1 e2 i1 i2 L E1 E2.
    destruct (gl_tick j tid1 e1 E1) as (_ & _ & ->). destruct (gl_tick k tid2 e2 E2) as (_ & _ & ->). cbn. unfold now_at. lia.
Qed.

Lemma g_punctual : punctual gs gl.
Proof.
  intros k tid e E W. destruct (gl_tick k tid e E) as (_ & _ & ->). cbn in W. unfold oversleeps in W.
  destruct (nth_error (w_threads (gs k)) tid) as [p|] eqn:N; [|discriminate W].
  pose proof (ro_pc _ (reach_roles _ _ (g_reach k)) _ _ N) as RN.
  destruct p as [ | | | | | | | | | | | | | | | | | | | | | | |nw|nw| | |nw|nw|]; try discriminate W.
  all: destruct nw as [d|]; [|discriminate W]; apply andb_true_iff in W as [WC WT]; exists d;
    (split; [apply Z.ltb_lt in WT; exact WT|]).
  - right. assert (tid = 2) as -> by (destruct tid as [|[|[|[|tid]]]]; discriminate RN || reflexivity).
    split; [split; [exact N|exact WC]|reflexivity].
  - left. assert (tid = 3) as -> by (destruct tid as [|[|[|[|tid]]]]; discriminate RN || reflexivity).
    split; [split; [exact N|exact WC]|reflexivity].
Qed.

Lemma late_turn tid k d : exists j, k <= j /\ Nat.even j = false /\ turn (Nat.div2 j) = tid /\ (d < now_at j)%Z.
Proof.
  destruct (turn_time tid (k + Z.to_nat (d - t0 + 1))) as (j & L & EV & T).
  exists j. split; [lia|]. split; [exact EV|]. split; [exact T|]. unfold now_at. lia.
Qed.

Lemma g_timely : timely gs gl.
Proof.
  intros k d. split; intros SL; (split; [apply g_passes|]).
  - destruct (late_turn 3 k d) as (j & L & EV & T & LT).
    destruct (nth_error (w_threads (gs j)) 3) as [p|] eqn:N.
    2: { exists j. split; [exact L|]. intros [X _]. rewrite N in X. discriminate X. }
    assert (p = PRfBlocked (Some d) \/ p <> PRfBlocked (Some d)) as [->|NE].
    { destruct p as [ | | | | | | | | | | | | | | | | | | | | | | |nw|nw| | |nw|nw|]; try (right; discriminate).
      destruct nw as [d'|]; [|right; discriminate]. destruct (Z.eq_dec d' d) as [->|ND]; [left; reflexivity|right; congruence]. }
    2: { exists j. split; [exact L|]. intros [X _]. rewrite N in X. injection X as X. exact (NE X). }
    destruct (cv_waiting (w_rf (gs j))) eqn:CW.
    2: { exists j. split; [exact L|]. intros [_ X]. rewrite CW in X. discriminate X. }
    assert (goes gl j 3) as (e & GE).
    { destruct (at_turn j 3 EV T) as [G|[OV|W]].
      - apply nth_error_Some. rewrite N. discriminate.
      - exact G.
      - unfold over in OV. rewrite N in OV. discriminate OV.
      - exfalso. inversion W as [| | |t N' C' WK]. cbn in WK. unfold oversleeps in WK. rewrite N, CW in WK.
        apply Z.ltb_lt in LT. rewrite LT in WK. discriminate WK. }
    exists (S j). split; [lia|]. pose proof (gl_next j) as S. rewrite GE in S.
    destruct (refresher_next _ _ _ _ _ (g_reach j) N S) as (p' & N' & -> & _). intros [X _]. rewrite N' in X. discriminate X.
  - destruct (late_turn 2 k d) as (j & L & EV & T & LT).
    destruct (nth_error (w_threads (gs j)) 2) as [p|] eqn:N.
    2: { exists j. split; [exact L|]. intros [X _]. rewrite N in X. discriminate X. }
    assert (p = PNtBlocked (Some d) \/ p <> PNtBlocked (Some d)) as [->|NE].
    { destruct p as [ | | | | | | | | | | | | | | | | | | | | | | |nw|nw| | |nw|nw|]; try (right; discriminate).
      destruct nw as [d'|]; [|right; discriminate]. destruct (Z.eq_dec d' d) as [->|ND]; [left; reflexivity|right; congruence]. }
    2: { exists j. split; [exact L|]. intros [X _]. rewrite N in X. injection X as X. exact (NE X). }
    destruct (cv_waiting (w_nt (gs j))) eqn:CW.
    2: { exists j. split; [exact L|]. intros [_ X]. rewrite CW in X. discriminate X. }
    assert (goes gl j 2) as (e & GE).
    { destruct (at_turn j 2 EV T) as [G|[OV|W]].
      - apply nth_error_Some. rewrite N. discriminate.
      - exact G.
      - unfold over in OV. rewrite N in OV. discriminate OV.
      - exfalso. inversion W as [| |t N' C' WK|]. cbn in WK. unfold oversleeps in WK. rewrite N, CW in WK.
        apply Z.ltb_lt in LT. rewrite LT in WK. discriminate WK. }
    exists (S j). split; [lia|]. pose proof (gl_next j) as S. rewrite GE in S.
    destruct (notifier_next _ _ _ _ _ (g_reach j) N S) as (p' & N' & -> & _). intros [X _]. rewrite N' in X. discriminate X.
Qed.

Lemma g_inputs k tid e : gl k = Some (LTick tid e) -> same_inputs e (out k (gs k)).
Proof. intros E. destruct (gl_tick k tid e E) as (_ & _ & ->). apply env_at_same. Qed.

(** A browser that keeps trying gets a connection. *)
Lemma g_conns k https bytes :
  (forall j, k <= j -> conn j (gs j) = Some (https, bytes)) ->
  (forall j, k <= j -> is_some (if https then w_https (gs j) else w_http (gs j)) = true) ->
  exists j, k <= j /\ gl j = Some (LHttpConn https bytes).
Proof.
  intros C P. exists (2 * k). split; [lia|].
  specialize (C (2 * k) ltac:(lia)). specialize (P (2 * k) ltac:(lia)).
  unfold gl, next_at, try_label. assert (Nat.even (2 * k) = true) as -> by (rewrite Nat.even_mul; reflexivity). rewrite C.
  unfold step. rewrite (proj1 (g_alive (2 * k))). cbn [negb]. rewrite P. reflexivity.
Qed.

(** A client that keeps asking is heard. *)
Lemma g_clients k req :
  (forall j, k <= j -> e_client (out j (gs j)) = Some req) ->
  exists j, k <= j /\ In (OClient req) (observed gs j).
Proof.
  intros C. destruct (main_returns O gs gl g_endless g_fair k) as (j & KJ & N). unfold at_ in N.
  destruct (turn_time 0 j) as (i & JI & EV & T).
  destruct (first_step gl j 0 (S (i - j))) as [NG|(m & JM & _ & G & NG)].
  - (* cannot be: at time [i] it is the main thread's turn *)
    exfalso. assert (nth_error (w_threads (gs i)) 0 = Some PMain) as NI.
    { pose proof (at_stays O gs gl g_endless j 0 PMain (i - j) N) as X. unfold at_ in X. replace (j + (i - j)) with i in X by lia.
      apply X. intros n A B. apply NG; lia. }
    destruct (at_turn i 0 EV T) as [G|[OV|W]].
    + apply nth_error_Some. rewrite NI. discriminate.
    + exact (NG i JI ltac:(lia) G).
    + unfold over in OV. rewrite NI in OV. discriminate OV.
    + inversion W as [N' CN| | |]. cbn in CN. rewrite (C i ltac:(lia)) in CN. discriminate CN.
  - exists m. split; [lia|]. destruct G as (e & GE).
    assert (nth_error (w_threads (gs m)) 0 = Some PMain) as NM.
    { pose proof (at_stays O gs gl g_endless j 0 PMain (m - j) N) as X. unfold at_ in X. replace (j + (m - j)) with m in X by lia.
      apply X. intros n A B. apply NG; lia. }
    pose proof (gl_next m) as S. rewrite GE in S. destruct (gl_tick m 0 e GE) as (_ & _ & E).
    assert (e_client e = Some req) as EC by (rewrite E; exact (C m ltac:(lia))). clear E.
    unfold step in S. rewrite (proj1 (g_alive m)), NM in S. cbn [negb step_thread] in S. rewrite EC in S.
    unfold run_cs in S. unfold observed. remember (gs (Datatypes.S m)) as w' eqn:EW. clear EW.
    destruct (request O e (gs m) req) as [[[lk p] os]|msg|]; [..|discriminate S]; injection S as S; rewrite <- S; cbn.
    + rewrite <- app_assoc, skipn_app, skipn_all, Nat.sub_diag. left. reflexivity.
    + rewrite skipn_app, skipn_all, Nat.sub_diag. left. reflexivity.
Qed.
End GoOn.

Lemma goes_on_for_ever O w t0 out conn :
  reachable O w -> w_alive w = true -> ~ told_to_stop (w_trace w) ->
  (forall k v, e_client (out k v) <> Some $"shutdown:") ->
  (forall k v e, reachable O v -> same_inputs e (out k v) -> ~ breaks_down O v (LTick 0 e)) ->
  exists ws ls, carries_on O w t0 out conn ws ls.
Proof.
  intros R A NT NS NB. exists (gs O w t0 out conn), (gl O w t0 out conn). constructor.
  - reflexivity.
  - apply g_endless; assumption.
  - intros k. apply g_alive; assumption.
  - apply g_fair; assumption.
  - apply g_timely; assumption.
  - intros t. apply g_passes; assumption.
  - apply g_steady; assumption.
  - apply g_punctual; assumption.
  - intros k tid e. apply g_inputs; assumption.
  - intros k h b. apply gl_conn; assumption.
  - intros k req. apply g_clients; assumption.
  - intros k h b. apply g_conns; assumption.
Qed.
