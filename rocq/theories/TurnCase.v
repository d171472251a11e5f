(** A run in which a client and a browser obtain a token, and one in which another
    client is given it after it has been renewed. *)
From Verif Require Import Base BaseLemmas Time Utf8 Url Json Oracles Config Dump State Http Timers Server SpecServer
  SpecTimers SpecSessions SpecFair SpecTimed SpecReturn Wire SpecWire SpecServe SpecTurn WireLemmas WireNet Reach Steps Inv Fair
  TimedServe Scenario Runs Cases Endless TimedCase FlakyCase ServeCase.
Local Open Scope Z_scope.

Section Prompt.
Variable s0 : net.
Variable l : list (Z * nlabel).
Variable t0 tl t1 : Z.
Notation at_ := (given_at s0 l).
Notation time_ := (given_time l t0 t1).
Hypothesis START : net_reachable toy s0.
Hypothesis RUNS : match net_after_all s0 l with Some s => idle s && all_told_b s | None => false end = true.
Hypothesis CLOCKS : Forall given_clock l.
Hypothesis OK : forallb (given_ok s0 l t0 tl t1) (seq 0 (S (List.length l))) = true.

(** The refresher sleeps, and wakes up within a second of the time it has set, and no refresh is under way. *)
Definition asleep (s : net) (t : Z) : bool :=
  match nth_error (w_threads (n_world s)) 3 with
  | Some (PRfBlocked (Some u)) => cv_waiting (w_rf (n_world s)) && (t <=? u + sec 1)
  | Some (PRfBlocked None) => cv_waiting (w_rf (n_world s))
  | _ => false
  end
  && forallb (fun q => match q with
       | PRefPost _ _ _ _ _ | PRefCmd _ _ _ | PRefStart _ | PRefBody _ _ _ _ | PRefGot _ _ _ _ _ _
       | PRefTransient _ _ _ | PRefCmdDone _ _ _ | PRfTop | PRfCheck _ | PRfScan | PDo _ _ => false
       | _ => true end) (w_threads (n_world s)).

Definition asleep_ok (k : nat) : bool := (time_ (S k) =? time_ k) || asleep (at_ k) (time_ (S k)).
Hypothesis QUIET : forallb asleep_ok (seq 0 (S (List.length l))) = true.
Hypothesis END_QUIET : asleep (at_ (List.length l)) t1 = true.

Lemma quiet k : time_ (S k) = time_ k \/ asleep (at_ k) (time_ (S k)) = true.
Proof.
  destruct (Nat.lt_ge_cases k (S (List.length l))) as [L|G].
  - pose proof (proj1 (forallb_forall _ _) QUIET k ltac:(apply in_seq; lia)) as B. unfold asleep_ok in B.
    apply orb_true_iff in B as [B|B]; [left; apply Z.eqb_eq; exact B|right; exact B].
  - right. rewrite given_time_after by lia. revert END_QUIET. unfold given_at. rewrite !firstn_all2 by lia. auto.
Qed.

Lemma busy_still d (Q : nat -> Prop) : 0 <= d -> (forall k, Q k -> forall t, asleep (at_ k) t = false) -> brief time_ Q d.
Proof.
  intros D SQ k j L H. enough (time_ (S j) = time_ k) by lia.
  assert (forall i, Q i -> time_ (S i) = time_ i) as ST.
  { intros i QI. destruct (quiet i) as [X|X]; [exact X|]. rewrite SQ in X by exact QI. discriminate X. }
  induction L as [|j L IH]; [apply ST; apply H; lia|]. rewrite ST by (apply H; lia). apply IH. intros i I1 I2. apply H; lia.
Qed.

Lemma asleep_thread s t tid q : nth_error (w_threads (n_world s)) tid = Some q ->
  match q with
  | PRefPost _ _ _ _ _ | PRefCmd _ _ _ | PRefStart _ | PRefBody _ _ _ _ | PRefGot _ _ _ _ _ _
  | PRefTransient _ _ _ | PRefCmdDone _ _ _ | PRfTop | PRfCheck _ | PRfScan | PDo _ _ => True
  | _ => False end -> asleep s t = false.
Proof.
  intros N F. destruct (asleep s t) eqn:E; [|reflexivity]. exfalso. unfold asleep in E.
  apply andb_true_iff in E as [_ E].
  pose proof (proj1 (forallb_forall _ _) E _ (nth_error_In _ _ N)) as X. destruct q; try discriminate X; exact F.
Qed.

Lemma given_prompt d : sec 1 <= d -> prompt toy (worlds at_) (labels toy at_ (given_step l)) time_ d d.
Proof.
  intros D1. assert (0 <= d) as D by (apply Z.le_trans with (2 := D1); vm_compute; discriminate).
  pose proof (given_browsing s0 l t0 tl t1 START RUNS CLOCKS OK d D) as B. constructor.
  - exact (br_endless _ _ _ _ _ _ B).
  - exact (br_forward _ _ _ _ _ _ B).
  - exact (br_clock _ _ _ _ _ _ B).
  - intros tid q b LI. assert (b = d) as -> by (destruct q; try discriminate LI; cbn in LI; congruence).
    apply (busy_still d _ D). intros k N t. eapply asleep_thread; [exact N|]. destruct q; try discriminate LI; exact I.
  - apply (busy_still d _ D). intros k (a & q & N) t. eapply asleep_thread; [exact N|exact I].
  - intros tid. apply (busy_still d _ D). intros k (q & N & W) t. eapply asleep_thread; [exact N|].
    destruct q; try (exfalso; exact W). exact I.
  - intros nw. apply (busy_still d _ D). intros k (N & W) t. unfold worlds in N, W. unfold asleep. rewrite N, W. destruct nw; reflexivity.
  - intros t k j L H. enough (time_ (S j) <= Z.max (time_ k) t + sec 1) by lia.
    induction L as [|j L IH].
    + destruct (quiet k) as [X|X]; [assert (0 <= sec 1) by (vm_compute; discriminate); lia|]. destruct (H k (le_n _) (le_n _)) as [N W]. unfold worlds in N, W.
      unfold asleep in X. rewrite N in X. apply andb_true_iff in X as [X _]. apply andb_true_iff in X as [_ X]. apply Z.leb_le in X. lia.
    + destruct (quiet (S j)) as [X|X].
      * rewrite X. apply IH. intros i I1 I2. apply H; lia.
      * destruct (H (S j) ltac:(lia) (le_n _)) as [N W]. unfold worlds in N, W.
        unfold asleep in X. rewrite N in X. apply andb_true_iff in X as [X _]. apply andb_true_iff in X as [_ X]. apply Z.leb_le in X. lia.
Qed.
End Prompt.

(** A client asks for a token; a browser brings the code in two pieces. *)
Definition coming : str := callback ($"state=" ++ state_of $"statebytes" ++ $"&code=c0de").
Definition obtain : list (Z * nlabel) :=
  all_at 1000 (repeat (NTick 3 (tick (sec 1000))) 2)
  ++ all_at 1000 [NClient; NClientSends 0 $"showtoken:withurl a"; NClientEnds 0 Ended; NMain (tick (sec 1000));
                  NTick 0 (tick (sec 1000)); NTick 0 (tick (sec 1000))]
  ++ all_at 1001 [NBrowser false; NBrowserSends 0 (firstn 9 coming)]
  ++ all_at 1003 ([NBrowserSends 0 (skipn 9 coming); NRead 0]
       ++ repeat (NTick 4 (tick (sec 1003))) 2 ++ [NTick 4 (posted (PRBody $"Rtok") (tick (sec 1003)))]
       ++ repeat (NTick 4 (tick (sec 1003))) 4 ++ repeat (NTick 3 (tick (sec 1003))) 5).

(** Later another client asks for it, and takes its time; meanwhile the token is renewed. *)
Definition renewed : list (Z * nlabel) :=
  all_at 1041 ([NTick 3 (woken (tick (sec 1041)))] ++ repeat (NTick 3 (tick (sec 1041))) 4)
  ++ all_at 1052 [NClient; NClientSends 1 $"showtoken:wi"]
  ++ all_at 1054 ([NTick 3 (woken (tick (sec 1054)))] ++ repeat (NTick 3 (tick (sec 1054))) 3
       ++ [NTick 5 (tick (sec 1054)); NTick 5 (posted (PRBody $"Rnew") (tick (sec 1054)))]
       ++ repeat (NTick 5 (tick (sec 1054))) 5 ++ repeat (NTick 3 (tick (sec 1054))) 5)
  ++ all_at 1056 [NClientSends 1 $"thurl a"; NClientEnds 1 Ended; NMain (tick (sec 1056)); NTick 0 (tick (sec 1056))].

Definition obtain_at : nat -> net := given_at (net_start (start conf_soon)) obtain.
Definition settled_net : net := obtain_at (List.length obtain).
Definition obtain_step : nat -> option nlabel := given_step obtain.
Definition obtain_time : nat -> Z := given_time obtain (sec 1000) (sec 1040).
Definition obtain_env : nat -> env := given_env obtain (sec 1000) (sec 1040).

Definition renewed_at : nat -> net := given_at settled_net renewed.
Definition renewed_step : nat -> option nlabel := given_step renewed.
Definition renewed_time : nat -> Z := given_time renewed (sec 1040) (sec 1090).
Definition renewed_env : nat -> env := given_env renewed (sec 1040) (sec 1090).

Lemma obtain_start : net_reachable toy (net_start (start conf_soon)).
Proof. apply (nreach_init toy (env_file conf_soon)). vm_compute. reflexivity. Qed.

Lemma obtain_clocks : Forall given_clock obtain.
Proof.
  unfold obtain, all_at. cbn [map app repeat]. repeat match goal with |- Forall _ _ => constructor end; unfold given_clock; cbn [snd fst]; try exact I;
    intros i; reflexivity.
Qed.

Lemma renewed_clocks : Forall given_clock renewed.
Proof.
  unfold renewed, all_at. cbn [map app repeat]. repeat match goal with |- Forall _ _ => constructor end; unfold given_clock; cbn [snd fst]; try exact I;
    intros i; reflexivity.
Qed.

Lemma obtain_serving : serving toy obtain_at obtain_step obtain_env obtain_time (sec 1) 0.
Proof.
  change 0 with (sec 1000 - sec 1000).
  apply (given_serving (net_start (start conf_soon)) obtain (sec 1000) (sec 1000) (sec 1040) obtain_start);
    try (vm_compute; reflexivity); try (vm_compute; discriminate).
Qed.

Lemma obtain_browsing : browsing toy (worlds obtain_at) (labels toy obtain_at obtain_step) obtain_time (sec 1) (sec 1).
Proof.
  apply (given_browsing (net_start (start conf_soon)) obtain (sec 1000) (sec 1000) (sec 1040) obtain_start);
    try (vm_compute; reflexivity); try (vm_compute; discriminate). exact obtain_clocks.
Qed.

Lemma renewed_start : net_reachable toy settled_net.
Proof. exact (net_reach toy obtain_at obtain_step (List.length obtain) (se_nets _ _ _ _ _ _ _ obtain_serving)). Qed.

Lemma renewed_serving : serving toy renewed_at renewed_step renewed_env renewed_time (sec 1) (sec 16).
Proof.
  change (sec 16) with (sec 1056 - sec 1040).
  apply (given_serving settled_net renewed (sec 1040) (sec 1056) (sec 1090) renewed_start);
    try (vm_compute; reflexivity); try (vm_compute; discriminate).
Qed.

Lemma renewed_prompt : prompt toy (worlds renewed_at) (labels toy renewed_at renewed_step) renewed_time (sec 1) (sec 1).
Proof.
  apply (given_prompt settled_net renewed (sec 1040) (sec 1056) (sec 1090) renewed_start);
    try (vm_compute; reflexivity); try (vm_compute; discriminate). exact renewed_clocks.
Qed.

(** What holds at the times of a run holds at all times. *)
Lemma renewed_always (b : nat -> bool) :
  forallb b (seq 0 27) = true -> (forall k, (27 <= k)%nat -> b k = true) -> forall k, b k = true.
Proof.
  intros F R k. destruct (Nat.lt_ge_cases k 27) as [L|G]; [|apply R; exact G].
  apply (proj1 (forallb_forall _ _) F). apply in_seq. lia.
Qed.

Lemma renewed_after k : (27 <= k)%nat -> renewed_step k = None.
Proof. intros L. unfold renewed_step, given_step. rewrite (proj2 (nth_error_None renewed k)); [reflexivity|exact L]. Qed.

Lemma renewed_stays k : (27 <= k)%nat -> renewed_at k = renewed_at 27.
Proof. intros L. unfold renewed_at, given_at. rewrite !firstn_all2; [reflexivity|exact (le_n _)|exact L]. Qed.

(** The client only looks. *)
Definition looks (k : nat) : bool :=
  match labels toy renewed_at renewed_step k with Some (LTick 0 _) => (25 <=? k)%nat && (k <=? 26)%nat | _ => true end.

Lemma renewed_undisturbed : undisturbed (worlds renewed_at) (labels toy renewed_at renewed_step) 0 $"a".
Proof.
  intros j e _ _ ([env G] & I & NI). apply NI.
  assert (looks j = true) as B.
  { apply renewed_always; [vm_compute; reflexivity|]. intros k L. unfold looks, labels. rewrite renewed_after by exact L. reflexivity. }
  unfold looks in B. rewrite G in B. apply andb_true_iff in B as [B1 B2]. apply Nat.leb_le in B1, B2.
  assert (j = 25 \/ j = 26)%nat as [->| ->] by lia;
    [assert (w_lk (worlds renewed_at 26) = w_lk (worlds renewed_at 25)) as -> by (vm_compute; reflexivity)
    |assert (w_lk (worlds renewed_at 27) = w_lk (worlds renewed_at 26)) as -> by (vm_compute; reflexivity)]; exact I.
Qed.

Definition answers_new (k : nat) : bool :=
  match observed (worlds renewed_at) k with [OPost _ _ res] => match res with PRBody s => str_eqb s $"Rnew" | _ => false end | _ => true end.

Lemma renewed_provider : good_provider toy (worlds renewed_at) 0 $"a" (sec 3600) (sec 3600).
Proof.
  intros j a r uri pairs res _ _ _ OB _.
  assert (answers_new j = true) as B.
  { apply renewed_always; [vm_compute; reflexivity|]. intros k L. unfold answers_new, observed, worlds.
    rewrite (renewed_stays (S k)), (renewed_stays k) by lia. rewrite skipn_all. reflexivity. }
  unfold answers_new in B. rewrite OB in B. destruct res as [s| | |]; try discriminate B. apply str_eqb_eq in B. subst s.
  exists $"Rnew", (JObj [($"access_token", JStr $"new"); ($"token_type", JStr $"Bearer"); ($"expires_in", JNum 3600); ($"refresh_token", JStr $"r")]),
    $"new", 3600.
  split; [reflexivity|]. split; [vm_compute; reflexivity|]. do 4 (split; [reflexivity|]).
  split; [unfold sec, from_secs, secs, nanos; lia|]. right. exists $"r". reflexivity.
Qed.

Definition margins (k : nat) : bool :=
  match lookup $"a" (c_accounts (lconfig (w_lk (worlds renewed_at k)))) with
  | Some act => (margin act (conf (worlds renewed_at k)) =? sec 2000)
  | None => true
  end.

Lemma renewed_margin j act : configured (worlds renewed_at j) $"a" act -> margin act (conf (worlds renewed_at j)) = sec 2000.
Proof.
  intros C. unfold configured in C. assert (margins j = true) as B.
  { apply renewed_always; [vm_compute; reflexivity|]. intros k L. unfold margins, worlds. rewrite renewed_stays by exact L. vm_compute. reflexivity. }
  unfold margins in B. rewrite C in B. apply Z.eqb_eq. exact B.
Qed.

Lemma renewed_within k : renewed_time k <= sec 1090.
Proof.
  apply Z.leb_le. apply (renewed_always (fun k => renewed_time k <=? sec 1090)); [vm_compute; reflexivity|].
  intros i L. destruct (Nat.eq_dec i 27) as [->|N]; [vm_compute; reflexivity|].
  unfold renewed_time. rewrite given_time_after; [reflexivity|]. change (List.length renewed) with 27%nat. lia.
Qed.

(** Nobody asks for the status. *)
Definition no_status (s : net) : bool :=
  forallb (fun c => negb (str_eqb (List.concat (c_in c)) $"status:")) (n_clients s).

Lemma no_status_ok O e s : no_status s = true -> ~ next_breaks O e s.
Proof.
  intros U (c & N & B). inversion B as [tid e1 k e0 A M C D F]. subst.
  pose proof (proj1 (forallb_forall _ _) U _ (nth_error_In _ _ N)) as X. cbn [with_client e_client] in C.
  injection C as C. cbn beta in X. rewrite C in X. vm_compute in X. discriminate X.
Qed.

Lemma renewed_unbroken x : ~ next_breaks toy (renewed_env x) (renewed_at x).
Proof.
  apply no_status_ok. revert x. apply renewed_always; [vm_compute; reflexivity|].
  intros k L. rewrite renewed_stays by exact L. vm_compute. reflexivity.
Qed.

(** The browser's request. *)
Definition code_url : url :=
  match parse_get toy false coming with Some u => u | None => mkUrl [] [] None None [] None None end.

(** * An outage *)

Definition late_net : net := given_at (net_start (start conf_late)) obtain (List.length obtain).

(** The provider cannot be reached when the token is to be renewed; a client asks for
    it; ten seconds later it is renewed. *)
Definition outage : list (Z * nlabel) :=
  all_at 1041 ([NTick 3 (woken (tick (sec 1041)))] ++ repeat (NTick 3 (tick (sec 1041))) 4)
  ++ all_at 1054 ([NTick 3 (woken (tick (sec 1054)))] ++ repeat (NTick 3 (tick (sec 1054))) 3
       ++ [NTick 5 (tick (sec 1054)); NTick 5 (posted (PRTransport TrDns $"no") (tick (sec 1054)))]
       ++ repeat (NTick 5 (tick (sec 1054))) 2 ++ repeat (NTick 3 (tick (sec 1054))) 5)
  ++ all_at 1056 [NClient; NClientSends 1 $"showtoken:withurl a"; NClientEnds 1 Ended; NMain (tick (sec 1056)); NTick 0 (tick (sec 1056))]
  ++ all_at 1065 ([NTick 3 (woken (tick (sec 1065)))] ++ repeat (NTick 3 (tick (sec 1065))) 3
       ++ [NTick 6 (tick (sec 1065)); NTick 6 (posted (PRBody $"Rnew") (tick (sec 1065)))]
       ++ repeat (NTick 6 (tick (sec 1065))) 5 ++ repeat (NTick 3 (tick (sec 1065))) 5).

Definition outage_at : nat -> net := given_at late_net outage.
Definition outage_step : nat -> option nlabel := given_step outage.
Definition outage_time : nat -> Z := given_time outage (sec 1041) (sec 1100).
Definition outage_env : nat -> env := given_env outage (sec 1041) (sec 1100).

Lemma late_net_start : net_reachable toy (net_start (start conf_late)).
Proof. apply (nreach_init toy (env_file conf_late)). vm_compute. reflexivity. Qed.

Lemma outage_clocks : Forall given_clock outage.
Proof.
  unfold outage, all_at. cbn [map app repeat]. repeat match goal with |- Forall _ _ => constructor end; unfold given_clock; cbn [snd fst]; try exact I;
    intros i; reflexivity.
Qed.

Lemma outage_start : net_reachable toy late_net.
Proof.
  apply (net_reach toy (given_at (net_start (start conf_late)) obtain) (given_step obtain) (List.length obtain)).
  apply (given_nets (net_start (start conf_late)) obtain late_net_start). vm_compute. reflexivity.
Qed.

Lemma outage_serving : serving toy outage_at outage_step outage_env outage_time (sec 1) (sec 15).
Proof.
  change (sec 15) with (sec 1056 - sec 1041).
  apply (given_serving late_net outage (sec 1041) (sec 1056) (sec 1100) outage_start);
    try (vm_compute; reflexivity); try (vm_compute; discriminate).
Qed.

Lemma outage_prompt : prompt toy (worlds outage_at) (labels toy outage_at outage_step) outage_time (sec 1) (sec 1).
Proof.
  apply (given_prompt late_net outage (sec 1041) (sec 1056) (sec 1100) outage_start);
    try (vm_compute; reflexivity); try (vm_compute; discriminate). exact outage_clocks.
Qed.

Lemma outage_always (b : nat -> bool) :
  forallb b (seq 0 39) = true -> (forall k, (39 <= k)%nat -> b k = true) -> forall k, b k = true.
Proof.
  intros F R k. destruct (Nat.lt_ge_cases k 39) as [L|G]; [|apply R; exact G].
  apply (proj1 (forallb_forall _ _) F). apply in_seq. lia.
Qed.

Lemma outage_after k : (39 <= k)%nat -> outage_step k = None.
Proof. intros L. unfold outage_step, given_step. rewrite (proj2 (nth_error_None outage k)); [reflexivity|exact L]. Qed.

Lemma outage_stays k : (39 <= k)%nat -> outage_at k = outage_at 39.
Proof. intros L. unfold outage_at, given_at. rewrite !firstn_all2; [reflexivity|exact (le_n _)|exact L]. Qed.

Definition outage_looks (k : nat) : bool :=
  match labels toy outage_at outage_step k with Some (LTick 0 _) => (21 <=? k)%nat && (k <=? 22)%nat | _ => true end.

Lemma outage_undisturbed : undisturbed (worlds outage_at) (labels toy outage_at outage_step) 0 $"a".
Proof.
  intros j e _ _ ([env G] & I & NI). apply NI.
  assert (outage_looks j = true) as B.
  { apply outage_always; [vm_compute; reflexivity|]. intros k L. unfold outage_looks, labels. rewrite outage_after by exact L. reflexivity. }
  unfold outage_looks in B. rewrite G in B. apply andb_true_iff in B as [B1 B2]. apply Nat.leb_le in B1, B2.
  assert (j = 21 \/ j = 22)%nat as [->| ->] by lia;
    [assert (w_lk (worlds outage_at 22) = w_lk (worlds outage_at 21)) as -> by (vm_compute; reflexivity)
    |assert (w_lk (worlds outage_at 23) = w_lk (worlds outage_at 22)) as -> by (vm_compute; reflexivity)]; exact I.
Qed.

(** There is one failure. *)
Definition outage_answer (k : nat) : bool :=
  match observed (worlds outage_at) k with
  | [OPost _ _ res] => match res with PRBody s => str_eqb s $"Rnew" | PRTransport TrDns _ => (k =? 10)%nat | _ => false end
  | [OTransientCmd _ _ _] => false
  | _ => true
  end.

Lemma outage_answers j : outage_answer j = true.
Proof.
  apply outage_always; [vm_compute; reflexivity|]. intros k L. unfold outage_answer, observed, worlds.
  rewrite (outage_stays (S k)), (outage_stays k) by lia. rewrite skipn_all. reflexivity.
Qed.

Lemma outage_fails j : fails_at (worlds outage_at) $"a" j -> j = 10%nat.
Proof.
  intros (res & (a & r & uri & pairs & _ & _ & OB & _) & T). pose proof (outage_answers j) as B. unfold outage_answer in B.
  rewrite OB in B. destruct res as [s| | |t m]; try discriminate B; [exfalso; exact T|].
  destruct t; try discriminate B. apply Nat.eqb_eq. exact B.
Qed.

Lemma outage_provider : flaky_provider toy (worlds outage_at) outage_time 0 $"a" (sec 3600) (sec 3600) 0.
Proof.
  constructor.
  - intros j res _ (a & r & uri & pairs & _ & _ & OB & _). pose proof (outage_answers j) as B. unfold outage_answer in B. rewrite OB in B.
    destruct res as [s| | |t m]; try discriminate B; [|destruct t; try discriminate B; right; exact I].
    apply str_eqb_eq in B. subst s. left.
    exists $"Rnew", (JObj [($"access_token", JStr $"new"); ($"token_type", JStr $"Bearer"); ($"expires_in", JNum 3600); ($"refresh_token", JStr $"r")]),
      $"new", 3600.
    split; [reflexivity|]. split; [vm_compute; reflexivity|]. do 4 (split; [reflexivity|]).
    split; [unfold sec, from_secs, secs, nanos; lia|]. right. exists $"r". reflexivity.
  - intros j j' t _ _ _ F F'. rewrite (outage_fails _ F), (outage_fails _ F'). vm_compute. discriminate.
  - intros j cmd _ OB. pose proof (outage_answers j) as B. unfold outage_answer in B. rewrite OB in B. discriminate B.
Qed.

Definition outage_setting (k : nat) : bool :=
  match lookup $"a" (c_accounts (lconfig (w_lk (worlds outage_at k)))) with
  | Some act => (margin act (conf (worlds outage_at k)) =? sec 3000) && (retry_gap act (conf (worlds outage_at k)) =? sec 10)
  | None => true
  end.

Lemma outage_settings j act : configured (worlds outage_at j) $"a" act ->
  margin act (conf (worlds outage_at j)) = sec 3000 /\ retry_gap act (conf (worlds outage_at j)) = sec 10.
Proof.
  intros C. unfold configured in C. assert (outage_setting j = true) as B.
  { apply outage_always; [vm_compute; reflexivity|]. intros k L. unfold outage_setting, worlds. rewrite outage_stays by exact L. vm_compute. reflexivity. }
  unfold outage_setting in B. rewrite C in B. apply andb_true_iff in B as [B1 B2]. split; apply Z.eqb_eq; assumption.
Qed.

Lemma outage_within k : outage_time k <= sec 1100.
Proof.
  apply Z.leb_le. apply (outage_always (fun k => outage_time k <=? sec 1100)); [vm_compute; reflexivity|].
  intros i L. destruct (Nat.eq_dec i 39) as [->|N]; [vm_compute; reflexivity|].
  unfold outage_time. rewrite given_time_after; [reflexivity|]. change (List.length outage) with 39%nat. lia.
Qed.

Lemma outage_unbroken x : ~ next_breaks toy (outage_env x) (outage_at x).
Proof.
  apply no_status_ok. revert x. apply outage_always; [vm_compute; reflexivity|].
  intros k L. rewrite outage_stays by exact L. vm_compute. reflexivity.
Qed.
