(** C80 and C81: what the log says, and what it never says. *)
From Verif Require Import Base BaseLemmas Time Utf8 Base64 Url Json Oracles Config Dump State Http Timers Server Startup Log
  SpecServer SpecLife SpecUtf8 SpecSecrets Utf8Spec SpecLog StateLemmas Steps Inv Reach Own Trace Origin Pend Decide Refresh Loss Wake Events Life
  Secrets LogLemmas LogFacts Scenario Runs Cases Props6.

(** How a command ends in the examples. *)
Definition no_command : asides := mkAsides (CExit (Some 0%N) []) [].

(** * C80 *)

(** ** Requests *)

(** A request that is not documented is logged, with what is wrong with it. *)
Theorem C80_malformed O w e req x :
  nth_error (w_threads w) 0 = Some PMain -> e_client e = Some req -> ~ documented req ->
  exists m, complaint req m /\ log_of O w (LTick 0 e) x = [(LWarn, m)].
Proof.
  intros N C D. rewrite (client_log_of O w e req x N C). exact (malformed_log O w e req D).
Qed.
Print Assumptions C80_malformed.

(** Nothing is logged about one that is, unless it gets no answer. *)
Theorem C80_documented O w e req x :
  reachable O w -> w_alive w = true -> nth_error (w_threads w) 0 = Some PMain -> e_client e = Some req ->
  documented req ->
  log_of O w (LTick 0 e) x = []
  \/ exists m, log_of O w (LTick 0 e) x = [(LWarn, m)] /\ no_answer O w e req m
       /\ step O w (LTick 0 e) = SNext (emit w [OClient req]).
Proof. exact (documented_log O w e req x). Qed.
Print Assumptions C80_documented.

(** A request that is cut short; one whose argument breaks off within a
    character; and one in order. *)
Example C80_malformed_case :
  let at0 req := main (client req (tick (sec 1010))) in
  reachable toy w_auth /\ w_alive w_auth = true /\ nth_error (w_threads w_auth) 0 = Some PMain
  /\ ~ documented $"showtoken" /\ documented $"status:"
  /\ log_of toy w_auth (at0 $"showtoken") no_command = [(LWarn, $"Syntactically invalid request 'showtoken'")]
  /\ log_of toy w_auth (at0 ($"revoke:" ++ ["195"%char])) no_command
     = [(LWarn, $"incomplete utf-8 byte sequence from index 0")]
  /\ log_of toy w_auth (at0 ($"revoke:a" ++ ["195"%char; "b"%char])) no_command
     = [(LWarn, $"invalid utf-8 sequence of 1 bytes from index 1")]
  /\ log_of toy w_auth (at0 $"status:now") no_command = [(LWarn, $"Invalid command")]
  /\ log_of toy w_auth (at0 $"status:") no_command = [].
Proof.
  cbv zeta. split; [unfold w_auth; reach_after|]. split; [vm_compute; reflexivity|]. split; [vm_compute; reflexivity|].
  split; [intros D; apply docb_iff in D; vm_compute in D; discriminate D|].
  split; [apply docb_iff; vm_compute; reflexivity|]. compute_all.
Qed.

(** ** Refreshes *)

(** A token that is lost on the way is accounted for. *)
Theorem C80_lost_token O w tid e w' n a x :
  reachable O w -> step O w (LTick tid e) = SNext w' -> holds w n (TSActive a) ->
  (forall a', ~ holds w' n (TSActive a')) -> tid <> 0 -> refresh_token a <> None ->
  exists m, log_of O w (LTick tid e) x = [(LInfo, m)] /\ refresh_line O w n m
    /\ exists r, m = $"Permanent refresh error for " ++ n ++ r.
Proof. exact (loss_logged O w tid e w' n a x). Qed.
Print Assumptions C80_lost_token.

Example C80_lost_token_case :
  exists a w w',
    let e := Scenario.posted (PRStatus 400 (Some $"no")) (tick (sec 1022)) in
    w = after w_refreshing [LTick 5 e] /\ reachable toy w
    /\ step toy w (LTick 5 e) = SNext w' /\ holds w $"a" (TSActive a) /\ refresh_token a <> None
    /\ (forall a', ~ holds w' $"a" (TSActive a'))
    /\ log_of toy w (LTick 5 e) no_command = [(LInfo, $"Permanent refresh error for a: 400: no")].
Proof.
  do 3 eexists. cbv zeta. split; [reflexivity|].
  split; [unfold w_refreshing, w_auth; reach_after|]. split; [vm_compute; reflexivity|].
  split; [eexists; split; [vm_compute; left; reflexivity|]; split; vm_compute; reflexivity|].
  split; [vm_compute; discriminate|].
  split; [intros a' (e0 & H & E & T); vm_compute in H; destruct H as [<-|[<-|[]]]; discriminate T|].
  vm_compute. reflexivity.
Qed.

(** So is a failure that is counted, unless the user's command is going to be
    asked about it. *)
Theorem C80_counted_failure O w tid e w' n a a' x :
  reachable O w -> step O w (LTick tid e) = SNext w' -> holds w n (TSActive a) -> holds w' n (TSActive a') ->
  fails a' = N.succ (fails a) ->
  (exists m, log_of O w (LTick tid e) x = [(LInfo, m)] /\ refresh_line O w n m
     /\ exists r, m = $"Transitory refresh error for " ++ n ++ r)
  \/ ((fails a' mod 6 = 0)%N
      /\ (exists i cmd, c_transient_error_if_cmd (lconfig (w_lk w)) = Some cmd
            /\ nth_error (w_threads w') tid = Some (PRefCmd i n cmd))
      /\ log_of O w (LTick tid e) x = []).
Proof. exact (failure_logged O w tid e w' n a a' x). Qed.
Print Assumptions C80_counted_failure.

Example C80_counted_failure_case :
  exists a a' w w',
    let e := Scenario.posted (PRTransport TrDns $"no") (tick (sec 1022)) in
    w = after w_refreshing [LTick 5 e] /\ reachable toy w
    /\ step toy w (LTick 5 e) = SNext w' /\ holds w $"a" (TSActive a) /\ holds w' $"a" (TSActive a')
    /\ fails a' = N.succ (fails a)
    /\ log_of toy w (LTick 5 e) no_command = [(LInfo, $"Transitory refresh error for a : no")].
Proof.
  do 4 eexists. cbv zeta. split; [reflexivity|].
  split; [unfold w_refreshing, w_auth; reach_after|]. split; [vm_compute; reflexivity|].
  split; [eexists; split; [vm_compute; left; reflexivity|]; split; vm_compute; reflexivity|].
  split; [eexists; split; [vm_compute; left; reflexivity|]; split; vm_compute; reflexivity|].
  split; vm_compute; reflexivity.
Qed.

(** The sixth failure in a row goes unmentioned; what the command says does
    not. *)
Example C80_sixth_failure_case :
  let six := failing 5 5 ++ ask $"refresh:withurl a" 1020 2
    ++ [LTick 10 (tick (sec 1021)); LTick 10 (Scenario.posted (PRTransport TrDns $"no") (tick (sec 1022)))] in
  let e := tick (sec 1023) in
  let w := after w_auth six in
  reachable toy w /\ step toy w (LTick 10 e) = SNext w_six /\ log_of toy w (LTick 10 e) no_command = []
  /\ (let bad := cmd_result false (tick (sec 1025)) in
      log_of toy (after w_six [LTick 10 bad]) (LTick 10 bad) (mkAsides (CExit (Some 0%N) []) $"gone")
      = [(LInfo, $"Permanent refresh error for a : gone")]).
Proof.
  cbv zeta. split; [unfold w_auth; reach_after|]. compute_all.
Qed.

(** No line at level "info" says anything else, or anything untrue. *)
Theorem C80_info_lines O w tid e x m :
  reachable O w -> In (LInfo, m) (log_of O w (LTick tid e) x) -> exists n, refresh_line O w n m.
Proof. exact (info_sound O w tid e x m). Qed.
Print Assumptions C80_info_lines.

(** ** Warnings *)

(** The browser is told nothing of a token granted for too long (C19), but the
    log is. *)
Theorem C80_unrepresentable O w tid e w' n i ts body v tok exs act x :
  reachable O w -> step O w (LTick tid e) = SNext w' ->
  nth_error (w_threads w) tid = Some (PHttpBody i body) -> In (mkEntry n i ts) (details (w_lk w)) ->
  o_json O body = inl v -> grants v tok exs -> configured w n act -> no_end (lconfig (w_lk w)) act (env_now e) exs ->
  log_of O w (LTick tid e) x = [(LWarn, $"Can't represent expiry")].
Proof. exact (expiry_logged O w tid e w' n i ts body v tok exs act x). Qed.
Print Assumptions C80_unrepresentable.

Example C80_unrepresentable_case :
  exists w w' n i ts v tok exs act,
    let e := tick time_max in
    w = after w_post [LTick 4 (Scenario.posted (PRBody $"Btok") (tick (sec 1002)))] /\ reachable toy w
    /\ step toy w (LTick 4 e) = SNext w' /\ nth_error (w_threads w) 4 = Some (PHttpBody i $"Btok")
    /\ In (mkEntry n i ts) (details (w_lk w)) /\ o_json toy $"Btok" = inl v /\ grants v tok exs
    /\ configured w n act /\ no_end (lconfig (w_lk w)) act (env_now e) exs.
Proof.
  do 9 eexists. cbv zeta. split; [reflexivity|].
  split; [unfold w_post, w_cb, w_pend; reach_after|]. split; [vm_compute; reflexivity|].
  split; [vm_compute; reflexivity|]. split; [vm_compute; left; reflexivity|].
  split; [vm_compute; reflexivity|]. split; [unfold grants; repeat split; vm_compute; reflexivity|].
  split; [vm_compute; reflexivity|]. unfold no_end. split; vm_compute; reflexivity.
Qed.

(** Nothing else is logged at this level. *)
Theorem C80_warnings O w l w' x m :
  reachable O w -> step O w l = SNext w' -> In (LWarn, m) (log_of O w l x) -> warning O w l m.
Proof. exact (warn_sound O w l w' x m). Qed.
Print Assumptions C80_warnings.

(** ** Errors *)

(** At level "error", what is said goes with what is done: a failed authorisation
    for which no command is configured, and commands that do not end well. *)
Theorem C80_errors O w l w' x :
  reachable O w -> step O w l = SNext w' -> ((forall e, l <> LTick 1 e) -> x_end x <> CTimeout) ->
  exists os, w_trace w' = w_trace w ++ os /\ error_lines (x_end x) os (filter is_error (log_of O w l x)).
Proof. exact (errors_of O w l w' x). Qed.
Print Assumptions C80_errors.

(** The notification command of [conf1] fails. *)
Example C80_errors_case :
  let l := nt (tick (sec 1000)) in
  let failed := mkAsides (CExit (Some 1%N) $"no display") [] in
  reachable toy w_nt_decided /\ (exists w', step toy w_nt_decided l = SNext w')
  /\ ((forall e, l <> LTick 1 e) -> x_end failed <> CTimeout)
  /\ filter is_error (log_of toy w_nt_decided l failed) = [(LError, $"a: error when running 'notify': no display")].
Proof.
  cbv zeta. split; [unfold w_nt_decided, w_nt_look, w_pend; reach_after|].
  split; [eexists; vm_compute; reflexivity|]. split; [intros _; discriminate|].
  vm_compute. reflexivity.
Qed.

(** ** What is shown *)

(** Without [-v] the errors are, with one also the warnings, with two
    everything. *)
Theorem C80_shown O w l x v :
  let lines := log_of O w l x in
  (forall y, In y (shown_at 0 lines) <-> In y lines /\ fst y = LError)
  /\ (forall y, In y (shown_at 1 lines) <-> In y lines /\ (fst y = LError \/ fst y = LWarn))
  /\ shown_at (S (S v)) lines = lines.
Proof.
  cbv zeta. split; [|split].
  - intros y. rewrite shown_errors, filter_In. destruct y as [[] m]; cbn; intuition congruence.
  - intros y. rewrite shown_warnings, filter_In. destruct y as [[] m]; cbn; intuition congruence.
  - exact (shown_all O w l x v).
Qed.
Print Assumptions C80_shown.

(** * C81 *)

(** Two runs that differ in access tokens, refresh tokens and code verifiers only
    write the same log. *)
Theorem C81_step O w1 w2 l1 l2 x :
  cipher_uniform O -> same_but_secrets O w1 w2 -> alike_label O l1 l2 -> log_of O w1 l1 x = log_of O w2 l2 x.
Proof. exact (sim_log O w1 w2 l1 l2 x). Qed.
Print Assumptions C81_step.

Theorem C81_log O ls1 ls2 w1 w2 :
  cipher_uniform O -> same_but_secrets O w1 w2 ->
  Forall2 (fun a b => alike_label O (fst a) (fst b) /\ snd a = snd b) ls1 ls2 ->
  run_log O w1 ls1 = run_log O w2 ls2.
Proof. exact (fun U S F => sim_run_log O U ls1 ls2 w1 w2 S F). Qed.
Print Assumptions C81_log.

(** Two runs in which the provider grants different tokens and then refuses to
    refresh them. *)
Definition until_lost (body : str) : list (label * asides) :=
  map (fun l => (l, no_command))
    (authorise body ++ ask $"refresh:withurl a" 1020 2 ++ [LTick 5 (tick (sec 1021))]
     ++ many 2 5 (Scenario.posted (PRStatus 400 (Some $"no")) (tick (sec 1022)))).

Example C81_case :
  cipher_uniform toy /\ same_but_secrets toy (start conf1) (start conf1)
  /\ Forall2 (fun a b => alike_label toy (fst a) (fst b) /\ snd a = snd b) (until_lost $"Rtok") (until_lost $"Rother")
  /\ run_log toy (start conf1) (until_lost $"Rtok") = [(LInfo, $"Permanent refresh error for a: 400: no")].
Proof.
  split; [intros n p p' H; discriminate H|]. split; [split; reflexivity|].
  split; [|vm_compute; reflexivity].
  assert (forall e, alike toy e e) as R by (intros e; constructor; auto).
  repeat (apply Forall2_cons; [split; [first [apply al_conn | apply al_tick; apply R | idtac]|reflexivity]|]); [|apply Forall2_nil].
  apply al_tick. constructor; try reflexivity. right. exists $"Rtok", $"Rother".
  split; [reflexivity|]. split; reflexivity.
Qed.
