(** Runs of the server in which every state is entered at some time, in which
    the clock shows that time, and in which nothing takes longer than it may. *)
From Verif Require Import Base Time Utf8 Base64 Url Json Oracles Config Dump State Http Timers Server SpecServer
  SpecTimers SpecSessions SpecFair.
Local Open Scope Z_scope.

(** [tau k] is when the server's [k]-th state begins.  Whenever [Q] holds for a
    while, that while is no longer than [b]: it includes the step that ends it. *)
Definition brief (tau : nat -> Z) (Q : nat -> Prop) (b : Z) : Prop :=
  forall k j, (k <= j)%nat -> (forall i, (k <= i)%nat -> (i <= j)%nat -> Q i) -> tau (S j) <= tau k + b.

(** How long a thread may stay at a program point: the refresher and a refresh
    [d], but waiting for the provider's answer or a command [p].  Nothing is said
    of the others. *)
Definition limit (d p : Z) (q : pc) : option Z :=
  match q with
  | PRefPost _ _ _ _ _ | PRefCmd _ _ _ => Some p
  | PRefStart _ | PRefBody _ _ _ _ | PRefGot _ _ _ _ _ _ | PRefTransient _ _ _ | PRefCmdDone _ _ _ => Some d
  | PRfTop | PRfCheck _ | PRfScan => Some d
  | _ => None
  end.

Record prompt (O : oracles) (ws : nat -> world) (ls : nat -> option label) (tau : nat -> Z) (d p : Z) : Prop := mkPrompt {
  pr_endless : endless O ws ls;
  (* time goes on, or stands still *)
  pr_forward : forall k, tau k <= tau (S k);
  (* a clock read in a step shows a time during that step *)
  pr_clock : forall k tid e i, ls k = Some (LTick tid e) -> tau k <= ri1 (e_clk e i) <= tau (S k);
  (* the refresher and refreshes do not dawdle *)
  pr_point : forall tid q b, limit d p q = Some b ->
    brief tau (fun i => nth_error (w_threads (ws i)) tid = Some q) b;
  (* the refresher begins all refreshes it has decided on within [d] *)
  pr_spawn : brief tau (fun i => exists a q, nth_error (w_threads (ws i)) 3 = Some (PDo a q)) d;
  (* signals to it arrive within [d] *)
  pr_signal : forall tid,
    brief tau (fun i => exists q, nth_error (w_threads (ws i)) tid = Some q /\ In ASigRefresher (will_do q)) d;
  (* notified, it wakes up within [d] *)
  pr_notified : forall nw,
    brief tau (fun i => nth_error (w_threads (ws i)) 3 = Some (PRfBlocked nw) /\ cv_waiting (w_rf (ws i)) = false) d;
  (* and so it does when the time it has set is reached *)
  pr_alarm : forall t k j, (k <= j)%nat ->
    (forall i, (k <= i)%nat -> (i <= j)%nat -> refresher_sleeps (ws i) (Some t)) ->
    tau (S j) <= Z.max (tau k) t + d;
}.

(** From [k] on no client changes anything about account [n]. *)
Definition undisturbed (ws : nat -> world) (ls : nat -> option label) (k : nat) (n : str) : Prop :=
  forall j e, (k <= j)%nat -> d_name e = n -> ~ changed_by_client ws ls j e.

(** A good answer: a token that lives for at least [lo] and at most [hi]; if a
    refresh token comes with it, it is one. *)
Definition good_answer (O : oracles) (lo hi : Z) (res : post_result) : Prop :=
  exists body v tok ex,
    res = PRBody body /\ o_json O body = inl v /\ json_str $"error" v = None
    /\ json_str $"access_token" v = Some tok /\ json_str $"token_type" v = Some $"Bearer"
    /\ json_u64 $"expires_in" v = Some ex /\ lo <= secs ex <= hi
    /\ (json_get $"refresh_token" v = None \/ exists x, json_get $"refresh_token" v = Some (JStr x)).

(** From [k] on account [n]'s refresh tokens get good answers. *)
Definition good_provider (O : oracles) (ws : nat -> world) (k : nat) (n : str) (lo hi : Z) : Prop :=
  forall j a r uri pairs res, (k <= j)%nat ->
    holds (ws j) n (TSActive a) -> refresh_token a = Some r ->
    observed ws j = [OPost uri pairs res] -> In ($"refresh_token", r) pairs ->
    good_answer O lo hi res.

(** Account [n]'s refresh token is sent to the provider, who answers [res]. *)
Definition tries (ws : nat -> world) (n : str) (j : nat) (res : post_result) : Prop :=
  exists a r uri pairs, holds (ws j) n (TSActive a) /\ refresh_token a = Some r
    /\ observed ws j = [OPost uri pairs res] /\ In ($"refresh_token", r) pairs.

Definition fails_at (ws : nat -> world) (n : str) (j : nat) : Prop :=
  exists res, tries ws n j res /\ transient res.

(** A provider who cannot be reached now and then, but not for longer than [b]
    while account [n] has one and the same token. *)
Record flaky_provider (O : oracles) (ws : nat -> world) (tau : nat -> Z) (k : nat) (n : str) (lo hi b : Z) : Prop := mkFlaky {
  fp_answers : forall j res, (k <= j)%nat -> tries ws n j res -> good_answer O lo hi res \/ transient res;
  fp_outage : forall j j' t, (k <= j)%nat -> (j <= j')%nat ->
    (forall i, (j <= i)%nat -> (i <= j')%nat -> exists a, holds (ws i) n (TSActive a) /\ obtained a = t) ->
    fails_at ws n j -> fails_at ws n j' -> tau (S j') <= tau j + b;
  (* [transient_error_if_cmd], if it is run, says that this may pass *)
  fp_command : forall j cmd, (k <= j)%nat -> observed ws j <> [OTransientCmd cmd n false];
}.

(** The same for the notifier: it stays no longer than [d] at a program point,
    starts the commands it has decided on within [d], and wakes up within [d] of
    being notified or of the time it has set; signals to it take no longer either. *)
Definition notifier_point (q : pc) : Prop :=
  match q with PNtTop | PNtCheck _ | PNtScan => True | _ => False end.

Record attentive (O : oracles) (ws : nat -> world) (ls : nat -> option label) (tau : nat -> Z) (d : Z) : Prop := mkAttentive {
  at_endless : endless O ws ls;
  at_forward : forall k, tau k <= tau (S k);
  at_clock : forall k tid e i, ls k = Some (LTick tid e) -> tau k <= ri1 (e_clk e i) <= tau (S k);
  at_point : forall q, notifier_point q -> brief tau (fun i => nth_error (w_threads (ws i)) 2 = Some q) d;
  at_commands : brief tau (fun i => exists a q, nth_error (w_threads (ws i)) 2 = Some (PDo a q)) d;
  at_signal : forall tid,
    brief tau (fun i => exists q, nth_error (w_threads (ws i)) tid = Some q /\ In ASigNotifier (will_do q)) d;
  at_notified : forall nw,
    brief tau (fun i => nth_error (w_threads (ws i)) 2 = Some (PNtBlocked nw) /\ cv_waiting (w_nt (ws i)) = false) d;
  at_alarm : forall t k j, (k <= j)%nat ->
    (forall i, (k <= i)%nat -> (i <= j)%nat -> notifier_sleeps (ws i) (Some t)) ->
    tau (S j) <= Z.max (tau k) t + d;
}.

(** A browser's request, or what follows from it, ends an authorisation. *)
Definition browsers_turn (q : pc) : Prop :=
  match q with PHttpStart _ _ | PHttpBody _ _ | PHttpFail _ _ => True | _ => False end.

Definition changed_by_browser (ws : nat -> world) (ls : nat -> option label) (k : nat) (e : entry) : Prop :=
  exists tid env q, ls k = Some (LTick tid env) /\ nth_error (w_threads (ws k)) tid = Some q /\ browsers_turn q
    /\ In e (details (w_lk (ws k))) /\ ~ In e (details (w_lk (ws (S k)))).

(** The [auth_notify_cmd] that is or was in force since [k] is started with
    account [n]'s name and the URL [u]. *)
Definition told_user (ws : nat -> world) (k j : nat) (n : str) (u : url) : Prop :=
  exists i i' cmd, (k <= i')%nat /\ (i' <= i)%nat /\ (i <= j)%nat
    /\ c_auth_notify_cmd (conf (ws i')) = Some cmd /\ observed ws i = [OAuthCmd cmd n (url_to_str u)].

(** Between [k] and [j] an authorisation of account [n] with the URL [u] ends. *)
Definition auth_ended (ws : nat -> world) (ls : nat -> option label) (k j : nat) (n : str) (u : url) : Prop :=
  exists i e cvr ln st, (k <= i)%nat /\ (i <= j)%nat /\ d_name e = n /\ d_ts e = TSPending cvr ln st u
    /\ (changed_by_client ws ls i e \/ changed_by_browser ws ls i e).

(** No authorisation is noted as announced later than [t]. *)
Definition none_ahead (w : world) (t : Z) : Prop :=
  forall n cvr l st u, holds w n (TSPending cvr (Some l) st u) -> l <= t.

(** And for the thread that reports events: [r] is the longest a command may run,
    after thirty seconds it is killed. *)
Definition eventer_limit (d r : Z) (q : pc) : option Z :=
  match q with
  | PEvTop | PEvPop | PEvCmd _ _ | PEvRun _ _ _ => Some d
  | PEvRunning => Some r
  | _ => None
  end.

Record reporting (O : oracles) (ws : nat -> world) (ls : nat -> option label) (tau : nat -> Z) (d r : Z) : Prop := mkReporting {
  rp_endless : endless O ws ls;
  rp_forward : forall k, tau k <= tau (S k);
  rp_point : forall q b, eventer_limit d r q = Some b -> brief tau (fun i => nth_error (w_threads (ws i)) 1 = Some q) b;
  rp_signal : forall tid,
    brief tau (fun i => exists q, nth_error (w_threads (ws i)) tid = Some q /\ In ASigEventer (will_do q)) d;
  rp_notified : brief tau (fun i => nth_error (w_threads (ws i)) 1 = Some PEvBlocked /\ cv_waiting (w_ev (ws i)) = false) d;
}.

(** How many events have been queued but not yet reported. *)
Definition backlog (w : world) : Z :=
  Z.of_nat (List.length (queued (w_trace w))) - Z.of_nat (List.length (delivered (w_trace w))).
