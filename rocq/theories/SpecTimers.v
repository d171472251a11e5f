(** Vocabulary for stating when the background threads do what: due times in
    plain integer arithmetic, sleeping threads, reminders and events. *)
From Verif Require Import Base Time Url Oracles Config State Server SpecServer.
Local Open Scope Z_scope.

(** The settings that apply to an account (see [first_of] in SpecServer.v). *)
Definition margin (act : account) (c : config) : Z :=
  first_of (a_refresh_before_expiry act) (c_refresh_before_expiry c) (secs 90).
Definition retry_gap (act : account) (c : config) : Z :=
  first_of (a_refresh_retry act) (c_refresh_retry c) (secs 40).

(** The configuration in force. *)
Definition conf (w : world) : config := lconfig (w_lk w).

(** The token [a] ought to be refreshed once the clock shows [t]: a failed
    attempt is repeated after a while; otherwise the token is renewed a while
    before it expires or when it gets too old.  The last two cases say what
    becomes of times no clock can show; [now] is what the clock shows. *)
Inductive refresh_time (act : account) (c : config) (now : Z) (a : active) : Z -> Prop :=
| rt_retry l :
    ongoing a = false -> last_attempt a = Some l -> l + retry_gap act c <= time_max ->
    refresh_time act c now a (l + retry_gap act c)
| rt_fresh :
    ongoing a = false -> (forall l, last_attempt a = Some l -> time_max < l + retry_gap act c) ->
    time_min <= expiry a - margin act c ->
    refresh_time act c now a (Z.min (expiry a - margin act c) (obtained a + max_age act c))
| rt_no_margin :
    ongoing a = false -> (forall l, last_attempt a = Some l -> time_max < l + retry_gap act c) ->
    expiry a - margin act c < time_min ->
    refresh_time act c now a (Z.min (Z.min now (expiry a)) (obtained a + max_age act c)).

(** The refresher is about to look for tokens to refresh. *)
Definition looking (w : world) : Prop :=
  w_alive w = true /\ nth_error (w_threads w) 3 = Some PRfScan.

(** Looking at the tokens in environment [e], it decides to refresh account
    [n]'s. *)
Definition decides (O : oracles) (w : world) (e : env) (n : str) : Prop :=
  exists w' p' i ts,
    step O w (LTick 3 e) = SNext w' /\ nth_error (w_threads w') 3 = Some p'
    /\ In (ASpawnRefresh i) (will_do p') /\ In (mkEntry n i ts) (details (w_lk w)).

(** Reminders: when the next one for a pending authorisation is due.  The
    first is due at once. *)
Inductive remind_time (c : config) (now : Z) : option Z -> Z -> Prop :=
| rm_first : remind_time c now None now
| rm_next l : l + c_auth_notify_interval c <= time_max ->
    remind_time c now (Some l) (l + c_auth_notify_interval c).

(** Some thread is going to take action [a] before it does anything else. *)
Definition under_way (w : world) (a : action) : Prop :=
  exists tid p, nth_error (w_threads w) tid = Some p /\ In a (will_do p).

(** The refresher, the notifier, the eventer is asleep: it waits on its
    condition variable and has not been notified.  The first two have a time
    set at which they wake up by themselves. *)
Definition refresher_sleeps (w : world) (until : option Z) : Prop :=
  nth_error (w_threads w) 3 = Some (PRfBlocked until) /\ cv_waiting (w_rf w) = true.
Definition notifier_sleeps (w : world) (until : option Z) : Prop :=
  nth_error (w_threads w) 2 = Some (PNtBlocked until) /\ cv_waiting (w_nt w) = true.
Definition eventer_sleeps (w : world) : Prop :=
  nth_error (w_threads w) 1 = Some PEvBlocked /\ cv_waiting (w_ev w) = true.

(** Thread [tid] runs the notifier's inspection of all accounts. *)
Definition inspecting (w : world) : Prop :=
  w_alive w = true /\ nth_error (w_threads w) 2 = Some PNtScan.

(** The notifier, looking at the accounts in environment [e], decides to run
    [cmd] for account [n] with URL text [u]. *)
Definition reminds (O : oracles) (w : world) (e : env) (cmd n u : str) : Prop :=
  exists w' p',
    step O w (LTick 2 e) = SNext w' /\ nth_error (w_threads w') 2 = Some p'
    /\ In (AEmit (OAuthCmd cmd n u)) (will_do p').

(** Every configuration in the history names a command for token events. *)
Definition events_wanted (t : list obs) : Prop :=
  forall c, In (OConfig c) t -> c_token_event_cmd c <> None.

(** The token events queued, and the ones handed to the user's command. *)
Definition queued (t : list obs) : list (str * token_event) :=
  flat_map (fun o => match o with OEvent n ev => [(n, ev)] | _ => [] end) t.
Definition delivered (t : list obs) : list (str * token_event) :=
  flat_map (fun o => match o with OEventCmd _ n ev => [(n, ev)] | _ => [] end) t.

(** [a] can be had from [b] by leaving out elements. *)
Inductive subseq {A} : list A -> list A -> Prop :=
| ss_nil l : subseq [] l
| ss_skip x l1 l2 : subseq l1 l2 -> subseq l1 (x :: l2)
| ss_take x l1 l2 : subseq l1 l2 -> subseq (x :: l1) (x :: l2).

(** How many runs of the user's command for token events are in progress. *)
Fixpoint running (t : list obs) (n : nat) : nat :=
  match t with
  | [] => n
  | OEventCmd _ _ _ :: t' => running t' (S n)
  | OEventCmdEnd :: t' => running t' (pred n)
  | _ :: t' => running t' n
  end.
