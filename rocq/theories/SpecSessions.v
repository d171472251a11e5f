(** What one thread of the server does from its start to its end, as seen from
    outside: the histories of browser connections and of refreshes. *)
From Verif Require Import Base Time Utf8 Base64 Url Json Oracles Config Dump State Http Timers Server SpecServer SpecPages.

(** What thread [tid] lets the outside see during the run [ls] from [w]. *)
Fixpoint said (O : oracles) (tid : nat) (w : world) (ls : list label) : list obs :=
  match ls with
  | [] => []
  | l :: ls' =>
      match step O w l with
      | SNext w' =>
          (if is_tick tid l then skipn (List.length (w_trace w)) (w_trace w') else [])
          ++ said O tid w' ls'
      | _ => []
      end
  end.

(** An error message about account [n] reaches the user: through their command, or the log. *)
Definition tells (n : str) (o : obs) : Prop :=
  exists m, o = OErrLog n m \/ exists cmd, o = OErrCmd cmd n m.

(** How an exchange ends whose last attempt had outcome [r]: without effect
    (the account changed in the meantime, or the expiry cannot be represented),
    with an error message, or, if the provider answered, with a new token. *)
Inductive exchange_end : post_result -> list obs -> Prop :=
| xe_nothing r : exchange_end r []
| xe_failed r n o : tells n o -> exchange_end r [o]
| xe_token body n : exchange_end (PRBody body) [OEvent n EvNew].

(** The whole history of a browser connection: exactly one answer, before
    anything else; then nothing, or an error message (the provider refused), or
    between one and ten identical POSTs, all but the last of which failed to reach
    the provider. *)
Inductive conversation : list obs -> Prop :=
| cv_answered r : In r [bad_request; not_found; page_unknown] -> conversation [OHttpResp r]
| cv_refused n o : tells n o -> conversation [OHttpResp bad_request; o]
| cv_exchange uri pairs rs r t :
    attempts 10 rs r -> exchange_end r t ->
    conversation (OHttpResp page_processing :: map (OPost uri pairs) rs ++ t).

(** How a refresh ends, by the outcome of its only POST. *)
Inductive refresh_end (O : oracles) : post_result -> list obs -> Prop :=
| re_stale r : refresh_end O r []
| re_token body v tok exs n :
    o_json O body = inl v -> grants v tok exs -> refresh_end O (PRBody body) [OEvent n EvRefresh]
| re_unrepresentable body v tok exs n :
    o_json O body = inl v -> grants v tok exs -> refresh_end O (PRBody body) [OEvent n EvInvalidated]
| re_refused r n : permanent O r -> refresh_end O r [OEvent n EvInvalidated]
| re_kept r cmd n : transient r -> refresh_end O r [OTransientCmd cmd n true]
| re_given_up r cmd n :
    transient r -> refresh_end O r [OTransientCmd cmd n false; OEvent n EvInvalidated].

(** The whole history of a refresh: nothing at all, or exactly one POST. *)
Inductive refresh_session (O : oracles) : list obs -> Prop :=
| rs_nothing : refresh_session O []
| rs_posted uri pairs r t : refresh_end O r t -> refresh_session O (OPost uri pairs r :: t).

(** The thread is over. *)
Definition over (w : world) (tid : nat) : Prop := nth_error (w_threads w) tid = Some PDone.

(** What a thread that cannot go on now waits for: a client, or a signal or
    timeout of its condition variable. *)
Inductive waits (w : world) (e : env) : nat -> Prop :=
| wt_client : nth_error (w_threads w) 0 = Some PMain -> e_client e = None -> waits w e 0
| wt_eventer :
    nth_error (w_threads w) 1 = Some PEvBlocked -> cv_waiting (w_ev w) = true -> e_wake e = false -> waits w e 1
| wt_notifier t :
    nth_error (w_threads w) 2 = Some (PNtBlocked t) -> cv_waiting (w_nt w) = true -> e_wake e = false -> waits w e 2
| wt_refresher t :
    nth_error (w_threads w) 3 = Some (PRfBlocked t) -> cv_waiting (w_rf w) = true -> e_wake e = false -> waits w e 3.
