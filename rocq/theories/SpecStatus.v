(** What [pizauth status] says, and when it cannot. *)
From Verif Require Import Base Time Oracles Config State Server.
Local Open Scope Z_scope.

(** The wall clock's time that belongs to the instant [i] if the clocks show
    [ri1 r] and [rs1 r]. *)
Definition wall (r : reads) (i : Z) : Z := rs1 r + (i - ri1 r).

(** There is no such time: it lies before or after all that the system can count. *)
Definition beyond (r : reads) (i : Z) : Prop :=
  (i < ri1 r /\ wall r i < time_min) \/ (ri1 r <= i /\ time_max < wall r i).

(** How the instant [i] is shown to users. *)
Definition date_shown (O : oracles) (r : reads) (i : Z) (txt : str) : Prop :=
  (beyond r i /\ txt = $"<unknown time>") \/ (~ beyond r i /\ o_fmt_time O (wall r i) = Some txt).

(** It cannot be shown: RFC 2822 has no such date. *)
Definition no_date (O : oracles) (r : reads) (i : Z) : Prop :=
  ~ beyond r i /\ o_fmt_time O (wall r i) = None.

(** What the text shown for one account has to say.  [r1], [r2], [r3] are the
    clocks' readings taken meanwhile. *)
Inductive status_ok (O : oracles) (r1 r2 r3 : reads) : tokenstate -> str -> Prop :=
| so_empty : status_ok O r1 r2 r3 TSEmpty $"No access token"
| so_pending cv st u : status_ok O r1 r2 r3 (TSPending cv None st u) $"Access token pending authentication"
| so_notified cv i st u t :
    date_shown O r1 i t ->
    status_ok O r1 r2 r3 (TSPending cv (Some i) st u)
      ($"Access token pending authentication (last notification " ++ t ++ $")")
| so_active a t1 t2 :
    ri1 r1 < expiry a -> date_shown O r2 (obtained a) t1 -> date_shown O r3 (expiry a) t2 ->
    status_ok O r1 r2 r3 (TSActive a) ($"Active access token (obtained " ++ t1 ++ $"; expires " ++ t2 ++ $")")
| so_attempted a i t :
    expiry a <= ri1 r1 -> last_attempt a = Some i -> date_shown O r2 i t ->
    status_ok O r1 r2 r3 (TSActive a) ($"Access token expired (last refresh attempt " ++ t ++ $")")
| so_expired a :
    expiry a <= ri1 r1 -> last_attempt a = None ->
    status_ok O r1 r2 r3 (TSActive a) $"Access token expired (refresh not yet attempted)".

(** There is no saying it: a time to be shown has no date. *)
Inductive status_fails (O : oracles) (r1 r2 r3 : reads) : tokenstate -> Prop :=
| sf_notified cv i st u : no_date O r1 i -> status_fails O r1 r2 r3 (TSPending cv (Some i) st u)
| sf_obtained a : ri1 r1 < expiry a -> no_date O r2 (obtained a) -> status_fails O r1 r2 r3 (TSActive a)
| sf_expiry a : ri1 r1 < expiry a -> no_date O r3 (expiry a) -> status_fails O r1 r2 r3 (TSActive a)
| sf_attempted a i :
    expiry a <= ri1 r1 -> last_attempt a = Some i -> no_date O r2 i -> status_fails O r1 r2 r3 (TSActive a).

(** The one way in which the server breaks down: a client asks for the status,
    and a time to be shown has no date. *)
Inductive breaks_down (O : oracles) (w : world) : label -> Prop :=
| bd_status tid e k e0 :
    w_alive w = true -> nth_error (w_threads w) tid = Some PMain -> e_client e = Some $"status:" ->
    nth_error (details (w_lk w)) k = Some e0 ->
    status_fails O (e_clk e (3 * k)%nat) (e_clk e (3 * k + 1)%nat) (e_clk e (3 * k + 2)%nat) (d_ts e0) ->
    breaks_down O w (LTick tid e).
