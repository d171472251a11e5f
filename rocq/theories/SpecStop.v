(** Stopping the server, and runs in which it goes on. *)
From Verif Require Import Base Time Utf8 Base64 Url Json Oracles Config Dump State Http Timers Server SpecServer
  SpecTimers SpecSessions SpecFair.

(** The last request in [t] is to shut down. *)
Definition told_to_stop (t : list obs) : Prop :=
  exists t1 t2, t = t1 ++ OClient $"shutdown:" :: t2 /\ forall r, ~ In (OClient r) t2.

(** Every thread that has something to do gets round to it, as long as the
    server runs. *)
Definition fair_while_up (ws : nat -> world) (ls : nat -> option label) : Prop :=
  forall tid k, tid < List.length (w_threads (ws k)) ->
    exists j, k <= j /\ (w_alive (ws j) = false \/ rests (ws j) tid \/ goes ls j tid).

(** [e] gets the same from outside as [e'], but for the time of day. *)
Definition same_inputs (e e' : env) : Prop :=
  e_state_bytes e = e_state_bytes e' /\ e_verifier_bytes e = e_verifier_bytes e' /\ e_nonce e = e_nonce e'
  /\ e_client e = e_client e' /\ e_file e = e_file e' /\ e_hash e = e_hash e' /\ e_idhash e = e_idhash e'
  /\ e_post e = e_post e' /\ e_cmd_ok e = e_cmd_ok e'.

(** The clock starts no earlier than [t0] and never goes back. *)
Definition steady (t0 : Z) (ls : nat -> option label) : Prop :=
  (forall k tid e i, ls k = Some (LTick tid e) -> (t0 <= ri1 (e_clk e i))%Z)
  /\ forall j k tid1 tid2 e1 e2 i1 i2,
       j <= k -> ls j = Some (LTick tid1 e1) -> ls k = Some (LTick tid2 e2) ->
       (ri1 (e_clk e1 i1) <= ri1 (e_clk e2 i2))%Z.

(** Without a signal nobody is woken up but sleepers whose time has come. *)
Definition punctual (ws : nat -> world) (ls : nat -> option label) : Prop :=
  forall k tid e, ls k = Some (LTick tid e) -> e_wake e = true ->
    exists d, (d < env_now e)%Z
      /\ (refresher_sleeps (ws k) (Some d) /\ tid = 3 \/ notifier_sleeps (ws k) (Some d) /\ tid = 2).

(** A run from [w] at time [t0] on that never ends.  From outside comes what [out] and [conn] say:
    the former what a thread gets that makes a step, the latter the connections of browsers. *)
Record carries_on (O : oracles) (w : world) (t0 : Z) (out : nat -> world -> env)
    (conn : nat -> world -> option (bool * str)) (ws : nat -> world) (ls : nat -> option label) : Prop := mkCarriesOn {
  co_start : ws 0 = w;
  co_endless : endless O ws ls;
  co_alive : forall k, w_alive (ws k) = true;
  (* nobody is neglected *)
  co_fair : fair ws ls;
  co_timely : timely ws ls;
  (* the clock goes on *)
  co_passes : forall t, passes ls t;
  co_steady : steady t0 ls;
  co_punctual : punctual ws ls;
  (* from outside comes just what was to come *)
  co_inputs : forall k tid e, ls k = Some (LTick tid e) -> same_inputs e (out k (ws k));
  co_conns : forall k https bytes, ls k = Some (LHttpConn https bytes) -> conn k (ws k) = Some (https, bytes);
  (* clients and browsers that are patient are heard *)
  co_heard : forall k req, (forall j, k <= j -> e_client (out j (ws j)) = Some req) ->
    exists j, k <= j /\ In (OClient req) (observed ws j);
  co_let_in : forall k https bytes,
    (forall j, k <= j -> conn j (ws j) = Some (https, bytes)) ->
    (forall j, k <= j -> is_some (if https then w_https (ws j) else w_http (ws j)) = true) ->
    exists j, k <= j /\ ls j = Some (LHttpConn https bytes);
}.
