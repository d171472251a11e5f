(** Runs with times of the server and its sockets, in which clients do not dawdle. *)
From Verif Require Import Base Utf8 Url Oracles Config State Http Timers Server SpecServer SpecTimers SpecSessions SpecFair
  SpecTimed Wire SpecWire.
Local Open Scope Z_scope.

(** The states of the server and its sockets, one after the other. *)
Record nets (O : oracles) (ns : nat -> net) (ls : nat -> option nlabel) : Prop := mkNets {
  ne_start : net_reachable O (ns 0%nat);
  ne_next : forall k, match ls k with
                      | Some l => net_step O (ns k) l = Some (ns (S k))
                      | None => ns (S k) = ns k
                      end;
}.

(** The same without the sockets. *)
Definition worlds (ns : nat -> net) (k : nat) : world := n_world (ns k).

Definition label_of (O : oracles) (s : net) (l : nlabel) : option label :=
  match l with
  | NMain e =>
      match nth_error (n_clients s) (n_next s) with
      | Some (mkConn ps Ended) => Some (LTick 0 (with_client e (List.concat ps)))
      | _ => None
      end
  | NRead n =>
      match nth_error (n_browsers s) n with
      | Some b => option_map (LHttpConn (b_https b)) (request_bytes O b)
      | None => None
      end
  | NTick tid e => Some (LTick tid e)
  | _ => None
  end.
Definition labels (O : oracles) (ns : nat -> net) (ls : nat -> option nlabel) (k : nat) : option label :=
  match ls k with Some l => label_of O (ns k) l | None => None end.

(** Thread 0, which serves clients, waits for the next. *)
Definition at_main (s : net) : Prop := nth_error (w_threads (n_world s)) 0 = Some PMain.

(** What clocks and the like show the main thread at [k] is [es k].  Every client has said what it wants within [c] of connecting; the main
    thread takes no longer than [d] to read what has come, nor for any other
    step; a browser's thread has read its request within [d] of its arrival. *)
Record serving (O : oracles) (ns : nat -> net) (ls : nat -> option nlabel) (es : nat -> env) (tau : nat -> Z) (d c : Z) : Prop := mkServing {
  se_nets : nets O ns ls;
  se_forward : forall k, tau k <= tau (S k);
  se_shown : forall k e, ls k = Some (NMain e) -> e = es k;
  se_sent : forall n, brief tau (fun k => exists ps, nth_error (n_clients (ns k)) n = Some (mkConn ps Open)) c;
  se_read : forall n, brief tau (fun k => w_alive (n_world (ns k)) = true /\ at_main (ns k) /\ n_next (ns k) = n
    /\ (exists ps f, nth_error (n_clients (ns k)) n = Some (mkConn ps f) /\ f <> Open) /\ ~ next_breaks O (es k) (ns k)) d;
  se_action : forall a q, brief tau (fun k => w_alive (n_world (ns k)) = true
    /\ nth_error (w_threads (n_world (ns k))) 0 = Some (PDo a q)) d;
  se_browser : forall n, brief tau (fun k => w_alive (n_world (ns k)) = true
    /\ exists b, nth_error (n_browsers (ns k)) n = Some b /\ b_read b = false /\ due b) d;
}.

(** How many clients are served before client [n]. *)
Definition ahead (s : net) (n : nat) : Z := Z.of_nat n - Z.of_nat (n_next s).

(** The server is done with client [n]: if all of its request has come, it has
    been acted on, and all there is to answer has been sent. *)
Definition attended (s : net) (n : nat) : Prop :=
  (n < n_next s)%nat /\ at_main s
  /\ forall ps, nth_error (n_clients s) n = Some (mkConn ps Ended) -> In (List.concat ps) (requests (w_trace (n_world s))).

(** Browser [n] is answered: a thread reads what it asks for, and sends a response. *)
Definition answered (ns : nat -> net) (ls : nat -> option nlabel) (k j : nat) (n : nat) : Prop :=
  exists g x e r, (k <= g)%nat /\ (g < x)%nat /\ (x < j)%nat /\ ls g = Some (NRead n)
    /\ ls x = Some (NTick (List.length (w_threads (n_world (ns g)))) e) /\ observed (worlds ns) x = [OHttpResp r].
