(** What a client or a browser gets out of its turn, in runs with sockets and times. *)
From Verif Require Import Base Utf8 Url Oracles Config State Http Timers Server SpecServer SpecTimers SpecSessions SpecFair
  SpecTimed SpecReturn Wire SpecWire SpecServe.
Local Open Scope Z_scope.

(** Client [n] has sent all of its request [req]. *)
Definition has_sent (s : net) (n : nat) (req : str) : Prop :=
  exists ps, nth_error (n_clients s) n = Some (mkConn ps Ended) /\ List.concat ps = req.

(** At [i] the main thread reads the request [req] of client [n]. *)
Definition turn (ns : nat -> net) (ls : nat -> option nlabel) (i n : nat) (e : env) (req : str) : Prop :=
  ls i = Some (NMain e) /\ at_main (ns i) /\ n_next (ns i) = n /\ has_sent (ns i) n req.

(** By when client [n] is to be served. *)
Definition deadline (ns : nat -> net) (tau : nat -> Z) (d c : Z) (k n : nat) : Z :=
  tau k + c + 3 * d + (ahead (ns k) n + 1) * (4 * d).

(** Clocks read in a step show a time during that step. *)
Definition clocked (ls : nat -> option label) (tau : nat -> Z) : Prop :=
  forall k tid e i, ls k = Some (LTick tid e) -> tau k <= ri1 (e_clk e i) <= tau (S k).

(** All the time from [k] to [j] account [n] has a token that is valid. *)
Definition valid_throughout (ws : nat -> world) (tau : nat -> Z) (k j : nat) (n : str) : Prop :=
  forall x, (k <= x)%nat -> (x <= j)%nat -> exists a, holds (ws x) n (TSActive a) /\ tau (S x) < expiry a.

(** The answer to a request for account [n]'s token is sent between [k] and [j], before [t]:
    a token that was valid when the request was read. *)
Definition shown_token (ns : nat -> net) (ls : nat -> option nlabel) (tau : nat -> Z) (k j : nat) (t : Z)
    (m : nat) (n req : str) : Prop :=
  exists i y e a, (k <= i)%nat /\ (i < y)%nat /\ (y < j)%nat /\ tau (S y) <= t
    /\ turn ns ls i m e req /\ holds (worlds ns i) n (TSActive a) /\ tau (S i) < expiry a
    /\ observed (worlds ns) y = [OReply req ($"access_token:" ++ access_token a)].

(** The URL [uri] brings [code] for account [n], whose version [i] awaits it. *)
Record brings (O : oracles) (w : world) (uri : url) (n : str) (i : account_id)
    (cvr st : str) (ln : option Z) (u : url) (code : str) : Prop := mkBrings {
  bg_entry : In (mkEntry n i (TSPending cvr ln st u)) (details (w_lk w));
  bg_state : lookup $"state" (query_pairs uri) = Some st;
  bg_error : lookup $"error" (query_pairs uri) = None;
  bg_code : lookup $"code" (query_pairs uri) = Some code;
  bg_origin : exists act ru, configured w n act /\ account_redirect_uri O act (w_http w) (w_https w) = Val ru
    /\ same_origin ru uri;
}.
