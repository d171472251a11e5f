(** Runs with times in which browsers do not have to wait. *)
From Verif Require Import Base Time Utf8 Base64 Url Json Oracles Config Dump State Http Timers Server SpecServer
  SpecTimers SpecSessions SpecFair SpecTimed.
Local Open Scope Z_scope.

(** How long the thread of a browser may stay at a program point: [d], but for an
    attempt to reach the provider, with the pause before the next, [p]. *)
Definition browser_limit (d p : Z) (q : pc) : option Z :=
  match q with
  | PHttpPost _ _ _ _ => Some p
  | PHttpStart _ _ | PHttpBody _ _ | PHttpFail _ _ | PHttpNotify _ _ _ => Some d
  | _ => None
  end.

Record browsing (O : oracles) (ws : nat -> world) (ls : nat -> option label) (tau : nat -> Z) (d p : Z) : Prop := mkBrowsing {
  br_endless : endless O ws ls;
  br_forward : forall k, tau k <= tau (S k);
  br_clock : forall k tid e i, ls k = Some (LTick tid e) -> tau k <= ri1 (e_clk e i) <= tau (S k);
  br_point : forall tid q b, browser_limit d p q = Some b ->
    brief tau (fun i => nth_error (w_threads (ws i)) tid = Some q) b;
  (* answers, signals and events take no longer than [d] either *)
  br_action : forall tid a q, (4 <= tid)%nat -> brief tau (fun i => nth_error (w_threads (ws i)) tid = Some (PDo a q)) d;
}.

(** The request of a browser that comes back from the provider with a code for
    account [n], whose version [i] awaits it. *)
Record comes_back (O : oracles) (w : world) (https : bool) (bytes : str) (n : str) (i : account_id)
    (cvr st : str) (ln : option Z) (u : url) (code : str) : Prop := mkComesBack {
  cb_entry : In (mkEntry n i (TSPending cvr ln st u)) (details (w_lk w));
  cb_request : exists uri act ru, parse_get O https bytes = Some uri /\ lookup $"state" (query_pairs uri) = Some st
    /\ lookup $"error" (query_pairs uri) = None /\ lookup $"code" (query_pairs uri) = Some code
    /\ configured w n act /\ account_redirect_uri O act (w_http w) (w_https w) = Val ru /\ same_origin ru uri;
}.

(** Something else happens to it: a reload, or the entry [e] is replaced by a client,
    by a reminder, or by another browser. *)
Definition meddled (ws : nat -> world) (ls : nat -> option label) (k j : nat) (tid : nat) (e : entry) : Prop :=
  exists x, (k <= x)%nat /\ (x < j)%nat
  /\ ((exists c, In (OConfig c) (observed ws x))
      \/ (In e (details (w_lk (ws x))) /\ ~ In e (details (w_lk (ws (S x))))
          /\ exists t env q, ls x = Some (LTick t env) /\ t <> tid /\ nth_error (w_threads (ws x)) t = Some q
               /\ (t = 0%nat \/ t = 2%nat \/ browsers_turn q))).

(** The code is sent to the provider, who answers [res]. *)
Definition redeems_code (ws : nat -> world) (x : nat) (code : str) (res : post_result) : Prop :=
  exists uri pairs, observed ws x = [OPost uri pairs res] /\ In ($"code", code) pairs.

(** The answer to the code has given account [n] its token. *)
Definition token_from (O : oracles) (ws : nat -> world) (k j : nat) (n code : str) : Prop :=
  exists x g body v a, (k <= x)%nat /\ (x < g)%nat /\ (g < j)%nat
    /\ redeems_code ws x code (PRBody body) /\ o_json O body = inl v
    /\ json_str $"access_token" v = Some (access_token a) /\ json_str $"refresh_token" v = refresh_token a
    /\ holds (ws (S g)) n (TSActive a).

(** The provider could not be reached ten times. *)
Definition out_of_reach (ws : nat -> world) (k j : nat) (code : str) : Prop :=
  exists xs, List.length xs = 10%nat /\ NoDup xs
    /\ forall x, In x xs -> (k <= x)%nat /\ (x < j)%nat /\ exists t m, redeems_code ws x code (PRTransport t m).

(** The user is told of an error about account [n]. *)
Definition told_error (ws : nat -> world) (k j : nat) (n : str) : Prop :=
  exists x o, (k <= x)%nat /\ (x < j)%nat /\ observed ws x = [o] /\ tells n o.
