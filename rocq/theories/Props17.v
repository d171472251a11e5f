(** C86-C89: bytes that arrive in pieces, and who is served when. *)
From Verif Require Import Base BaseLemmas Utf8 Url Oracles Config Located Http State Server Wire
  SpecHttp SpecServer SpecWire Reach WireLemmas WireNet Scenario Runs Cases.
From Coq Require Import Lia Permutation.

(** * C86 *)

(** How a request is cut into pieces on its way does not matter. *)
Theorem C86_pieces O https ps ps' f :
  List.concat ps = List.concat ps' -> get_in O https ps f = get_in O https ps' f.
Proof. exact (pieces_irrelevant O https ps ps' f). Qed.
Print Assumptions C86_pieces.

(** The server waits for more exactly as long as the header may go on. *)
Theorem C86_waits O https ps : get_in O https ps Open = Waits <-> unfinished (List.concat ps).
Proof. exact (waits_iff O https ps). Qed.
Print Assumptions C86_waits.

(** What a browser is taken to ask for, whether it still sends, has ended or has
    broken off. *)
Theorem C86_asks O b u :
  get_in O (b_https b) (c_in (b_conn b)) (c_fin (b_conn b)) = Got u <-> browser_asks O b u.
Proof. exact (got_iff O b u). Qed.
Print Assumptions C86_asks.

(** Once the request is complete, nothing that follows changes what is made of it. *)
Theorem C86_settled O https ps more f :
  ~ unfinished (List.concat ps) -> get_in O https (ps ++ more) f = get_in O https ps Open.
Proof. intros U. apply settled. rewrite (waits_iff O https ps). exact U. Qed.
Print Assumptions C86_settled.

(** A browser that sends a request in three pieces, the second one ending inside
    the header, and goes on sending. *)
Definition slow_pieces : list str :=
  [$"GE"; $"T /?state=s HTTP/1.1" ++ crlf ++ $"Host: loc"; $"alhost:99" ++ crlf ++ crlf].

Example C86_case :
  unfinished (List.concat (firstn 2 slow_pieces)) /\ ~ unfinished (List.concat slow_pieces)
  /\ get_in toy false (firstn 2 slow_pieces) Open = Waits
  /\ (exists u, get_in toy false slow_pieces Open = Got u /\ get_in toy false (slow_pieces ++ [$"junk"]) Broken = Got u
        /\ get_in toy false [List.concat slow_pieces] Open = Got u)
  /\ get_in toy false (firstn 2 slow_pieces) Broken = Bad
  /\ get_in toy false [$"POST / HTTP/1.1" ++ crlf] Open = Bad.
Proof.
  split; [apply (waits_iff toy false); vm_compute; reflexivity|].
  split; [intros U; apply (waits_iff toy false) in U; vm_compute in U; discriminate U|].
  split; [vm_compute; reflexivity|].
  split; [eexists; repeat split; vm_compute; reflexivity|].
  split; vm_compute; reflexivity.
Qed.

(** * C87 *)

(** What has been read while waiting for more is less than the maximum up to the
    last line break. *)
Theorem C87_lines_partial s a b : unfinished s -> s = a ++ nl :: b -> List.length a + 1 < max_size.
Proof. exact (lines_bounded s a b). Qed.
Print Assumptions C87_lines_partial.

(** A line without end is read without end. *)
Theorem C87_endless_line_refuted O https :
  forall n, exists ps, n <= List.length (List.concat ps) /\ get_in O https ps Open = Waits.
Proof.
  intros n. exists [repeat "x"%char n]. cbn [List.concat]. rewrite app_nil_r, repeat_length.
  split; [apply le_n|]. apply waits_iff. left. cbn [List.concat]. rewrite app_nil_r.
  intros I. apply repeat_spec in I. discriminate I.
Qed.
Print Assumptions C87_endless_line_refuted.

Example C87_case :
  exists s a b, unfinished s /\ s = a ++ nl :: b /\ a <> [] /\ b <> [].
Proof.
  exists (List.concat (firstn 2 slow_pieces)), ($"GET /?state=s HTTP/1.1" ++ [cr]), $"Host: loc".
  split; [apply (waits_iff toy false); vm_compute; reflexivity|].
  split; [vm_compute; reflexivity|]. split; discriminate.
Qed.

(** * C88 *)

(** What can happen through the sockets is what [Server.step] says, and all of it. *)
Theorem C88_same_server O w : reachable O w <-> exists s, net_reachable O s /\ n_world s = w.
Proof. exact (complete_net O w). Qed.
Print Assumptions C88_same_server.

(** The requests of clients are served whole, in the order in which they
    connected, each once. *)
Theorem C88_in_order O s : net_reachable O s ->
  requests (w_trace (n_world s)) = flat_map heard (firstn (n_next s) (n_clients s)).
Proof. exact (requests_in_order O s). Qed.
Print Assumptions C88_in_order.

(** The browsers' requests are handled once each, and as what was asked for. *)
Theorem C88_browsers_once O s : net_reachable O s ->
  exists bs, Permutation bs (filter b_read (n_browsers s))
    /\ Forall2 (fun v b => fst v = b_https b /\ forall u, get_request O (fst v) (snd v) u <-> browser_asks O b u)
         (visits (w_trace (n_world s))) bs.
Proof. exact (browsers_once O s). Qed.
Print Assumptions C88_browsers_once.

(** Not before their end has come. *)
Theorem C88_not_early O s b : net_reachable O s -> In b (n_browsers s) -> b_read b = true -> due b.
Proof. exact (read_due O s b). Qed.
Print Assumptions C88_not_early.

Definition net_after (s : net) (ls : list nlabel) : net :=
  match net_run toy s ls with Some s' => s' | None => s end.

Lemma net_after_reachable s ls : net_reachable toy s -> net_reachable toy (net_after s ls).
Proof.
  intros R. unfold net_after. destruct (net_run toy s ls) as [s'|] eqn:E; [|exact R].
  eapply net_run_reachable; eassumption.
Qed.

Lemma net_start_reachable : net_reachable toy (net_start (start conf1)).
Proof. apply (nreach_init toy (env_file conf1)). vm_compute. reflexivity. Qed.

(** Three clients, of whom the second breaks off, and two browsers. *)
Definition net_busy : net :=
  net_after (net_start (start conf1))
    [NClient; NClient; NClientSends 1 $"show"; NClient; NBrowser false; NClientSends 0 $"sta";
     NClientSends 2 $"info:"; NClientEnds 2 Ended; NBrowserSends 0 $"GET"; NBrowser true; NClientSends 0 $"tus:";
     NBrowserSends 1 ($"hello" ++ crlf); NClientEnds 0 Ended; NMain (tick (sec 1000)); NTick 0 (tick (sec 1000));
     NRead 1; NClientEnds 1 Broken; NMain (tick (sec 1001)); NMain (tick (sec 1002)); NTick 0 (tick (sec 1002))].

Example C88_case :
  net_reachable toy net_busy
  /\ requests (w_trace (n_world net_busy)) = [$"status:"; $"info:"] /\ n_next net_busy = 3
  /\ map b_read (n_browsers net_busy) = [false; true]
  /\ List.length (visits (w_trace (n_world net_busy))) = 1.
Proof.
  split; [apply net_after_reachable, net_start_reachable|]. vm_compute. repeat split; reflexivity.
Qed.

(** * C89 *)

(** A browser is answered whatever the others do. *)
Theorem C89_browsers_partial O s n b : net_reachable O s -> w_alive (n_world s) = true ->
  nth_error (n_browsers s) n = Some b -> b_read b = false -> due b ->
  exists s', net_step O s (NRead n) = Some s'.
Proof. exact (due_read O s n b). Qed.
Print Assumptions C89_browsers_partial.

(** A client is, once those who came before it have said what they wanted,
    whatever the clocks show, unless a date cannot be shown (C07). *)
Theorem C89_clients_partial O s n (e : env) : net_reachable O s -> w_alive (n_world s) = true ->
  n < List.length (n_clients s) ->
  (forall m c, m <= n -> nth_error (n_clients s) m = Some c -> c_fin c <> Open) ->
  exists ls s', net_run O s ls = Some s' /\ Forall (of_main e) ls
    /\ (n < n_next s' \/ w_alive (n_world s') = false \/ next_breaks O e s').
Proof. exact (get_served O s n e). Qed.
Print Assumptions C89_clients_partial.

(** A client that connects and falls silent keeps all others waiting. *)
Theorem C89_silent_client O s c ls s' : net_reachable O s ->
  nth_error (n_clients s) (n_next s) = Some c -> c_fin c = Open ->
  (forall f, ~ In (NClientEnds (n_next s) f) ls) -> net_run O s ls = Some s' ->
  n_next s' = n_next s /\ requests (w_trace (n_world s')) = requests (w_trace (n_world s)).
Proof. intros R N F NE RN. exact (silent_blocks O ls s s' c R N F NE RN). Qed.
Print Assumptions C89_silent_client.

(** The second client's request has arrived in full. *)
Definition net_stuck : net :=
  net_after (net_start (start conf1)) [NClient; NClient; NClientSends 1 $"status:"; NClientEnds 1 Ended].

Theorem C89_silent_client_refuted :
  exists s, net_reachable toy s
    /\ (exists ps, nth_error (n_clients s) 1 = Some (mkConn ps Ended) /\ List.concat ps = $"status:")
    /\ forall ls s', net_run toy s ls = Some s' -> (forall f, ~ In (NClientEnds 0 f) ls) ->
         requests (w_trace (n_world s')) = [].
Proof.
  exists net_stuck. assert (R : net_reachable toy net_stuck) by apply net_after_reachable, net_start_reachable.
  split; [exact R|]. split; [exists [$"status:"]; split; vm_compute; reflexivity|].
  intros ls s' RN NE.
  destruct (silent_blocks toy ls net_stuck s' (mkConn [] Open) R) as [_ E].
  - vm_compute. reflexivity.
  - reflexivity.
  - intros f. change (n_next net_stuck) with 0. apply NE.
  - exact RN.
  - rewrite E. vm_compute. reflexivity.
Qed.
Print Assumptions C89_silent_client_refuted.

(** In [net_busy] one browser is still due nothing; after its next piece it is. *)
Example C89_case :
  let s := net_after net_busy [NBrowserEnds 0 Broken; NClient; NClientEnds 3 Ended] in
  net_reachable toy s /\ w_alive (n_world s) = true
  /\ (exists b, nth_error (n_browsers s) 0 = Some b /\ b_read b = false /\ due b)
  /\ 3 < List.length (n_clients s) /\ n_next s = 3
  /\ (forall m c, m <= 3 -> nth_error (n_clients s) m = Some c -> c_fin c <> Open).
Proof.
  cbv zeta. split; [apply net_after_reachable, net_after_reachable, net_start_reachable|].
  split; [vm_compute; reflexivity|].
  split; [eexists; split; [vm_compute; reflexivity|]; split; [reflexivity|left; discriminate]|].
  split; [vm_compute; lia|]. split; [vm_compute; reflexivity|].
  intros m c L E. do 4 (destruct m as [|m]; [vm_compute in E; injection E as <-; discriminate|]). lia.
Qed.
