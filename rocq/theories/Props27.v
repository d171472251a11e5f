(** C99: in a responsive system every client and every browser is served in time. *)
From Verif Require Import Base Time Utf8 Url Json Oracles Config Dump State Http Timers Server SpecServer SpecTimers
  SpecSessions SpecFair SpecTimed SpecReturn Wire SpecWire SpecServe WireNet TimedServe Scenario Runs Cases ServeCase.
Local Open Scope Z_scope.

(** What is proved of endless runs (C90 to C98) holds of those with sockets. *)
Theorem C99_same_runs O ns ls : nets O ns ls -> endless O (worlds ns) (labels O ns ls).
Proof. exact (net_endless O ns ls). Qed.
Print Assumptions C99_same_runs.

(** A client is attended to within [c] and [3 d], and [4 d] for itself and for each
    before it that has not had its turn. *)
Theorem C99_clients O ns ls es tau d c k j n :
  serving O ns ls es tau d c -> 0 <= d -> 0 <= c ->
  (n < List.length (n_clients (ns k)))%nat -> (k <= j)%nat ->
  (forall x, (k <= x)%nat -> (x <= j)%nat -> ~ next_breaks O (es x) (ns x)) ->
  tau k + c + 3 * d + Z.max 0 (ahead (ns k) n + 1) * (4 * d) < tau (S j) ->
  w_alive (n_world (ns j)) = false
  \/ exists x, (k <= x)%nat /\ (x <= j)%nat /\ attended (ns x) n
       /\ tau x <= tau k + c + 3 * d + Z.max 0 (ahead (ns k) n + 1) * (4 * d).
Proof. exact (fun S D C => clients_served O ns ls es tau d c S D C k j n). Qed.
Print Assumptions C99_clients.

(** A browser is answered within [3 d], whatever clients do. *)
Theorem C99_browsers O ns ls es tau d c p k j n b :
  serving O ns ls es tau d c -> 0 <= d ->
  browsing O (worlds ns) (labels O ns ls) tau d p ->
  (k <= j)%nat -> nth_error (n_browsers (ns k)) n = Some b -> b_read b = false -> due b ->
  tau k + 3 * d < tau (S j) ->
  w_alive (n_world (ns j)) = false \/ answered ns ls k j n.
Proof. exact (fun S D => browsers_answered O ns ls es tau d c S D p k j n b). Qed.
Print Assumptions C99_browsers.

(** The second client has to wait for the first, which takes four seconds. *)
Example C99_case :
  serving toy dawdle_at dawdle_step dawdle_env dawdle_time (sec 1) (sec 4) /\ 0 <= sec 1 /\ 0 <= sec 4
  /\ (1 < List.length (n_clients (dawdle_at 5)))%nat /\ ahead (dawdle_at 5) 1 = 1
  /\ nth_error (n_clients (dawdle_at 5)) 1 = Some (mkConn [$"info:"] Ended)
  /\ nth_error (n_clients (dawdle_at 5)) 0 = Some (mkConn [$"status"] Open)
  /\ (forall x, (5 <= x)%nat -> (x <= 13)%nat -> ~ next_breaks toy (dawdle_env x) (dawdle_at x))
  /\ dawdle_time 5 + sec 4 + 3 * sec 1 + Z.max 0 (ahead (dawdle_at 5) 1 + 1) * (4 * sec 1) < dawdle_time 14
  /\ attended (dawdle_at 11) 1 /\ requests (w_trace (n_world (dawdle_at 11))) = [$"status:"; $"info:"].
Proof.
  split; [exact dawdle_serving|]. split; [vm_compute; discriminate|]. split; [vm_compute; discriminate|].
  split; [vm_compute; lia|]. split; [vm_compute; reflexivity|]. split; [vm_compute; reflexivity|]. split; [vm_compute; reflexivity|].
  split; [intros x _ L; apply dawdle_unbroken; lia|]. split; [vm_compute; reflexivity|].
  split; [|vm_compute; reflexivity]. split; [vm_compute; lia|]. split; [vm_compute; reflexivity|].
  intros ps N. vm_compute in N. injection N as <-. vm_compute. right. left. reflexivity.
Qed.

(** The browser sends its request in two pieces. *)
Example C99_case_browser :
  serving toy dawdle_at dawdle_step dawdle_env dawdle_time (sec 1) (sec 4) /\ 0 <= sec 1
  /\ browsing toy (worlds dawdle_at) (labels toy dawdle_at dawdle_step) dawdle_time (sec 1) (sec 1)
  /\ (exists b, nth_error (n_browsers (dawdle_at 13)) 0 = Some b /\ ~ due b)
  /\ (exists b, nth_error (n_browsers (dawdle_at 14)) 0 = Some b /\ b_read b = false /\ due b)
  /\ dawdle_time 14 + 3 * sec 1 < dawdle_time 18
  /\ answered dawdle_at dawdle_step 14 17 0.
Proof.
  split; [exact dawdle_serving|]. split; [vm_compute; discriminate|]. split; [exact dawdle_browsing|].
  split; [eexists; split; [vm_compute; reflexivity|rewrite <- (due_iff toy); intros X; apply X; vm_compute; reflexivity]|].
  split; [eexists; split; [vm_compute; reflexivity|split; [reflexivity|rewrite <- (due_iff toy); vm_compute; discriminate]]|].
  split; [vm_compute; reflexivity|].
  exists 14%nat, 16%nat. do 2 eexists. split; [lia|]. split; [lia|]. split; [lia|].
  split; [vm_compute; reflexivity|]. split; vm_compute; reflexivity.
Qed.
