(** Threads that cannot be started, and the poisoned mutex that may be left behind.

    [std::thread::spawn] panics if the system refuses a new thread.  A panic ends
    the thread it happens in, or the process if that is the main thread; and if the
    thread has a mutex in hand, whoever takes that mutex from then on panics as
    well ([.lock().unwrap()], state.rs:91).  In Server.v threads are always started. *)
From Verif Require Import Base Utf8 Url Json Oracles Config State Http Server Locks.

(** The server together with what has gone wrong (state.rs:48, 91). *)
Record frail := mkFrail {
  x_world : world;
  x_dead : list nat;          (* the threads that have panicked *)
  x_poison : bool;            (* is the state's mutex poisoned? *)
  x_deaf : bool -> bool;      (* has the thread that accepts browsers, HTTPS or not, panicked? *)
  x_down : bool;              (* has the process ended in a panic? *)
}.

(** Nothing has gone wrong yet. *)
Definition frail_start (w : world) : frail := mkFrail w [] false (fun _ => false) false.

(** What happens. (refresher.rs:59, notifier.rs:88, 144, http_server.rs:392, 459) *)
Inductive xlabel :=
| XStep (l : label)           (* something happens that does not fail *)
| XNoThread (tid : nat)       (* thread [tid] fails to start a thread *)
| XNoBrowser (https : bool).  (* a browser connects and no thread can be started for it *)

(** A thread about to start another one: refresher.rs:59 (called from mod.rs:158, 235 and
    refresher.rs:485), notifier.rs:88, notifier.rs:144. *)
Definition starts (w : world) (p : pc) : bool :=
  match p with
  | PDo (ASpawnRefresh _) _ => true
  | PDo (AEmit (OAuthCmd _ _ _)) _ => true
  | PHttpNotify _ _ _ => is_some (c_error_notify_cmd (lconfig (w_lk w)))
  | _ => false
  end.

(** notifier.rs:142: the guard returned by [ct_lock()] lives as long as the [match].
    (So does the one of mod.rs:235, but there the process ends.) *)
Definition starts_locked (p : pc) : bool :=
  match p with PHttpNotify _ _ _ => true | _ => false end.

(** Has the thread panicked? *)
Definition is_dead (f : frail) (tid : nat) : bool := existsb (Nat.eqb tid) (x_dead f).

(** A panic in thread [tid]. (state.rs:87-91) *)
Definition panics (f : frail) (tid : nat) (poison : bool) : frail :=
  mkFrail (x_world f) (tid :: x_dead f) (x_poison f || poison) (x_deaf f)
    (match tid with 0 => true | _ => x_down f end).

(** The step of Server.v; one that panics does so with the state's mutex in hand
    (mod.rs:250-289, where chrono panics). *)
Definition carry_on (f : frail) (tid : option nat) (r : sres) : option frail :=
  match r with
  | SNext w => Some (mkFrail w (x_dead f) (x_poison f) (x_deaf f) (x_down f))
  | SPanic => match tid with Some t => Some (panics f t true) | None => None end
  | SStuck => None
  end.

(** Does a thread at [p] take the state's mutex next? (state.rs:90-92) *)
Definition takes_state (O : oracles) (p : pc) (client : option str) : bool :=
  match locks O p client with Some LkState => true | _ => false end.

(** One step (refresher.rs:59, notifier.rs:88, 142-144, http_server.rs:392, 459, state.rs:91). *)
Definition xstep (O : oracles) (f : frail) (l : xlabel) : option frail :=
  if x_down f || negb (w_alive (x_world f)) then None
  else
    match l with
    | XStep (LTick tid e) =>
        match nth_error (w_threads (x_world f)) tid with
        | None => None
        | Some p =>
            if is_dead f tid then None
            (* state.rs:91 [.lock().unwrap()] *)
            else if x_poison f && takes_state O p (e_client e) then Some (panics f tid false)
            else carry_on f (Some tid) (step O (x_world f) (LTick tid e))
        end
    | XStep (LHttpConn https bytes) =>
        if x_deaf f https then None else carry_on f None (step O (x_world f) (LHttpConn https bytes))
    | XNoThread tid =>
        match nth_error (w_threads (x_world f)) tid with
        | None => None
        | Some p =>
            if is_dead f tid then None
            else if starts (x_world f) p then Some (panics f tid (starts_locked p)) else None
        end
    (* http_server.rs:389-398, 448-466 *)
    | XNoBrowser https =>
        if is_some (if https then w_https (x_world f) else w_http (x_world f)) && negb (x_deaf f https)
        then Some (mkFrail (x_world f) (x_dead f) (x_poison f)
                     (fun h => Bool.eqb h https || x_deaf f h) (x_down f))
        else None
    end.
