(** Specification: what the mutexes are for. *)
From Verif Require Import Base Oracles Config State Server SpecStatus Locks.

(** Nobody has a mutex when the server starts. *)
Inductive fine_reachable (O : oracles) : fine -> Prop :=
| fr_start e c hp hsp pk :
    config_from_path O e = Val c -> fine_reachable O (mkFine (init_world c hp hsp pk) (fun _ => Without))
| fr_step f l f' : fine_reachable O f -> fstep O f l f' -> fine_reachable O f'.

Definition holds_lock (f : fine) (tid : nat) (l : lock) : Prop := in_hand (f_phase f tid) = Some l.

(** Thread [tid] would go on if it got the mutex [l]. *)
Definition wants (O : oracles) (f : fine) (tid : nat) (l : lock) : Prop :=
  exists p e, nth_error (w_threads (f_world f)) tid = Some p /\ f_phase f tid = Without
    /\ locks O p (e_client e) = Some l /\ step O (f_world f) (LTick tid e) <> SStuck.

(** The step is the thread's. *)
Definition by_thread (l : flabel) (tid : nat) : Prop :=
  match l with FTake t | FWork t | FDrop t | FPlain t | FWrite t => t = tid | FConn => False end.

Inductive fsteps (O : oracles) (allowed : flabel -> Prop) : fine -> fine -> Prop :=
| fss_refl f : fsteps O allowed f f
| fss_step f l f1 f2 : allowed l -> fstep O f l f1 -> fsteps O allowed f1 f2 -> fsteps O allowed f f2.

(** The main thread is writing the reply to [status]. *)
Definition is_writing (w : world) : Prop :=
  exists txt k, nth_error (w_threads w) 0 = Some (PDo (AEmit (OReply $"status:" txt)) k).

(** It writes it before anything else happens. *)
Inductive promptly (O : oracles) : world -> Prop :=
| pr_start e c hp hsp pk : config_from_path O e = Val c -> promptly O (init_world c hp hsp pk)
| pr_step w l w' :
    promptly O w -> step O w l = SNext w' -> (is_writing w -> exists e, l = LTick 0 e) -> promptly O w'.

(** The main thread has the state's mutex and is writing the reply to [status]. *)
Definition writes_status (f : fine) : Prop :=
  holds_lock f 0 LkState /\ is_writing (f_world f).

(** The server breaks down while thread [tid] has the mutex. *)
Definition may_break (O : oracles) (f : fine) : Prop :=
  exists tid e, f_phase f tid = Has LkState (e_client e) /\ breaks_down O (f_world f) (LTick tid e).

(** What a mutex guards is the same in [w] and [w']. *)
Definition guarded_same (l : lock) (w w' : world) : Prop :=
  match l with
  | LkState => w_lk w' = w_lk w
  | LkEvPred => w_ev w' = w_ev w
  | LkEvQueue => w_evq w' = w_evq w
  | LkNtPred => w_nt w' = w_nt w
  | LkRfPred => w_rf w' = w_rf w
  end.

(** [w] with something else in the place that [l] guards. *)
Inductive swapped (w : world) : lock -> world -> Prop :=
| sw_state lk : swapped w LkState (set_lk w lk)
| sw_evpred c : swapped w LkEvPred (set_ev w c)
| sw_evqueue q : swapped w LkEvQueue (set_evq w q)
| sw_ntpred c : swapped w LkNtPred (set_nt w c)
| sw_rfpred c : swapped w LkRfPred (set_rf w c).
