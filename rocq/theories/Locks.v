(** The server's mutexes.  In Server.v a critical section is one step; here a
    thread takes the mutex, does its work and gives the mutex back in three
    steps, with the others running in between. *)
From Verif Require Import Base Utf8 Url Json Oracles Config State Http Server.

(** The mutexes that threads share. *)
Inductive lock :=
| LkState     (* state.rs:48, [locked_state] *)
| LkEvPred    (* eventer.rs:39, [pred] *)
| LkEvQueue   (* eventer.rs:41, [event_queue] *)
| LkNtPred    (* notifier.rs:18, [pred] *)
| LkRfPred.   (* refresher.rs:45, [pred] *)

(** mod.rs:98-301: which requests take the state's mutex.  Some give up before
    they get that far (a file that is not accepted, a name that is not UTF-8);
    here they take it nevertheless. *)
Definition request_locks (req : str) : bool :=
  match split_first ":"%char req with
  | None => false
  | Some (cmd, rest) =>
      let empty := match rest with [] => true | _ => false end in
      utf8_valid cmd
      && ((str_eqb cmd $"dump" && empty) || (str_eqb cmd $"reload" && empty) || str_eqb cmd $"refresh"
          || str_eqb cmd $"restore" || str_eqb cmd $"revoke" || str_eqb cmd $"showtoken"
          || (str_eqb cmd $"status" && empty))
  end.

(** The mutex a thread at [p] takes for its next step. *)
Definition locks (O : oracles) (p : pc) (client : option str) : option lock :=
  match p with
  (* mod.rs:79-302 *)
  | PMain => match client with Some req => if request_locks req then Some LkState else None | None => None end
  (* refresher.rs:60, 334, 269-363, 86, 113, 122 *)
  | PRefStart _ | PRefGot _ _ _ _ _ _ | PRefPerm _ _ _ | PRefTransient _ _ _ | PRefCmdDone _ _ _ => Some LkState
  (* http_server.rs:48-68 *)
  | PHttpStart https bytes =>
      match parse_get O https bytes with
      | Some uri => match find_pair $"state" (query_pairs uri) with Some _ => Some LkState | None => None end
      | None => None
      end
  (* http_server.rs:195-203 *)
  | PHttpBody _ body => match o_json O body with inl _ => Some LkState | inr _ => None end
  (* http_server.rs:256; notifier.rs:142 *)
  | PHttpFail _ _ | PHttpNotify _ _ _ => Some LkState
  (* eventer.rs:55-60; waiting on a condition variable ends with taking the mutex again *)
  | PEvTop | PEvBlocked => Some LkEvPred
  (* eventer.rs:64, 70 *)
  | PEvPop => Some LkEvQueue
  | PEvCmd _ _ => Some LkState
  (* notifier.rs:35, 122-134; 36-55; 58-85 *)
  | PNtTop | PNtScan => Some LkState
  | PNtCheck _ | PNtBlocked _ => Some LkNtPred
  (* refresher.rs:448, 419-431; 449-469; 471-482 *)
  | PRfTop | PRfScan => Some LkState
  | PRfCheck _ | PRfBlocked _ => Some LkRfPred
  (* notifier.rs:117; refresher.rs:436; eventer.rs:116, 117 *)
  | PDo ASigNotifier _ => Some LkNtPred
  | PDo ASigRefresher _ => Some LkRfPred
  | PDo (APushEvent _ _) _ => Some LkEvQueue
  | PDo ASigEventer _ => Some LkEvPred
  | PDo _ _ | PDone | PRefPost _ _ _ _ _ | PRefBody _ _ _ _ | PRefCmd _ _ _ | PHttpPost _ _ _ _
  | PEvRun _ _ _ | PEvRunning => None
  end.

(** mod.rs:250, 295: the reply to [status] is written before the mutex is given
    back.  (So are the threads of a refresh started by [showtoken], mod.rs:235, and
    of [error_notify_cmd], notifier.rs:142-169; but nothing is waited for there.) *)
Definition keeps_lock (p : pc) : bool :=
  match p with PDo (AEmit (OReply req _)) _ => str_eqb req $"status:" | _ => false end.

(** How far a thread is with the critical section it is at: [lock().unwrap()],
    the work, and [drop] (e.g. mod.rs:174-178, state.rs:98-101). *)
Inductive phase :=
| Without
| Has (l : lock) (client : option str)   (* has taken it, on behalf of a client maybe *)
| Did (l : lock).                        (* has done its work *)

(** The server with what every thread has in hand. *)
Record fine := mkFine { f_world : world; f_phase : nat -> phase }.

(** One thread's changed. *)
Definition set_phase (f : nat -> phase) (tid : nat) (x : phase) : nat -> phase :=
  fun t => if Nat.eqb t tid then x else f t.

(** The mutex that it holds. *)
Definition in_hand (x : phase) : option lock :=
  match x with Without => None | Has l _ | Did l => Some l end.

(** Steps in which taking a mutex, working and dropping it are apart. *)
Inductive flabel :=
| FTake (tid : nat) | FWork (tid : nat) | FDrop (tid : nat)
| FPlain (tid : nat)        (* a step without any mutex *)
| FWrite (tid : nat)        (* writing a reply with the mutex in hand *)
| FConn.

(** The steps: only who finds the mutex free takes it ([Mutex::lock] blocks,
    e.g. state.rs:91, eventer.rs:55, notifier.rs:36, refresher.rs:449). *)
Inductive fstep (O : oracles) (f : fine) : flabel -> fine -> Prop :=
| fs_take tid p e l :
    w_alive (f_world f) = true -> nth_error (w_threads (f_world f)) tid = Some p ->
    f_phase f tid = Without -> locks O p (e_client e) = Some l ->
    (* who waits on a condition variable has been woken up *)
    step O (f_world f) (LTick tid e) <> SStuck ->
    (forall t, in_hand (f_phase f t) <> Some l) ->
    fstep O f (FTake tid) (mkFine (f_world f) (set_phase (f_phase f) tid (Has l (e_client e))))
| fs_work tid e l w' :
    f_phase f tid = Has l (e_client e) -> step O (f_world f) (LTick tid e) = SNext w' ->
    fstep O f (FWork tid) (mkFine w' (set_phase (f_phase f) tid (Did l)))
| fs_drop tid p l :
    w_alive (f_world f) = true -> nth_error (w_threads (f_world f)) tid = Some p ->
    f_phase f tid = Did l -> (l = LkState -> keeps_lock p = false) ->
    fstep O f (FDrop tid) (mkFine (f_world f) (set_phase (f_phase f) tid Without))
| fs_plain tid p e w' :
    nth_error (w_threads (f_world f)) tid = Some p -> f_phase f tid = Without -> locks O p (e_client e) = None ->
    step O (f_world f) (LTick tid e) = SNext w' ->
    fstep O f (FPlain tid) (mkFine w' (f_phase f))
| fs_write tid p e w' :
    nth_error (w_threads (f_world f)) tid = Some p -> keeps_lock p = true -> f_phase f tid = Did LkState ->
    step O (f_world f) (LTick tid e) = SNext w' ->
    fstep O f (FWrite tid) (mkFine w' (f_phase f))
| fs_conn https bytes w' :
    step O (f_world f) (LHttpConn https bytes) = SNext w' ->
    fstep O f FConn (mkFine w' (f_phase f)).
