(** Clients and browsers that have gone before they are answered.

    In Server.v every answer reaches the one it is for.  Here [write_all] may fail
    (the process ignores SIGPIPE, as every Rust program does).  In [request] of
    mod.rs the error ends the function, which was called for that client
    (mod.rs:100-299 [?], 400-402); whatever comes after the [write_all] is not
    done.  In http_server.rs it is ignored (http_server.rs:358-372), and the thread
    goes on with what it has to do for the browser. *)
From Verif Require Import Base Utf8 Url Json Oracles Config State Http Server.

(** What happens (mod.rs:400-402, http_server.rs:358-372). *)
Inductive hlabel :=
| HStep (l : label)       (* a step of Server.v: answers arrive *)
| HLost (tid : nat).      (* thread [tid] cannot write the answer: whom it is for has gone *)

(** mod.rs:100-299, 400-402; http_server.rs:358-372 *)
Definition write_fails (w : world) (tid : nat) : sres :=
  match nth_error (w_threads w) tid with
  | Some (PDo (AEmit (OReply _ _)) _) => SNext (set_thread w tid PMain)
  | Some (PDo (AEmit (OHttpResp _)) k) => SNext (set_thread w tid k)
  | _ => SStuck
  end.

(** One step (the same places). *)
Definition hstep (O : oracles) (w : world) (l : hlabel) : sres :=
  match l with
  | HStep l => step O w l
  | HLost tid => if w_alive w then write_fails w tid else SStuck
  end.

(** Several; as [run]. *)
Fixpoint hrun (O : oracles) (w : world) (ls : list hlabel) : option sres :=
  match ls with
  | [] => Some (SNext w)
  | l :: ls' =>
      match hstep O w l with
      | SNext w' => hrun O w' ls'
      | SPanic => Some SPanic
      | SStuck => None
      end
  end.
