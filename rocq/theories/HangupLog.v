(** The log of a server whose clients and browsers may go away (Hangup.v).

    In Log.v the line about an unknown command is attributed to the step that reads
    the request.  It is written after the answer (mod.rs:299-301, 400-402), and
    only if that could be written: if not, the error of [write_all] is logged in its
    place.  Here each line comes when it is written. *)
From Verif Require Import Base Time Utf8 Base64 Url Json Oracles Config Dump State Http Timers Server Startup Log Hangup.

(** mod.rs:79-96 and the [?] of mod.rs:98-299 up to the answer, 400-402: no answer, but an error. *)
Definition read_log (O : oracles) (e : env) (w : world) (req : str) : list log_line :=
  match request O e w req with Err m => [(LWarn, m)] | _ => [] end.

(** mod.rs:299-301, 400-402: the answer has been written. *)
Definition replied_log (req : str) : list log_line :=
  match split_first ":"%char req with
  | Some (cmd, rest) => if unknown_command cmd rest then [(LWarn, $"Invalid command")] else []
  | None => []
  end.

(** mod.rs:100-299 [?], 400-402: it could not be, for the reason [x_why x];
    http_server.rs:358-372 [.ok()]: nothing is said. *)
Definition lost_log (w : world) (tid : nat) (x : asides) : list log_line :=
  match nth_error (w_threads w) tid with
  | Some (PDo (AEmit (OReply _ _)) _) => [(LWarn, x_why x)]
  | _ => []
  end.

(** The lines written during a step (the same places; the others as in Log.v). *)
Definition hlog_of (O : oracles) (w : world) (l : hlabel) (x : asides) : list log_line :=
  match l with
  | HLost tid => lost_log w tid x
  | HStep (LTick tid e) =>
      match nth_error (w_threads w) tid with
      | Some PMain => match e_client e with Some req => read_log O e w req | None => [] end
      | Some (PDo (AEmit (OReply req _)) _) => replied_log req
      | Some p => thread_log O w p e x
      | None => []
      end
  | HStep (LHttpConn _ _) => []
  end.

(** The log of a whole run; as [run_log]. *)
Fixpoint hrun_log (O : oracles) (w : world) (ls : list (hlabel * asides)) : list log_line :=
  match ls with
  | [] => []
  | (l, x) :: ls' =>
      match hstep O w l with
      | SNext w' => hlog_of O w l x ++ hrun_log O w' ls'
      | _ => []
      end
  end.
