(** Specification: what the log says about clients that have gone. *)
From Verif Require Import Base Url Oracles Config State Server SpecServer SpecTimers Startup Log Hangup SpecHangup HangupLog.

(** How often clients are answered. *)
Definition replies (t : list obs) : nat :=
  List.length (filter (fun o => match o with OReply _ _ => true | _ => false end) t).

(** Warnings with the texts [ms] have been added to a log, some of them in place of the one
    about an unknown command. *)
Inductive warned : list str -> list log_line -> list log_line -> Prop :=
| wd_nil : warned [] [] []
| wd_same ms x l l0 : warned ms l l0 -> warned ms (x :: l) (x :: l0)
| wd_added ms m l l0 : warned ms l l0 -> warned (m :: ms) ((LWarn, m) :: l) l0
| wd_instead ms m l l0 : warned ms l l0 -> warned (m :: ms) ((LWarn, m) :: l) ((LWarn, $"Invalid command") :: l0).

(** Why answers could not be written, as the system says it. *)
Definition reasons (ls : list (hlabel * asides)) : list str :=
  flat_map (fun lx => match fst lx with HLost _ => [x_why (snd lx)] | HStep _ => [] end) ls.

(** The same happens, but nobody goes away. *)
Definition stays_here (e : env) (lx : hlabel * asides) : hlabel * asides := (HStep (stays e (fst lx)), snd lx).

(** The main thread waits for the next client. *)
Definition main_idle (w : world) : Prop := nth_error (w_threads w) 0 = Some PMain.
