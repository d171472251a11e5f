(** Specification: what a client or a browser misses that has gone. *)
From Verif Require Import Base Url Oracles Config State Server SpecServer SpecTimers Hangup.

(** What is written to clients and browsers, and everything else that is seen. *)
Definition is_answer (o : obs) : bool :=
  match o with OReply _ _ | OHttpResp _ => true | _ => false end.
Definition deeds (t : list obs) : list obs := filter (fun o => negb (is_answer o)) t.

(** How many answers get lost. *)
Fixpoint losses (ls : list hlabel) : nat :=
  match ls with
  | [] => 0
  | HLost _ :: ls' => S (losses ls')
  | HStep _ :: ls' => losses ls'
  end.

(** The same happens, but nobody goes away. *)
Definition stays (e : env) (l : hlabel) : label :=
  match l with HStep l => l | HLost tid => LTick tid e end.

(** Two servers in the same state, apart from what has been seen of them so far. *)
Record same_state (w w0 : world) : Prop := {
  ss_lk : w_lk w = w_lk w0;
  ss_http : w_http w = w_http w0;
  ss_https : w_https w = w_https w0;
  ss_pubkey : w_pubkey w = w_pubkey w0;
  ss_evq : w_evq w = w_evq w0;
  ss_ev : w_ev w = w_ev w0;
  ss_nt : w_nt w = w_nt w0;
  ss_rf : w_rf w = w_rf w0;
  ss_threads : w_threads w = w_threads w0;
  ss_alive : w_alive w = w_alive w0;
}.

(** [n] answers are missing, and nothing else. *)
Definition only_answers_missing (n : nat) (t t0 : list obs) : Prop :=
  deeds t = deeds t0 /\ subseq t t0 /\ List.length t0 = List.length t + n.

(** The states of a server whose clients and browsers may go away. *)
Inductive reachable_gone (O : oracles) : world -> Prop :=
| rg_init e c hp hsp pk :
    config_from_path O e = Val c -> reachable_gone O (init_world c hp hsp pk)
| rg_step w l w' : reachable_gone O w -> hstep O w l = SNext w' -> reachable_gone O w'.

(** In the run [ls] from [w] some answers are lost: [hs] is what happens then. *)
Inductive lossy (O : oracles) : world -> list label -> list hlabel -> Prop :=
| ly_nil w : lossy O w [] []
| ly_same w l w1 ls hs : step O w l = SNext w1 -> lossy O w1 ls hs -> lossy O w (l :: ls) (HStep l :: hs)
| ly_gone w tid e o k w1 ls hs :
    nth_error (w_threads w) tid = Some (PDo (AEmit o) k) -> is_answer o = true ->
    step O w (LTick tid e) = SNext w1 -> lossy O w1 ls hs -> lossy O w (LTick tid e :: ls) (HLost tid :: hs).
