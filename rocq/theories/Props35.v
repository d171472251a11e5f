(** C107: what the log says about those who have gone. *)
From Coq Require Import Permutation.
From Verif Require Import Base Time Utf8 Url Json Oracles Config Dump State Http Timers Server Startup Log SpecServer SpecTimers SpecLog
  Scenario Runs Cases Hangup SpecHangup HangupLog SpecHangupLog HangupLemmas HangupLogLemmas Props14 Props32.
Local Open Scope Z_scope.

(** One warning for each client whose answer is lost, with the reason, and none for
    browsers; the warning may stand in the place of the one about an unknown command.  All other
    lines are as if nobody had gone, in the same order. *)
Theorem C107_one_warning_each O e w ls w' :
  reachable O w -> hrun O w (map fst ls) = Some (SNext w') ->
  exists w0 ms, run O w (map (stays e) (map fst ls)) = Some (SNext w0) /\ same_state w' w0
    /\ subseq ms (reasons ls) /\ warned ms (hrun_log O w ls) (hrun_log O w (map (stays_here e) ls))
    /\ replies (w_trace w0) = (replies (w_trace w') + List.length ms)%nat.
Proof. exact (gone_logged O e w ls w'). Qed.
Print Assumptions C107_one_warning_each.

(** So nothing is added to or missing from the lines that are no warnings. *)
Theorem C107_rest_as_ever O e w ls w' :
  reachable O w -> hrun O w (map fst ls) = Some (SNext w') ->
  let loud := filter (fun x : log_line => match fst x with LWarn => false | _ => true end) in
  loud (hrun_log O w ls) = loud (hrun_log O w (map (stays_here e) ls)).
Proof.
  exact (fun R H => match gone_logged O e w ls w' R H with
                    | ex_intro _ _ (ex_intro _ _ (conj _ (conj _ (conj _ (conj W _))))) => warned_rest _ _ _ W
                    end).
Qed.
Print Assumptions C107_rest_as_ever.

(** If nobody goes, the lines are those of C80 and C81. *)
Theorem C107_nobody_goes O w ls w' :
  reachable O w -> run O w (map fst ls) = Some (SNext w') -> main_idle w -> main_idle w' ->
  Permutation (hrun_log O w (map (fun lx => (HStep (fst lx), snd lx)) ls)) (run_log O w ls).
Proof. exact (nobody_goes O w ls w'). Qed.
Print Assumptions C107_nobody_goes.

(** So every line is one the server would have written anyway, and C80 and C81 speak
    about it, or a warning with the system's words. *)
Theorem C107_nothing_else O e w ls w' x :
  reachable O w -> hrun O w (map fst ls) = Some (SNext w') -> main_idle w ->
  In x (hrun_log O w ls) ->
  In x (run_log O w (map (fun lx => (stays e (fst lx), snd lx)) ls)) \/ exists m, x = (LWarn, m) /\ In m (reasons ls).
Proof. exact (nothing_else O e w ls w' x). Qed.
Print Assumptions C107_nothing_else.

(** The run of C104, and a client that asks something unknown and goes. *)
Definition epipe : asides := mkAsides (CExit (Some 0%N) []) $"Broken pipe (os error 32)".
Definition vanishing_too : list (hlabel * asides) :=
  map (fun l => (l, epipe))
    (map HStep ([main (client $"hello:" (tick (sec 900)))] ++ many 1 0 (tick (sec 900)))
     ++ map HStep [main (client $"hello:" (tick (sec 901)))] ++ [HLost 0] ++ vanishing).

Example C107_case :
  reachable toy (start conf1)
  /\ (exists w', hrun toy (start conf1) (map fst vanishing_too) = Some (SNext w'))
  /\ main_idle (start conf1)
  /\ losses (map fst vanishing_too) = 4%nat
  /\ hrun_log toy (start conf1) vanishing_too
     = [(LWarn, $"Invalid command"); (LWarn, $"Broken pipe (os error 32)"); (LWarn, $"Broken pipe (os error 32)");
        (LWarn, $"Broken pipe (os error 32)")]
  /\ hrun_log toy (start conf1) (map (stays_here (tick (sec 1000))) vanishing_too)
     = [(LWarn, $"Invalid command"); (LWarn, $"Invalid command")].
Proof.
  split; [reach_start|]. split; [|split; [reflexivity|split; [reflexivity|split; vm_compute; reflexivity]]].
  exists (match hrun toy (start conf1) (map fst vanishing_too) with Some (SNext w) => w | _ => start conf1 end).
  vm_compute. reflexivity.
Qed.

Definition asked_twice : list (label * asides) :=
  map (fun l => (l, epipe))
    (([main (client $"hello:" (tick (sec 900)))] ++ many 1 0 (tick (sec 900)))
     ++ [main (client $"hello" (tick (sec 901)))]).

Example C107_case_nobody :
  reachable toy (start conf1)
  /\ (exists w', run toy (start conf1) (map fst asked_twice) = Some (SNext w') /\ main_idle w')
  /\ main_idle (start conf1)
  /\ run_log toy (start conf1) asked_twice
     = [(LWarn, $"Invalid command"); (LWarn, $"Syntactically invalid request 'hello'")].
Proof.
  split; [reach_start|]. split; [|split; [reflexivity|vm_compute; reflexivity]].
  exists (match run toy (start conf1) (map fst asked_twice) with Some (SNext w) => w | _ => start conf1 end).
  split; vm_compute; reflexivity.
Qed.

Lemma complaint_begins req m : complaint req m -> forall r, m = "B"%char :: r -> False.
Proof.
  intros C. destruct C as [req N T|req N T|cmd rest m N NT|cmd rest m I NT|cmd rest I N|cmd rest N T I D]; intros r E;
    try discriminate E; destruct NT; discriminate E.
Qed.

(** What was wrong with a request (C80) is not said if who made it has gone. *)
Theorem C107_unknown_said_refuted :
  exists O w req e x w',
    reachable O w /\ main_idle w /\ e_client e = Some req /\ ~ documented req
    /\ hrun O w [HStep (LTick 0 e); HLost 0] = Some (SNext w') /\ main_idle w'
    /\ forall m, complaint req m -> ~ In (LWarn, m) (hrun_log O w [(HStep (LTick 0 e), x); (HLost 0, x)]).
Proof.
  exists toy, (start conf1), $"hello:", (client $"hello:" (tick (sec 900))), epipe,
    (match hrun toy (start conf1) [HStep (LTick 0 (client $"hello:" (tick (sec 900)))); HLost 0] with
     | Some (SNext w) => w | _ => start conf1 end).
  split; [reach_start|]. split; [reflexivity|]. split; [reflexivity|]. split.
  - intros D. remember $"hello:" as r eqn:E. destruct D; discriminate E.
  - split; [vm_compute; reflexivity|]. split; [vm_compute; reflexivity|].
    intros m CM IN.
    assert (hrun_log toy (start conf1) [(HStep (LTick 0 (client $"hello:" (tick (sec 900)))), epipe); (HLost 0, epipe)]
            = [(LWarn, $"Broken pipe (os error 32)")]) as E by (vm_compute; reflexivity).
    rewrite E in IN. destruct IN as [[= <-]|[]].
    exact (complaint_begins _ _ CM $"roken pipe (os error 32)" eq_refl).
Qed.
Print Assumptions C107_unknown_said_refuted.
