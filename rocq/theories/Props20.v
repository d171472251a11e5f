(** C92: the dates [pizauth status] shows. *)
From Verif Require Import Base BaseLemmas Time Oracles Config State Server SpecServer SpecRestore Reach Basic SpecDates Dates
  Scenario Runs Cases.

(** There is a line for every account, and no other; it says what it has to. *)
Theorem C92_status_is_right O w e off :
  reachable O w -> asked w e $"status:" -> in_step e off -> ~ breaks_down O w (LTick 0 e) ->
  exists lines, just_answers O w e $"status:" ($"ok:" ++ join [nl] lines)
    /\ List.length lines = List.length (details (w_lk w))
    /\ (forall n ts, holds w n ts -> exists k txt, In (n ++ $": " ++ txt) lines /\ told O off (ri1 (e_clk e k)) ts txt)
    /\ (forall l, In l lines -> exists n ts k txt, l = n ++ $": " ++ txt /\ holds w n ts /\ told O off (ri1 (e_clk e k)) ts txt).
Proof. exact (all_told O w e off). Qed.
Print Assumptions C92_status_is_right.

(** Asked twice, at whatever times, it shows the same dates for the same state
    of an account. *)
Theorem C92_dates_stay O w1 e1 w2 e2 off n ts :
  reachable O w1 -> asked w1 e1 $"status:" -> in_step e1 off -> ~ breaks_down O w1 (LTick 0 e1) ->
  reachable O w2 -> asked w2 e2 $"status:" -> in_step e2 off -> ~ breaks_down O w2 (LTick 0 e2) ->
  holds w1 n ts -> holds w2 n ts -> same_side e1 e2 ts ->
  exists line lines1 lines2,
    just_answers O w1 e1 $"status:" ($"ok:" ++ join [nl] lines1)
    /\ just_answers O w2 e2 $"status:" ($"ok:" ++ join [nl] lines2)
    /\ In (n ++ $": " ++ line) lines1 /\ In (n ++ $": " ++ line) lines2.
Proof. exact (dates_stay O w1 e1 w2 e2 off n ts). Qed.
Print Assumptions C92_dates_stay.

(** * Case *)

Definition st1 : env := client $"status:" (tick (sec 1010)).
Definition st2 : env := client $"status:" (tick (sec 2000)).

Example C92_case :
  reachable toy w_auth /\ asked w_auth st1 $"status:" /\ in_step st1 0 /\ ~ breaks_down toy w_auth (LTick 0 st1)
  /\ reachable toy w_shown /\ asked w_shown st2 $"status:" /\ in_step st2 0 /\ ~ breaks_down toy w_shown (LTick 0 st2)
  /\ (exists a, holds w_auth $"a" (TSActive a) /\ holds w_shown $"a" (TSActive a) /\ same_side st1 st2 (TSActive a))
  /\ just_answers toy w_auth st1 $"status:"
       ($"ok:a: Active access token (obtained then; expires then)" ++ [nl] ++ $"b: No access token").
Proof.
  assert (reachable toy w_shown) as R2 by (unfold w_shown, w_auth; reach_after).
  split; [apply w_auth_reachable|]. split; [unfold asked; compute_all|].
  split; [intros k; split; [split; vm_compute; discriminate|reflexivity]|].
  split; [apply answered_not_broken; [apply w_auth_reachable|]; vm_compute; discriminate|].
  split; [exact R2|]. split; [unfold asked; compute_all|].
  split; [intros k; split; [split; vm_compute; discriminate|reflexivity]|].
  split; [apply answered_not_broken; [exact R2|]; vm_compute; discriminate|].
  split; [|vm_compute; reflexivity].
  exists (mkActive $"tok" (sec 1003) (sec 4603) (Some $"r") false 0 None). split; [|split].
  - eexists. split; [vm_compute; left; reflexivity|]. split; vm_compute; reflexivity.
  - eexists. split; [vm_compute; left; reflexivity|]. split; vm_compute; reflexivity.
  - left. intros k. split; reflexivity.
Qed.
