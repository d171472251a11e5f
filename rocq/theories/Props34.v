(** C106: the loops that take connections. *)
From Verif Require Import Base BaseLemmas Accept SpecAccept AcceptLemmas.

(** Whoever connects is taken, once and in the order of arrival, or is still
    waiting; missing are only some who have gone themselves. *)
Theorem C106_nobody_lost free ls s :
  drun (new_door free) ls = Some s ->
  without_some (fun id => In (DGone id) ls) (dr_taken s ++ map fst (dr_waiting s)) (arrivals ls).
Proof. exact (in_order free ls s). Qed.
Print Assumptions C106_nobody_lost.

(** A call that fails does not end the loop: it stops only to wait for somebody. *)
Theorem C106_keeps_on s : dstep s DAccept = None <-> dr_waiting s = [] /\ dr_free s <> O.
Proof. exact (loop_waits s). Qed.
Print Assumptions C106_keeps_on.

(** If there are descriptors for all who are still there, and one to spare, as many calls
    as there are people waiting take them all, and use no more descriptors than that. *)
Theorem C106_taken s there :
  there = filter (fun p => negb (snd p)) (dr_waiting s) -> (List.length there < dr_free s)%nat ->
  exists s', drun s (repeat DAccept (List.length (dr_waiting s))) = Some s' /\ dr_waiting s' = []
    /\ dr_taken s' = dr_taken s ++ map fst there /\ (dr_free s' + List.length there = dr_free s)%nat.
Proof. intros ->. destruct s as [wt fr tk ca]. exact (all_taken wt fr tk ca). Qed.
Print Assumptions C106_taken.

(** However often the loop has failed for want of descriptors before. *)
Theorem C106_after_all s n :
  dr_free s = O ->
  exists s', drun s (repeat DAccept n ++ repeat DClose (S (List.length (dr_waiting s)))
                     ++ repeat DAccept (List.length (dr_waiting s))) = Some s'
    /\ dr_waiting s' = [] /\ dr_taken s' = dr_taken s ++ map fst (filter (fun p => negb (snd p)) (dr_waiting s)).
Proof. exact (taken_after_all s n). Qed.
Print Assumptions C106_after_all.

(** But an idle server does not sleep then: without a descriptor the loop calls
    [accept] again and again, though nobody is there and nothing changes. *)
Theorem C106_idle_refuted :
  exists free ls s, drun (new_door free) ls = Some s /\ arrivals ls = []
    /\ forall n, exists s', drun s (repeat DAccept n) = Some s' /\ dr_calls s' = (n + dr_calls s)%nat
         /\ dr_waiting s' = [] /\ dr_taken s' = [] /\ dr_free s' = O.
Proof.
  exists 1%nat, [DOpen], (mkDoor [] 0 [] 0). split; [reflexivity|]. split; [reflexivity|].
  intros n. exists (mkDoor [] 0 [] (n + 0)). split; [exact (calls_fail [] [] n 0)|]. auto.
Qed.
Print Assumptions C106_idle_refuted.

(** Three come; the second goes away while the process has no descriptors left. *)
Example C106_case :
  exists s, drun (new_door 1) [DOpen; DConn 7; DConn 8; DAccept; DConn 9; DGone 8; DAccept; DClose; DClose; DClose;
                               DAccept; DAccept; DOpen] = Some s
    /\ dr_taken s = [7%nat] /\ dr_waiting s = [(9%nat, false)] /\ dr_calls s = 4%nat /\ dstep s DAccept <> None.
Proof. eexists. split; [vm_compute; reflexivity|]. repeat split. discriminate. Qed.

Example C106_case_after :
  exists s ls, drun (new_door 0) ls = Some s /\ dr_free s = O /\ dr_waiting s = [(7, false); (8, true); (9, false)]%nat
    /\ exists s', drun s (repeat DAccept 5 ++ repeat DClose 4 ++ repeat DAccept 3) = Some s' /\ dr_taken s' = [7; 9]%nat.
Proof.
  eexists. exists [DConn 7; DConn 8; DConn 9; DGone 8]%nat. split; [vm_compute; reflexivity|]. split; [reflexivity|].
  split; [reflexivity|]. eexists. split; [vm_compute; reflexivity|]. reflexivity.
Qed.

Example C106_case_taken :
  exists s, s = mkDoor [(7, false); (8, true); (9, true)]%nat 2 [] 0
    /\ (List.length (filter (fun p => negb (snd p)) (dr_waiting s)) < dr_free s)%nat.
Proof. eexists. split; [reflexivity|]. cbn. lia. Qed.
