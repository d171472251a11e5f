(** A run of two servers, one with accounts "a" and "b", one with "a" alone
    (C100). *)
From Verif Require Import Base Time Utf8 Url Json Oracles Config Located Dump State Http Timers Server
  SpecServer Reach Scenario Runs Cases SpecApart.

(** [conf1] and [conf2] without "b". *)
Definition conf1a : str :=
  $"auth_notify_cmd = " ++ q ++ $"notify" ++ q ++ $"; token_event_cmd = " ++ q ++ $"event" ++ q
  ++ $"; error_notify_cmd = " ++ q ++ $"err" ++ q ++ $"; transient_error_if_cmd = " ++ q ++ $"iftrans" ++ q
  ++ $"; " ++ conf_account $"a" [].
Definition conf2a : str :=
  $"auth_notify_cmd = " ++ q ++ $"notify2" ++ q ++ $"; " ++ conf_account $"a" $"refresh_retry = 1m;".

(** What both then read as their new configuration. *)
Definition reloaded (s : str) : env := file s (client $"reload:" (tick (sec 1010))).

Lemma one_step w l : runs w [l] = true -> step toy w l = SNext (after w [l]).
Proof.
  unfold runs, after. cbn [run]. destruct (step toy w l); intros E; [discriminate E|discriminate E|reflexivity].
Qed.

Lemma b_is_not_a s p wu : s ++ $"b" = p ++ wu ++ $" " ++ $"a" -> False.
Proof. intros E. apply (f_equal (@rev ascii)) in E. rewrite !rev_app_distr in E. discriminate E. Qed.

(** Whatever can be decided by computing. *)
Ltac solve_elsewhere :=
  split;
  [intros H; inversion H; subst;
   match goal with
   | E : e_client _ = Some _, K : _ \/ _ |- _ =>
      cbn in E; first [discriminate E|injection E as E; subst; destruct K as [K|[K|K]]; try discriminate K;
        exact (b_is_not_a $"showtoken:withurl " $"showtoken:" _ K)]
   | N : nth_error _ _ = Some (PHttpStart _ _) |- _ => vm_compute in N; discriminate N
   | N : nth_error _ _ = Some ?p, W : work_id ?p = _ |- _ =>
      vm_compute in N; injection N as <-; vm_compute in W; discriminate W
   end
  |intros H; inversion H; subst;
   match goal with
   | E : e_client _ = Some _ |- _ => cbn in E; discriminate E
   | N : nth_error _ 2 = Some PNtScan |- _ => vm_compute in N; discriminate N
   end].

Ltac solve_not_by := intros tid e E F; first [discriminate E|injection E as <- <-; vm_compute in F; intuition discriminate].

Ltac go_first l :=
  match goal with T : together ?O ?n ?w1 ?w2 ?ps ?o1 ?o2 ?v1 ?v2 ?qs |- _ =>
    let U := fresh "U" in
    assert (U : together O n w1 w2 ps o1 o2 (after v1 [l]) v2 qs)
      by (refine (to_first _ _ _ _ _ _ _ _ _ _ l _ T _ _ _);
          [solve_not_by|solve_elsewhere|apply one_step; vm_compute; reflexivity]);
    clear T; rename U into T
  end.
Ltac go_second l :=
  match goal with T : together ?O ?n ?w1 ?w2 ?ps ?o1 ?o2 ?v1 ?v2 ?qs |- _ =>
    let U := fresh "U" in
    assert (U : together O n w1 w2 ps o1 o2 v1 (after v2 [l]) qs)
      by (refine (to_second _ _ _ _ _ _ _ _ _ _ l _ T _ _ _);
          [solve_not_by|solve_elsewhere|apply one_step; vm_compute; reflexivity]);
    clear T; rename U into T
  end.
Ltac go_both t e about :=
  match goal with T : together ?O ?n ?w1 ?w2 ?ps ?o1 ?o2 ?v1 ?v2 ?qs |- _ =>
    let new1 := eval vm_compute in (skipn (List.length (w_trace v1)) (w_trace (after v1 [LTick t e]))) in
    let new2 := eval vm_compute in (skipn (List.length (w_trace v2)) (w_trace (after v2 [LTick t e]))) in
    let U := fresh "U" in
    assert (U : together O n w1 w2 ps (o1 ++ new1) (o2 ++ new2) (after v1 [LTick t e]) (after v2 [LTick t e]) qs)
      by (eapply (to_both _ _ _ _ _ _ _ _ _ _ t t _ e); [exact T|left; reflexivity|vm_compute; reflexivity|about
           |apply one_step; vm_compute; reflexivity|apply one_step; vm_compute; reflexivity
           |vm_compute; reflexivity|vm_compute; reflexivity]);
    clear T; rename U into T
  end.
Ltac go_pair t al :=
  match goal with T : together ?O ?n ?w1 ?w2 ?ps ?o1 ?o2 ?v1 ?v2 ?qs |- _ =>
    let U := fresh "U" in
    assert (U : together O n w1 w2 ps o1 o2 v1 v2 ((t, t) :: qs))
      by (eapply to_pair; [exact T|intros [];discriminate|intros []; discriminate|vm_compute; reflexivity|vm_compute; reflexivity|al]);
    clear T; rename U into T
  end.
Ltac go_part :=
  match goal with T : together ?O ?n ?w1 ?w2 ?ps ?o1 ?o2 ?v1 ?v2 [(?t, ?u)] |- _ =>
    let U := fresh "U" in
    assert (U : together O n w1 w2 ps o1 o2 v1 v2 [])
      by (exact (to_part O n w1 w2 ps o1 o2 v1 v2 [] [] t u T));
    clear T; rename U into T
  end.
Ltac go_remind e :=
  match goal with T : together ?O ?n ?w1 ?w2 ?ps ?o1 ?o2 ?v1 ?v2 ?qs |- _ =>
    let U := fresh "U" in
    assert (U : together O n w1 w2 ps o1 o2 (after v1 [LTick 2 e]) (after v2 [LTick 2 e]) qs)
      by (eapply to_remind; [exact T|exact eq_refl|vm_compute; reflexivity|vm_compute; reflexivity
           |apply one_step; vm_compute; reflexivity|apply one_step; vm_compute; reflexivity]);
    clear T; rename U into T
  end.
Ltac go_reload e1 e2 :=
  match goal with T : together ?O ?n ?w1 ?w2 ?ps ?o1 ?o2 ?v1 ?v2 ?qs |- _ =>
    let U := fresh "U" in
    assert (U : together O n w1 w2 ps o1 o2 (after v1 [LTick 0 e1]) (after v2 [LTick 0 e2]) qs)
      by (eapply (to_reload _ _ _ _ _ _ _ _ _ _ e1 e2); [exact T|solve_not_by|solve_not_by|vm_compute; reflexivity|vm_compute; reflexivity
           |reflexivity|reflexivity|vm_compute; reflexivity|vm_compute; reflexivity
           |vm_compute; reflexivity|vm_compute; reflexivity|vm_compute; reflexivity
           |apply one_step; vm_compute; reflexivity|apply one_step; vm_compute; reflexivity]);
    clear T; rename U into T
  end.

Lemma twins_start : twins toy $"a" (start conf1) (start conf1a) [].
Proof.
  constructor.
  - reach_start.
  - reach_start.
  - constructor; [|vm_compute; reflexivity|vm_compute; reflexivity].
    do 3 eexists. split; [vm_compute; left; reflexivity|vm_compute; left; reflexivity].
  - vm_compute; reflexivity.
  - vm_compute; reflexivity.
  - constructor.
  - constructor.
  - intros t1 t2 [].
Qed.

Ltac asks_a := exists $"withurl"; eexists; split; [reflexivity|split; [vm_compute; intuition discriminate|left; reflexivity]].
Ltac only_a :=
  intros uri st m U L A; vm_compute in U; injection U as <-; vm_compute in L; injection L as <-;
  destruct A as [(cvr & ln & u & y & H & N & Y)|(cvr & ln & u & y & H & N & Y)]; vm_compute in H;
  repeat match type of H with _ \/ _ => destruct H as [H|H] end; try destruct H;
  cbn in N; subst m; first [reflexivity|exfalso; cbn in Y; injection Y; intros; discriminate].

(** Both are asked for "a"; one is asked for "b" meanwhile; both remind the user;
    the browser comes to both; both exchange the code, report the token and read
    a new configuration. *)
Lemma together_case : exists os1 os2 v1 v2,
  together toy $"a" (start conf1) (start conf1a) [] os1 os2 v1 v2 []
  /\ List.length (details (w_lk v1)) = 2 /\ List.length (details (w_lk v2)) = 1
  /\ (exists i1 i2 act, In (mkEntry $"a" i1 (TSActive act)) (details (w_lk v1))
        /\ In (mkEntry $"a" i2 (TSActive act)) (details (w_lk v2)) /\ i1 <> i2)
  /\ (exists u req d, In (OPost u req d) os1) /\ (exists x, In (OHttpResp x) os1)
  /\ (exists x, In (OReply $"showtoken:withurl a" x) os1).
Proof.
  pose proof (to_start toy $"a" (start conf1) (start conf1a) []) as T.
  go_pair 0%nat ltac:(vm_compute; apply al_main).
  go_both 0%nat (client $"showtoken:withurl a" (rand $"stateA" $"verifA" (tick (sec 1000)))) asks_a.
  go_both 0%nat (tick (sec 1000)) ltac:(vm_compute; exact I).
  go_both 0%nat (tick (sec 1000)) ltac:(vm_compute; exact I).
  go_part.
  go_first (main (client $"showtoken:withurl b" (rand $"STATE" $"VERIF" (tick (sec 1002))))).
  go_first (LTick 0 (tick (sec 1002))).
  go_first (LTick 0 (tick (sec 1002))).
  go_first (LTick 2 (tick (sec 1003))).
  go_first (LTick 2 (tick (sec 1003))).
  go_second (LTick 2 (tick (sec 1003))).
  go_second (LTick 2 (tick (sec 1003))).
  go_remind (tick (sec 1004)).
  go_first (LHttpConn false (callback ($"state=" ++ state_of $"stateA" ++ $"&code=c0de"))).
  go_second (LHttpConn false (callback ($"state=" ++ state_of $"stateA" ++ $"&code=c0de"))).
  go_pair 4%nat ltac:(vm_compute; apply al_http_start).
  go_both 4%nat (tick (sec 1005)) only_a.
  go_both 4%nat (tick (sec 1005)) ltac:(vm_compute; exact I).
  go_both 4%nat (posted (PRBody $"Rtok") (tick (sec 1006))) ltac:(vm_compute; exact I).
  go_both 4%nat (tick (sec 1007)) ltac:(vm_compute; exact I).
  go_both 4%nat (tick (sec 1007)) ltac:(vm_compute; exact I).
  go_both 4%nat (tick (sec 1007)) ltac:(vm_compute; exact I).
  go_both 4%nat (tick (sec 1007)) ltac:(vm_compute; exact I).
  go_part.
  go_reload (reloaded conf2) (reloaded conf2a).
  do 4 eexists. split; [exact T|].
  split; [vm_compute; reflexivity|]. split; [vm_compute; reflexivity|]. split.
  - do 3 eexists. split; [vm_compute; left; reflexivity|]. split; [vm_compute; left; reflexivity|discriminate].
  - repeat split; repeat eexists; cbn [app];
      repeat first [left; reflexivity|right].
Qed.
