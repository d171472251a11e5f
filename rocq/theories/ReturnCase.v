(** Two runs in which a browser comes back and the provider cannot be reached at
    first, or not at all. *)
From Verif Require Import Base BaseLemmas Time Utf8 Url Json Oracles Config Dump State Http Timers Server SpecServer
  SpecTimers SpecSessions SpecFair SpecTimed SpecReturn Reach Steps Inv Fair Scenario Runs Cases Endless.
Local Open Scope Z_scope.

Section Slow.
Variable w0 : world.
Variable l : list label.
Variable t0 tc t1 p : Z.
Definition slow_at : nat -> world := then_rest w0 l.
Definition slow_step : nat -> option label := then_nothing l.
(** The time a state is reached is that of the step before; browsers connect at [tc]. *)
Definition slow_time (k : nat) : Z :=
  match k with
  | O => t0
  | S k => match nth_error l k with
           | Some (LTick _ e) => ri1 (e_clk e 0%nat)
           | Some (LHttpConn _ _) => tc
           | None => t1
           end
  end.
Definition one_clock (x : label) : Prop :=
  match x with LTick _ e => forall i, ri1 (e_clk e i) = ri1 (e_clk e 0%nat) | _ => True end.

(** Time passes while the provider is tried, and while no browser waits.  The
    attempt with [n] left is made between [tc + (10 - n) * p] and [p] later. *)
Definition slowb (k : nat) (tid : nat) (q : pc) : bool :=
  match q with
  | PHttpPost _ _ _ n => (tc + (10 - Z.of_nat n) * p <=? slow_time k) && (slow_time (S k) <=? tc + (11 - Z.of_nat n) * p)
  | PHttpStart _ _ | PHttpBody _ _ | PHttpFail _ _ | PHttpNotify _ _ _ => slow_time (S k) =? slow_time k
  | PDo _ _ => (tid <? 4)%nat || (slow_time (S k) =? slow_time k)
  | _ => true
  end.
Definition slow_ok (k : nat) : bool :=
  (slow_time k <=? slow_time (S k))
  && forallb (fun x => slowb k (fst x) (snd x)) (combine (seq 0 (List.length (w_threads (slow_at k)))) (w_threads (slow_at k))).

Hypothesis START : reachable toy w0.
Hypothesis RUNS : runs w0 l = true.
Hypothesis CLOCKS : Forall one_clock l.
Hypothesis OK : forallb slow_ok (seq 0 (S (List.length l))) = true.
Hypothesis LAST : slow_time (List.length l) = t1.
Hypothesis QUIET : forallb (fun q => match q with
    | PHttpPost _ _ _ _ | PHttpStart _ _ | PHttpBody _ _ | PHttpFail _ _ | PHttpNotify _ _ _ | PDo _ _ => false
    | _ => true end) (w_threads (after w0 l)) = true.

Lemma slow_time_after k : (List.length l <= k)%nat -> slow_time k = t1.
Proof.
  intros L. destruct (Nat.eq_dec k (List.length l)) as [->|N]; [exact LAST|].
  destruct k as [|k]; [lia|]. cbn [slow_time]. rewrite (proj2 (nth_error_None l k)) by lia. reflexivity.
Qed.

Lemma slow_stays k : (List.length l <= k)%nat -> slow_at k = after w0 l.
Proof. intros L. apply then_rest_end. exact L. Qed.

Lemma slow_forward k : slow_time k <= slow_time (S k).
Proof.
  destruct (Nat.lt_ge_cases k (S (List.length l))) as [L|G]; [|rewrite !slow_time_after by lia; lia].
  pose proof (proj1 (forallb_forall _ _) OK k ltac:(apply in_seq; lia)) as B. apply andb_true_iff in B as [B _].
  apply Z.leb_le. exact B.
Qed.

Lemma nth_combine_seq {A} (xs : list A) : forall a n x, nth_error xs n = Some x -> In ((a + n)%nat, x) (combine (seq a (List.length xs)) xs).
Proof.
  induction xs as [|y xs IH]; intros a [|n] x E; try discriminate E; cbn [nth_error List.length seq combine] in *.
  - injection E as ->. left. rewrite Nat.add_0_r. reflexivity.
  - right. specialize (IH (S a) n x E). replace (a + S n)%nat with (S a + n)%nat by lia. exact IH.
Qed.

Lemma slow_thread k tid q : nth_error (w_threads (slow_at k)) tid = Some q -> (forall b, browser_limit 0 p q = Some b -> slowb k tid q = true)
  /\ ((exists a r, q = PDo a r) -> slowb k tid q = true).
Proof.
  intros A. destruct (Nat.lt_ge_cases k (S (List.length l))) as [L|G].
  - pose proof (proj1 (forallb_forall _ _) OK k ltac:(apply in_seq; lia)) as B. apply andb_true_iff in B as [_ B].
    pose proof (proj1 (forallb_forall _ _) B _ (nth_combine_seq _ 0 _ _ A)) as X. cbn [fst snd Nat.add] in X. auto.
  - rewrite slow_stays in A by lia. pose proof (proj1 (forallb_forall _ _) QUIET _ (nth_error_In _ _ A)) as B.
    cbn beta in B. split; [intros b E|intros (a & r & ->); discriminate B]. destruct q; try discriminate B; discriminate E.
Qed.

Lemma slow_browsing d : 0 <= d -> browsing toy slow_at slow_step slow_time d p.
Proof.
  intros D.
  assert (forall Q : nat -> Prop, (forall k, Q k -> slow_time (S k) = slow_time k) -> brief slow_time Q d) as ST.
  { intros Q SQ k j L H. enough (slow_time (S j) = slow_time k) by lia.
    induction L as [|j L IH]; [apply SQ; apply H; lia|]. rewrite SQ by (apply H; lia). apply IH. intros i I1 I2. apply H; lia. }
  constructor.
  - exact (rest_endless _ _ START RUNS).
  - exact slow_forward.
  - intros k tid e i E. pose proof (slow_forward k) as F.
    assert (ri1 (e_clk e i) = slow_time (S k)) as ->; [|lia].
    unfold slow_step, then_nothing in E. cbn [slow_time]. rewrite E.
    exact (proj1 (Forall_forall _ _) CLOCKS _ (nth_error_In _ _ E) i).
  - intros tid q b LI.
    assert (forall k, nth_error (w_threads (slow_at k)) tid = Some q -> slowb k tid q = true) as X.
    { intros k A. destruct (slow_thread k tid q A) as [B _]. destruct q; try discriminate LI; eapply B; reflexivity. }
    destruct q; try discriminate LI; cbn [browser_limit] in LI; injection LI as <-; cbn [slowb] in X;
      try (apply ST; intros k A; apply Z.eqb_eq; apply X; exact A).
    intros k j L H. pose proof (X k (H k (le_n _) L)) as B1. pose proof (X j (H j L (le_n _))) as B2.
    apply andb_true_iff in B1 as [B1 _]. apply andb_true_iff in B2 as [_ B2]. apply Z.leb_le in B1, B2. nia.
  - intros tid a q G. apply ST. intros k A. destruct (slow_thread k tid _ A) as [_ B]. specialize (B ltac:(eauto)). cbn [slowb] in B.
    apply Z.eqb_eq. apply orb_true_iff in B as [B|B]; [apply Nat.ltb_lt in B; lia|exact B].
Qed.
End Slow.

Definition comes : list label :=
  many 1 1 (tick (sec 1000)) ++ ask $"showtoken:withurl a" 1000 2
  ++ [LHttpConn false (callback ($"state=" ++ state_of $"statebytes" ++ $"&code=c0de"))]
  ++ many 2 4 (tick (sec 1001)).

Definition refuse (t : Z) : label := LTick 4 (posted (PRTransport TrDns $"no") (tick (sec t))).

(** Two attempts fail. *)
Definition twice : list label :=
  comes ++ [refuse 1007; refuse 1013; LTick 4 (posted (PRBody $"Rtok") (tick (sec 1014)))]
  ++ many 4 4 (tick (sec 1014)) ++ many 5 1 (tick (sec 1014)) ++ many 2 1 (tick (sec 1034)) ++ [rf (tick (sec 1100))].

(** All fail. *)
Definition never : list label :=
  comes ++ map refuse [1007; 1013; 1019; 1025; 1031; 1037; 1043; 1049; 1055; 1061]
  ++ many 2 4 (tick (sec 1061)) ++ [rf (tick (sec 1100))].

Definition twice_at : nat -> world := slow_at (start conf1) twice.
Definition twice_step : nat -> option label := slow_step twice.
Definition twice_time : nat -> Z := slow_time twice (sec 1000) (sec 1001) (sec 1100).
Definition never_at : nat -> world := slow_at (start conf1) never.
Definition never_step : nat -> option label := slow_step never.
Definition never_time : nat -> Z := slow_time never (sec 1000) (sec 1001) (sec 1100).

Lemma slow_starts : reachable toy (start conf1).
Proof. reach_start. Qed.

Lemma twice_browsing : browsing toy twice_at twice_step twice_time (sec 1) (sec 6).
Proof.
  apply (slow_browsing (start conf1) twice (sec 1000) (sec 1001) (sec 1100) (sec 6) slow_starts);
    try (vm_compute; reflexivity); try (vm_compute; discriminate).
  unfold twice, comes, ask, many. cbn [repeat app]. repeat match goal with |- Forall _ _ => constructor end; try exact I; intros i0; reflexivity.
Qed.

Lemma never_browsing : browsing toy never_at never_step never_time (sec 1) (sec 6).
Proof.
  apply (slow_browsing (start conf1) never (sec 1000) (sec 1001) (sec 1100) (sec 6) slow_starts);
    try (vm_compute; reflexivity); try (vm_compute; discriminate).
  unfold never, comes, ask, many. cbn [repeat app map]. repeat match goal with |- Forall _ _ => constructor end; try exact I; intros i0; reflexivity.
Qed.

(** The browser's request, and what the provider answers. *)
Definition coming : str := callback ($"state=" ++ state_of $"statebytes" ++ $"&code=c0de").

Definition onlyb (w : world) : bool :=
  forallb (fun e => match d_ts e with TSPending _ _ _ _ => str_eqb (d_name e) $"a" | _ => true end) (details (w_lk w)).

Lemma only_a w m st : onlyb w = true -> awaits w m st -> m = $"a".
Proof.
  intros B (cvr & ln & u & e & I & N & T). pose proof (proj1 (forallb_forall _ _) B e I) as X. cbn beta in X. rewrite T in X.
  rewrite <- N. apply str_eqb_eq. exact X.
Qed.

Definition answerb (ws : nat -> world) (k : nat) : bool :=
  match observed ws k with
  | [OPost _ _ (PRBody b)] => str_eqb b $"Rtok"
  | [OPost _ _ (PRTransport _ _)] => true
  | [OPost _ _ _] => false
  | _ => true
  end.

Lemma answer_good ws k code res : answerb ws k = true -> redeems_code ws k code res ->
  good_answer toy (sec 3600) (sec 3600) res \/ exists t m, res = PRTransport t m.
Proof.
  intros B (uri & pairs & E & _). unfold answerb in B. rewrite E in B. destruct res; try discriminate B; [|right; eauto].
  left. apply str_eqb_eq in B. subst. eexists _, _, $"tok", 3600. split; [reflexivity|].
  split; [vm_compute; reflexivity|]. split; [vm_compute; reflexivity|]. split; [vm_compute; reflexivity|].
  split; [vm_compute; reflexivity|]. split; [vm_compute; reflexivity|]. split; [split; vm_compute; discriminate|].
  right. exists $"r". vm_compute. reflexivity.
Qed.

Lemma slow_unique ws x j m st : forallb (fun x => onlyb (ws x)) (seq 0 (S j)) = true -> (x <= j)%nat -> awaits (ws x) m st -> m = $"a".
Proof.
  intros F L A. apply (only_a (ws x) m st); [|exact A]. apply (proj1 (forallb_forall _ _) F). apply in_seq. lia.
Qed.

Lemma slow_answers ws x j code res : forallb (answerb ws) (seq 0 j) = true -> (x < j)%nat -> redeems_code ws x code res ->
  good_answer toy (sec 3600) (sec 3600) res \/ exists t m, res = PRTransport t m.
Proof.
  intros F L A. apply (answer_good ws x code); [|exact A]. apply (proj1 (forallb_forall _ _) F). apply in_seq. lia.
Qed.
