(** A run in which a command hangs for half a minute and another event waits for it. *)
From Verif Require Import Base BaseLemmas Time Utf8 Url Json Oracles Config Dump State Http Timers Server SpecServer
  SpecTimers SpecSessions SpecFair SpecTimed Reach Steps Inv Fair Scenario Runs Cases Endless.
Local Open Scope Z_scope.

(** Account "a" is authorised, the command started for it hangs; the user revokes
    the token. *)
Definition hang : list label :=
  many 1 1 (tick (sec 1000)) ++ ask $"showtoken:withurl a" 1000 2
  ++ [LHttpConn false (callback ($"state=" ++ state_of $"statebytes" ++ $"&code=c0de"))]
  ++ many 2 4 (tick (sec 1001)) ++ [LTick 4 (posted (PRBody $"Rtok") (tick (sec 1002)))] ++ many 4 4 (tick (sec 1003))
  ++ many 5 1 (tick (sec 1003)) ++ ask $"revoke:a" 1010 3
  ++ many 9 1 (tick (sec 1034)) ++ [rf (tick (sec 1060))].

Definition hang_at : nat -> world := then_rest (start conf1) hang.
Definition hang_step : nat -> option label := then_nothing hang.

(** The time a state is reached is that of the step before. *)
Definition hang_time (k : nat) : Z :=
  match k with
  | O => sec 1000
  | S k => match nth_error hang k with
           | Some (LTick _ e) => ri1 (e_clk e 0%nat)
           | Some (LHttpConn _ _) => sec 1001
           | None => sec 1060
           end
  end.

Lemma hang_starts : reachable toy (start conf1).
Proof. reach_start. Qed.

Lemma hang_runs : runs (start conf1) hang = true.
Proof. vm_compute. reflexivity. Qed.

Lemma hang_endless : endless toy hang_at hang_step.
Proof. exact (rest_endless _ _ hang_starts hang_runs). Qed.

Definition hang_len : nat := 31.

Lemma hang_always (b : nat -> bool) :
  forallb b (seq 0 hang_len) = true -> (forall k, (hang_len <= k)%nat -> b k = true) -> forall k, b k = true.
Proof.
  intros F R k. destruct (Nat.lt_ge_cases k hang_len) as [L|G]; [|apply R; exact G].
  apply (proj1 (forallb_forall _ _) F). apply in_seq. lia.
Qed.

Lemma hang_stays k : (hang_len <= k)%nat -> hang_at k = after (start conf1) hang.
Proof. intros L. apply then_rest_end. exact L. Qed.

Lemma hang_time_after k : (hang_len <= k)%nat -> hang_time k = sec 1060.
Proof.
  intros L. destruct k as [|k]; [exfalso; unfold hang_len in L; lia|]. unfold hang_time.
  destruct (Nat.eq_dec k 30) as [->|N]; [vm_compute; reflexivity|].
  assert (nth_error hang k = None) as -> by (apply nth_error_None; vm_compute; unfold hang_len in L; lia). reflexivity.
Qed.

(** Time passes while the thread sleeps and nothing is on its way to it, and while
    a command runs. *)
Definition sleeps_at : list nat := [4; 7; 8; 30]%nat.
Definition hangs_at : list nat := [17; 21]%nat.
Definition passing (k : nat) : bool := existsb (Nat.eqb k) (sleeps_at ++ hangs_at).

Lemma hang_forward k : hang_time k <= hang_time (S k).
Proof.
  apply Z.leb_le. apply (hang_always (fun k => (hang_time k <=? hang_time (S k))%Z)); [vm_compute; reflexivity|].
  intros i L. apply Z.leb_le. rewrite !hang_time_after by lia. lia.
Qed.

Lemma hang_stands k : passing k = false -> hang_time (S k) = hang_time k.
Proof.
  intros P. assert (passing k || (hang_time (S k) =? hang_time k)%Z = true) as B.
  { apply (hang_always (fun k => passing k || (hang_time (S k) =? hang_time k)%Z)); [vm_compute; reflexivity|].
    intros i L. rewrite !hang_time_after by lia. rewrite Z.eqb_refl. apply orb_true_r. }
  rewrite P in B. apply Z.eqb_eq. exact B.
Qed.

Lemma passing_in k : passing k = true -> In k (sleeps_at ++ hangs_at).
Proof.
  intros P. apply existsb_exists in P as (x & I & E). apply Nat.eqb_eq in E. subst x. exact I.
Qed.

Lemma hang_brief Q b : 0 <= b -> (forall k, In k (sleeps_at ++ hangs_at) -> ~ Q k) -> brief hang_time Q b.
Proof.
  intros B NQ k j L H. assert (hang_time (S j) = hang_time k) as ->; [|lia].
  assert (forall i, (k <= i)%nat -> (i <= j)%nat -> hang_time (S i) = hang_time i) as ST.
  { intros i I1 I2. apply hang_stands. destruct (passing i) eqn:P; [|reflexivity].
    destruct (NQ i (passing_in i P) (H i I1 I2)). }
  clear H. induction L as [|j L IH]; [apply ST; lia|]. rewrite ST by lia. apply IH. intros i I1 I2. apply ST; lia.
Qed.

Definition no_signal (w : world) : bool :=
  forallb (fun p => forallb (fun a => match a with ASigEventer => false | _ => true end) (will_do p)) (w_threads w).

Definition quietb (w : world) : bool :=
  no_signal w
  && match nth_error (w_threads w) 1 with
     | Some PEvBlocked => cv_waiting (w_ev w)
     | Some PEvRunning => true
     | _ => false
     end.

Lemma hang_quiet k : In k (sleeps_at ++ hangs_at) ->
  (nth_error (w_threads (hang_at k)) 1 = Some PEvBlocked /\ cv_waiting (w_ev (hang_at k)) = true
   \/ nth_error (w_threads (hang_at k)) 1 = Some PEvRunning)
  /\ forall tid p, nth_error (w_threads (hang_at k)) tid = Some p -> ~ In ASigEventer (will_do p).
Proof.
  intros I. assert (quietb (hang_at k) = true) as B.
  { apply (proj1 (forallb_forall (fun k => quietb (hang_at k)) (sleeps_at ++ hangs_at))); [vm_compute; reflexivity|exact I]. }
  unfold quietb in B. apply andb_true_iff in B as [B1 B2]. split.
  - destruct (nth_error (w_threads (hang_at k)) 1) as [[]|]; try discriminate B2; auto.
  - intros tid p A X. pose proof (proj1 (forallb_forall _ _) B1 _ (nth_error_In _ _ A)) as E. cbn in E.
    pose proof (proj1 (forallb_forall _ _) E _ X) as E'. discriminate E'.
Qed.

(** Commands are running from 1003 s to 1034 s at most. *)
Definition runningb (k : nat) : bool :=
  match nth_error (w_threads (hang_at k)) 1 with
  | Some PEvRunning => (sec 1003 <=? hang_time k) && (hang_time (S k) <=? sec 1034)
  | _ => true
  end.

Lemma hang_running k : nth_error (w_threads (hang_at k)) 1 = Some PEvRunning ->
  sec 1003 <= hang_time k /\ hang_time (S k) <= sec 1034.
Proof.
  intros A. assert (runningb k = true) as B.
  { apply hang_always; [vm_compute; reflexivity|]. intros i L. unfold runningb. rewrite hang_stays by exact L.
    vm_compute. reflexivity. }
  unfold runningb in B. rewrite A in B. apply andb_true_iff in B as [B1 B2]. split; apply Z.leb_le; assumption.
Qed.

Lemma hang_reporting : reporting toy hang_at hang_step hang_time (sec 1) (sec 31).
Proof.
  assert (0 <= sec 1) as P by (vm_compute; discriminate).
  constructor.
  - exact hang_endless.
  - exact hang_forward.
  - intros q b LI. assert (q = PEvRunning \/ q <> PEvRunning) as [->|NE] by (destruct q; auto; right; discriminate).
    + injection LI as <-. intros k j L H. destruct (hang_running k (H k (le_n _) L)) as [X _].
      destruct (hang_running j (H j L (le_n _))) as [_ Y]. unfold sec, from_secs in X, Y. cbn in X, Y |- *. lia.
    + assert (b = sec 1) as -> by (destruct q; try discriminate LI; [injection LI as <-; reflexivity..|contradiction]).
      apply hang_brief; [exact P|]. intros k I A. destruct (hang_quiet k I) as [[[X _]|X] _]; rewrite A in X; injection X as ->.
      * discriminate LI.
      * contradiction.
  - intros tid. apply hang_brief; [exact P|]. intros k I (q & A & S). destruct (hang_quiet k I) as [_ C]. exact (C _ _ A S).
  - apply hang_brief; [exact P|]. intros k I (A & W). destruct (hang_quiet k I) as [[[_ X]|X] _]; congruence.
Qed.

Lemma hang_wanted k : events_wanted (w_trace (hang_at k)).
Proof.
  assert (confb (hang_at k) = true) as B; [|apply (confb_conf _ B)].
  apply (hang_always (fun k => confb (hang_at k))); [vm_compute; reflexivity|].
  intros i L. rewrite hang_stays by exact L. vm_compute. reflexivity.
Qed.
