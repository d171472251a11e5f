(** Runs in which the background threads look for work, and one in which the
    refresher starts thread after thread. *)
From Verif Require Import Base BaseLemmas Time Utf8 Url Json Oracles Config Dump State Http Timers Server SpecServer
  SpecTimers SpecSessions SpecFair SpecTimed SpecSpin Reach Steps Inv Fair Timed Scenario Runs Cases Endless TimedCase.
Local Open Scope Z_scope.

Definition is_scan (w : world) (tid : nat) : bool :=
  match nth_error (w_threads w) tid with
  | Some PRfScan => Nat.eqb tid 3
  | Some PNtScan => Nat.eqb tid 2
  | _ => false
  end.

Lemma scan_looking w : w_alive w = true -> is_scan w 3 = true -> looking w.
Proof.
  unfold is_scan, looking. destruct (nth_error (w_threads w) 3) as [p|]; [|discriminate].
  destruct p; intros A H; discriminate H || (split; [exact A|reflexivity]).
Qed.

Lemma scan_inspecting w : w_alive w = true -> is_scan w 2 = true -> inspecting w.
Proof.
  unfold is_scan, inspecting. destruct (nth_error (w_threads w) 2) as [p|]; [|discriminate].
  destruct p; intros A H; discriminate H || (split; [exact A|reflexivity]).
Qed.

Lemma no_scan w : is_scan w 3 = false -> ~ looking w.
Proof. intros H [_ N]. unfold is_scan in H. rewrite N in H. discriminate H. Qed.

Lemma no_scan_nt w : is_scan w 2 = false -> ~ inspecting w.
Proof. intros H [_ N]. unfold is_scan in H. rewrite N in H. discriminate H. Qed.

Definition signals (w : world) (l : option label) (a : action) : bool :=
  match l with
  | Some (LTick tid _) =>
      match nth_error (w_threads w) tid, a with
      | Some (PDo ASigRefresher _), ASigRefresher => true
      | Some (PDo ASigNotifier _), ASigNotifier => true
      | _, _ => false
      end
  | _ => false
  end.

Lemma not_taken ws ls a k :
  (a = ASigRefresher \/ a = ASigNotifier) -> signals (ws k) (ls k) a = false -> ~ takes ws ls a k.
Proof.
  intros A H (tid & e & p & L & N). unfold signals in H. rewrite L, N in H.
  destruct A as [-> | ->]; discriminate H.
Qed.

(** The refresher of [soon] looks three times: once because it has been told to,
    once after 37 seconds, once because the token is due. *)
Lemma soon_stirs k : In k [1%nat; 6%nat; 11%nat] -> refresher_stirs soon_at k.
Proof.
  intros [<-|[<-|[<-|[]]]]; (split; [apply no_scan|apply scan_looking]; vm_compute; reflexivity).
Qed.

Lemma soon_untold k : (1 < k < 11)%nat -> ~ takes soon_at soon_step ASigRefresher k.
Proof.
  intros B. apply not_taken; [left; reflexivity|].
  assert (forall x, In x (seq 2 9) -> negb (signals (soon_at x) (soon_step x) ASigRefresher) = true) as F
    by (apply forallb_forall; vm_compute; reflexivity).
  specialize (F k). rewrite in_seq in F. apply negb_true_iff, F. lia.
Qed.

(** A token is revoked; the refresher, which had been told of the token, looks
    once and never again. *)
Definition gone : list label :=
  main (client $"revoke:a" (tick (sec 1004))) :: many 3 0 (tick (sec 1004)) ++ many 5 3 (tick (sec 1005))
  ++ [rf (woken (tick (sec 3000)))] ++ many 1 3 (tick (sec 3000)).
Definition gone_at : nat -> world := then_rest w_soon gone.
Definition gone_step : nat -> option label := then_nothing gone.

Lemma gone_endless : endless toy gone_at gone_step.
Proof. apply (rest_endless _ _ soon_starts). vm_compute. reflexivity. Qed.

Lemma gone_always (b : nat -> bool) :
  forallb b (seq 0 12) = true -> (forall k, (12 <= k)%nat -> b k = b 11%nat) -> forall k, b k = true.
Proof.
  intros F R k. assert (forall i, (i < 12)%nat -> b i = true) as F'.
  { intros i L. apply (proj1 (forallb_forall _ _) F). apply in_seq. lia. }
  destruct (Nat.lt_ge_cases k 12) as [L|G]; [apply F'; exact L|]. rewrite R by exact G. apply F'. lia.
Qed.

Lemma gone_after k : (11 <= k)%nat -> gone_step k = None.
Proof. intros L. apply nth_error_None. exact L. Qed.

Lemma gone_stays k : (11 <= k)%nat -> gone_at k = after w_soon gone.
Proof. intros L. apply then_rest_end. exact L. Qed.

Lemma gone_untold k : ~ takes gone_at gone_step ASigRefresher k.
Proof.
  apply not_taken; [left; reflexivity|]. apply negb_true_iff.
  apply (gone_always (fun k => negb (signals (gone_at k) (gone_step k) ASigRefresher))); [vm_compute; reflexivity|].
  intros i L. rewrite !gone_stays, !gone_after by lia. reflexivity.
Qed.

Lemma gone_nothing k n a : (1 <= k)%nat -> holds (gone_at k) n (TSActive a) -> ongoing a = true.
Proof.
  intros L (e & In_e & _ & TS).
  assert ((Nat.eqb k 0) || forallb (fun e => match d_ts e with TSActive _ => false | _ => true end) (details (w_lk (gone_at k))) = true) as B.
  { apply (gone_always (fun k => (Nat.eqb k 0) || forallb (fun e => match d_ts e with TSActive _ => false | _ => true end) (details (w_lk (gone_at k))))); [vm_compute; reflexivity|].
    intros i Li. rewrite !gone_stays by lia. destruct i; [lia|reflexivity]. }
  destruct k as [|k]; [lia|]. cbn [Nat.eqb orb] in B. rewrite forallb_forall in B. specialize (B e In_e). rewrite TS in B. discriminate B.
Qed.

Lemma gone_stirs : refresher_stirs gone_at 5.
Proof. split; [apply no_scan|apply scan_looking]; vm_compute; reflexivity. Qed.

(** An authorisation is pending; the notifier looks when it is told to, and again
    after 37 seconds. *)
Definition waiting : list label :=
  main (client $"showtoken:withurl a" (tick (sec 1004))) :: many 2 0 (tick (sec 1004))
  ++ many 6 2 (tick (sec 1005)) ++ [nt (woken (tick (sec 1043)))] ++ many 2 2 (tick (sec 1043)).
Definition waiting_at : nat -> world := then_rest (start conf1) waiting.
Definition waiting_step : nat -> option label := then_nothing waiting.

Lemma waiting_endless : endless toy waiting_at waiting_step.
Proof. apply rest_endless; [reach_after|]. vm_compute. reflexivity. Qed.

Lemma waiting_stirs k : In k [4%nat; 10%nat] -> notifier_stirs waiting_at k.
Proof.
  intros [<-|[<-|[]]]; (split; [apply no_scan_nt|apply scan_inspecting]; vm_compute; reflexivity).
Qed.

Lemma waiting_untold k : (4 < k < 10)%nat -> ~ takes waiting_at waiting_step ASigNotifier k.
Proof.
  intros B. apply not_taken; [right; reflexivity|].
  assert (forall x, In x (seq 5 5) -> negb (signals (waiting_at x) (waiting_step x) ASigNotifier) = true) as F
    by (apply forallb_forall; vm_compute; reflexivity).
  specialize (F k). rewrite in_seq in F. apply negb_true_iff, F. lia.
Qed.

(** ** Thread after thread *)

(** A refresh has just been decided on and the new thread has not yet begun. *)
Definition w_due : world := after w_soon (firstn 14 soon).
Definition due_env : env := tick (sec 1055).

Definition with_threads (w : world) (ts : list pc) : world :=
  mkWorld (w_lk w) (w_http w) (w_https w) (w_pubkey w) (w_evq w) (w_ev w) (w_nt w) (w_rf w) ts (w_alive w) (w_trace w).

Lemma with_threads_lk w ts : w_lk (with_threads w ts) = w_lk w.
Proof. reflexivity. Qed.

Lemma with_threads_threads w ts : w_threads (with_threads w ts) = ts.
Proof. reflexivity. Qed.

Definition due_with (rest : list pc) : world := with_threads w_due (PMain :: PEvTop :: PNtTop :: PRfTop :: rest).

Lemma due_again rest :
  run toy (due_with rest) (many 4 3 due_env) = Some (SNext (due_with (rest ++ [PRefStart 2%N]))).
Proof. vm_compute. reflexivity. Qed.

Lemma due_is : w_due = due_with [PDone; PRefStart 2%N].
Proof. vm_compute. reflexivity. Qed.

Lemma due_reachable : reachable toy w_due.
Proof. unfold w_due, w_soon. reach_after. Qed.

(** As long as the new threads do not get going, the refresher starts more. *)
Lemma due_often n rest :
  run toy (due_with rest) (many (4 * n) 3 due_env) = Some (SNext (due_with (rest ++ repeat (PRefStart 2%N) n))).
Proof.
  revert rest. induction n as [|n IH]; intros rest; [cbn; rewrite app_nil_r; reflexivity|].
  replace (many (4 * S n) 3 due_env) with (many 4 3 due_env ++ many (4 * n) 3 due_env)
    by (unfold many; rewrite <- repeat_app; f_equal; lia).
  rewrite run_app, due_again, IH. rewrite <- app_assoc. reflexivity.
Qed.

Lemma due_floods n : exists w',
  run toy w_due (many (4 * n) 3 due_env) = Some (SNext w')
  /\ w_lk w' = w_lk w_due /\ w_threads w' = w_threads w_due ++ repeat (PRefStart 2%N) n.
Proof.
  exists (due_with ([PDone; PRefStart 2%N] ++ repeat (PRefStart 2%N) n)). split; [|split].
  - rewrite due_is. apply due_often.
  - apply with_threads_lk.
  - rewrite due_is. unfold due_with. rewrite !with_threads_threads. reflexivity.
Qed.

Lemma due_token : exists a, holds w_due $"a" (TSActive a) /\ ongoing a = false
  /\ In (mkEntry $"a" 2%N (TSActive a)) (details (w_lk w_due)).
Proof.
  eexists. split; [eexists; split; [vm_compute; left; reflexivity|split; vm_compute; reflexivity]|].
  split; [reflexivity|]. vm_compute. left. reflexivity.
Qed.

Lemma refresh_flood :
  exists w e i a,
    reachable toy w /\ In (mkEntry $"a" i (TSActive a)) (details (w_lk w)) /\ ongoing a = false
    /\ forall n, exists ls w',
         Forall (eq (LTick 3 e)) ls /\ run toy w ls = Some (SNext w')
         /\ w_lk w' = w_lk w /\ w_threads w' = w_threads w ++ repeat (PRefStart i) n.
Proof.
  destruct due_token as (a & _ & OG & I). exists w_due, due_env, 2%N, a.
  refine (conj due_reachable (conj I (conj OG _))). intros n.
  destruct (due_floods n) as (w' & R & L & T). exists (many (4 * n) 3 due_env), w'.
  refine (conj _ (conj R (conj L T))). apply Forall_forall. intros l H. symmetry. exact (repeat_spec _ _ _ H).
Qed.
