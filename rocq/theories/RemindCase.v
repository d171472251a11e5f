(** A run in which the user is told three times of an authorisation. *)
From Verif Require Import Base BaseLemmas Time Utf8 Url Json Oracles Config Dump State Http Timers Server SpecServer
  SpecTimers SpecSessions SpecFair SpecTimed Reach Steps Inv Fair TimedNotify Scenario Runs Cases Endless.
Local Open Scope Z_scope.

(** The user is reminded every minute. *)
Definition conf_minute : str :=
  $"auth_notify_cmd = " ++ q ++ $"notify" ++ q ++ $"; auth_notify_interval = 60s; " ++ conf_account $"a" [].

Definition looks (n : nat) (t t' : Z) : list label := nt (woken (tick (sec t))) :: many n 2 (tick (sec t')).

Definition minute : list label :=
  many 2 2 (tick (sec 1000))
  ++ [main (client $"showtoken:withurl a" (rand $"STATE" $"VERIF" (tick (sec 1000))))] ++ many 2 0 (tick (sec 1000))
  ++ looks 5 1000 1000 ++ looks 4 1000 1038 ++ looks 5 1038 1061 ++ looks 4 1061 1099 ++ looks 5 1099 1122.

Definition minute_at : nat -> world := then_rest (start conf_minute) minute.
Definition minute_step : nat -> option label := then_nothing minute.
Definition minute_time (k : nat) : Z :=
  match nth_error minute k with Some (LTick _ e) => ri1 (e_clk e 0%nat) | _ => sec 1122 end.

Lemma minute_starts : reachable toy (start conf_minute).
Proof. reach_start. Qed.

Lemma minute_runs : runs (start conf_minute) minute = true.
Proof. vm_compute. reflexivity. Qed.

Lemma minute_endless : endless toy minute_at minute_step.
Proof. exact (rest_endless _ _ minute_starts minute_runs). Qed.

Lemma minute_always (b : nat -> bool) :
  forallb b (seq 0 33) = true -> (forall k, (33 <= k)%nat -> b k = true) -> forall k, b k = true.
Proof.
  intros F R k. destruct (Nat.lt_ge_cases k 33) as [L|G]; [|apply R; exact G].
  apply (proj1 (forallb_forall _ _) F). apply in_seq. lia.
Qed.

Lemma minute_after k : (33 <= k)%nat -> minute_step k = None.
Proof. intros L. apply nth_error_None. exact L. Qed.

Lemma minute_stays k : (33 <= k)%nat -> minute_at k = after (start conf_minute) minute.
Proof. intros L. apply then_rest_end. exact L. Qed.

Lemma minute_time_after k : (33 <= k)%nat -> minute_time k = sec 1122.
Proof. intros L. unfold minute_time. fold (minute_step k). rewrite minute_after by exact L. reflexivity. Qed.

(** Time passes while the notifier sleeps and nothing is on its way to it. *)
Definition pauses : list nat := [11; 16; 22; 27]%nat.
Definition passing (k : nat) : bool := existsb (Nat.eqb k) pauses.

Lemma minute_forward k : minute_time k <= minute_time (S k).
Proof.
  apply Z.leb_le. apply (minute_always (fun k => (minute_time k <=? minute_time (S k))%Z)); [vm_compute; reflexivity|].
  intros i L. apply Z.leb_le. rewrite !minute_time_after by lia. lia.
Qed.

Lemma minute_stands k : passing k = false -> minute_time (S k) = minute_time k.
Proof.
  intros P. assert (passing k || (minute_time (S k) =? minute_time k)%Z = true) as B.
  { apply (minute_always (fun k => passing k || (minute_time (S k) =? minute_time k)%Z)); [vm_compute; reflexivity|].
    intros i L. rewrite !minute_time_after by lia. rewrite Z.eqb_refl. apply orb_true_r. }
  rewrite P in B. apply Z.eqb_eq. exact B.
Qed.

Lemma passing_in k : passing k = true -> In k pauses.
Proof.
  intros P. apply existsb_exists in P as (x & I & E). apply Nat.eqb_eq in E. subst x. exact I.
Qed.

Lemma minute_brief Q b : 0 <= b -> (forall k, In k pauses -> ~ Q k) -> brief minute_time Q b.
Proof.
  intros B NQ k j L H. assert (minute_time (S j) = minute_time k) as ->; [|lia].
  assert (forall i, (k <= i)%nat -> (i <= j)%nat -> minute_time (S i) = minute_time i) as ST.
  { intros i I1 I2. apply minute_stands. destruct (passing i) eqn:P; [|reflexivity].
    destruct (NQ i (passing_in i P) (H i I1 I2)). }
  clear H. induction L as [|j L IH]; [apply ST; lia|]. rewrite ST by lia. apply IH. intros i I1 I2. apply ST; lia.
Qed.

Definition quietb (w : world) : bool :=
  match nth_error (w_threads w) 2 with
  | Some (PNtBlocked (Some _)) => cv_waiting (w_nt w) && forallb (fun p => match will_do p with [] => true | _ => false end) (w_threads w)
  | _ => false
  end.

Lemma minute_quiet k : In k pauses ->
  exists t, nth_error (w_threads (minute_at k)) 2 = Some (PNtBlocked (Some t)) /\ cv_waiting (w_nt (minute_at k)) = true
    /\ forall tid p, nth_error (w_threads (minute_at k)) tid = Some p -> will_do p = [].
Proof.
  intros I. assert (quietb (minute_at k) = true) as B.
  { apply (proj1 (forallb_forall (fun k => quietb (minute_at k)) pauses)); [vm_compute; reflexivity|exact I]. }
  unfold quietb in B. destruct (nth_error (w_threads (minute_at k)) 2) as [[]|] eqn:N; try discriminate B.
  destruct nw as [t|]; [|discriminate B]. apply andb_true_iff in B as [B1 B2]. exists t. split; [reflexivity|]. split; [exact B1|].
  intros tid p A. pose proof (proj1 (forallb_forall _ _) B2 _ (nth_error_In _ _ A)) as E.
  cbn in E. destruct (will_do p); [reflexivity|discriminate E].
Qed.

(** The alarm clock goes off. *)
Definition alarmb (k : nat) : bool :=
  match nth_error (w_threads (minute_at k)) 2, nth_error (w_threads (minute_at (pred k))) 2 with
  | Some (PNtBlocked (Some t)), Some (PNtCheck _) => (minute_time (S k) <=? t + sec 1)
  | _, _ => false
  end.

Lemma minute_alarm k t : In k pauses -> notifier_sleeps (minute_at k) (Some t) ->
  minute_time (S k) <= t + sec 1 /\ ~ notifier_sleeps (minute_at (pred k)) (Some t).
Proof.
  intros I [A _]. assert (alarmb k = true) as B.
  { apply (proj1 (forallb_forall alarmb pauses)); [vm_compute; reflexivity|exact I]. }
  unfold alarmb in B. rewrite A in B. destruct (nth_error (w_threads (minute_at (pred k))) 2) as [[]|] eqn:N; try discriminate B.
  split; [apply Z.leb_le; exact B|]. intros [A' _]. rewrite N in A'. discriminate A'.
Qed.

Lemma minute_clock k tid e i : minute_step k = Some (LTick tid e) -> ri1 (e_clk e i) = minute_time k.
Proof.
  intros E. assert (forall l, In l minute -> match l with LTick _ e => forall i, ri1 (e_clk e i) = ri1 (e_clk e 0%nat) | _ => True end) as F.
  { apply Forall_forall. unfold minute, looks, many. cbn [repeat app].
    repeat match goal with |- Forall _ _ => constructor end; intros i0; reflexivity. }
  unfold minute_time. unfold minute_step, then_nothing in E. rewrite E. exact (F _ (nth_error_In _ _ E) i).
Qed.

Lemma minute_attentive : attentive toy minute_at minute_step minute_time (sec 1).
Proof.
  assert (0 <= sec 1) as P by (vm_compute; discriminate).
  constructor.
  - exact minute_endless.
  - exact minute_forward.
  - intros k tid e i E. rewrite (minute_clock k tid e i E). pose proof (minute_forward k). lia.
  - intros p NP. apply minute_brief; [exact P|]. intros k I A. destruct (minute_quiet k I) as (t & B & _).
    rewrite A in B. injection B as ->. exact NP.
  - apply minute_brief; [exact P|]. intros k I (a & p & A). destruct (minute_quiet k I) as (t & B & _). congruence.
  - intros tid. apply minute_brief; [exact P|]. intros k I (p & A & S). destruct (minute_quiet k I) as (_ & _ & _ & C).
    rewrite (C _ _ A) in S. exact S.
  - intros nw. apply minute_brief; [exact P|]. intros k I (_ & W). destruct (minute_quiet k I) as (_ & _ & W' & _). congruence.
  - intros t k j L. induction L as [|j L IH]; intros H.
    + destruct (passing k) eqn:PK.
      * pose proof (minute_alarm k t (passing_in k PK) (H k (le_n k) (le_n k))). lia.
      * rewrite (minute_stands k PK). lia.
    + destruct (passing (S j)) eqn:PK.
      * destruct (minute_alarm (S j) t (passing_in _ PK) (H (S j) ltac:(lia) (le_n _))) as [_ X]. destruct X. apply H; lia.
      * rewrite (minute_stands _ PK). apply IH. intros i I1 I2. apply H; lia.
Qed.

(** The settings stay. *)
Definition minuteb (w : world) : bool :=
  (c_auth_notify_interval (lconfig (w_lk w)) =? sec 60) && match c_auth_notify_cmd (lconfig (w_lk w)) with Some _ => true | None => false end.

Lemma minute_conf k : c_auth_notify_interval (conf (minute_at k)) <= sec 60 /\ c_auth_notify_cmd (conf (minute_at k)) <> None.
Proof.
  assert (minuteb (minute_at k) = true) as B.
  { apply (minute_always (fun k => minuteb (minute_at k))); [vm_compute; reflexivity|].
    intros i L. rewrite minute_stays by exact L. vm_compute. reflexivity. }
  unfold minuteb in B. apply andb_true_iff in B as [B1 B2]. apply Z.eqb_eq in B1. unfold conf. rewrite B1.
  split; [lia|]. intros E. rewrite E in B2. discriminate B2.
Qed.

Definition minute_url : url :=
  match observed minute_at 2 with [_; OAuthUrl _ u] => u | _ => mkUrl [] [] None None [] None None end.

Lemma minute_issued : In (OAuthUrl $"a" minute_url) (observed minute_at 2).
Proof. vm_compute. right. left. reflexivity. Qed.

Lemma minute_fresh : none_ahead (minute_at 3) (minute_time 3).
Proof.
  intros n cvr l st u (e & I & _ & T). vm_compute in I. destruct I as [<-|[]]. discriminate T.
Qed.

Lemma minute_told i i' : nth_error [(8, 7); (19, 18); (30, 29)]%nat i = Some i' ->
  c_auth_notify_cmd (conf (minute_at (snd i'))) = Some $"notify"
  /\ observed minute_at (fst i') = [OAuthCmd $"notify" $"a" (url_to_str minute_url)].
Proof.
  destruct i as [|[|[|[|i]]]]; intros [= <-]; vm_compute; split; reflexivity.
Qed.
