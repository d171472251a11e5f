(** A run in which the provider cannot be reached when a token is to be
    refreshed; later it can. *)
From Verif Require Import Base BaseLemmas Time Utf8 Url Json Oracles Config Dump State Http Timers Server SpecServer
  SpecTimers SpecSessions SpecFair SpecTimed Reach Steps Inv Fair Timed Scenario Runs Cases Endless.
Local Open Scope Z_scope.

Section Short.
Variable w0 : world.
Variable l : list label.
Variable t0 t1 d : Z.
Definition run_at : nat -> world := then_rest w0 l.
Definition run_step : nat -> option label := then_nothing l.
Definition run_time (k : nat) : Z :=
  match nth_error l k with Some (LTick _ e) => ri1 (e_clk e 0%nat) | _ => t1 end.
Definition one_clock (x : label) : Prop :=
  match x with LTick _ e => forall i, ri1 (e_clk e i) = ri1 (e_clk e 0%nat) | _ => True end.
Hypothesis START : reachable toy w0.
Hypothesis RUNS : runs w0 l = true.
Hypothesis CLOCKS : Forall one_clock l.
Hypothesis TIMES : forallb (fun k => (t0 <=? run_time k) && (run_time k <=? run_time (S k)) && (run_time k <=? t1))
                     (seq 0 (List.length l)) = true.
Hypothesis T01 : t0 <= t1.
Hypothesis SHORT : t1 <= t0 + d.
Hypothesis D0 : 0 <= d.

Lemma run_always (b : nat -> bool) :
  forallb b (seq 0 (List.length l)) = true -> (forall k, (List.length l <= k)%nat -> b k = true) -> forall k, b k = true.
Proof.
  intros F R k. destruct (Nat.lt_ge_cases k (List.length l)) as [L|G]; [|apply R; exact G].
  apply (proj1 (forallb_forall _ _) F). apply in_seq. lia.
Qed.

Lemma run_time_after k : (List.length l <= k)%nat -> run_time k = t1.
Proof. intros L. unfold run_time. rewrite (proj2 (nth_error_None l k) L). reflexivity. Qed.

Lemma run_times k : t0 <= run_time k <= run_time (S k) /\ run_time k <= t1.
Proof.
  assert ((t0 <=? run_time k) && (run_time k <=? run_time (S k)) && (run_time k <=? t1) = true) as B.
  { apply (run_always (fun k => (t0 <=? run_time k) && (run_time k <=? run_time (S k)) && (run_time k <=? t1))); [exact TIMES|].
    intros i L. rewrite !run_time_after by lia. rewrite (proj2 (Z.leb_le t0 t1) T01), Z.leb_refl. reflexivity. }
  apply andb_true_iff in B as [B B3]. apply andb_true_iff in B as [B1 B2]. apply Z.leb_le in B1, B2, B3. lia.
Qed.

Lemma run_brief Q b : d <= b -> brief run_time Q b.
Proof. intros L k j _ _. pose proof (run_times k). pose proof (run_times (S j)). lia. Qed.

Lemma run_prompt : prompt toy run_at run_step run_time d d.
Proof.
  constructor.
  - exact (rest_endless _ _ START RUNS).
  - intros k. apply run_times.
  - intros k tid e i E. assert (ri1 (e_clk e i) = run_time k) as ->.
    { unfold run_time. unfold run_step, then_nothing in E. rewrite E.
      exact (proj1 (Forall_forall _ _) CLOCKS _ (nth_error_In _ _ E) i). }
    pose proof (run_times k). lia.
  - intros tid q b E. apply run_brief. destruct q; cbn [limit] in E; try discriminate E; assert (b = d) as -> by congruence; lia.
  - apply run_brief. lia.
  - intros tid. apply run_brief. lia.
  - intros nw. apply run_brief. lia.
  - intros t k j _ _. pose proof (run_times k). pose proof (run_times (S j)). lia.
Qed.
End Short.

(** Tokens are renewed after fifty seconds; attempts are ten seconds apart. *)
Definition conf_late : str :=
  conf_account $"a" $"refresh_before_expiry = 3000s; refresh_at_least = 50s; refresh_retry = 10s;".
Definition w_late : world := after (start conf_late) (authorise $"Rtok").

Definition late : list label :=
  many 5 3 (tick (sec 1004))
  ++ [rf (woken (tick (sec 1042)))] ++ many 4 3 (tick (sec 1042))
  ++ [rf (woken (tick (sec 1054)))] ++ many 3 3 (tick (sec 1055))
  ++ [LTick 5 (tick (sec 1056)); LTick 5 (posted (PRTransport TrDns $"no") (tick (sec 1057)))]
  ++ many 2 5 (tick (sec 1058)) ++ many 5 3 (tick (sec 1058))
  ++ [rf (woken (tick (sec 1069)))] ++ many 3 3 (tick (sec 1070))
  ++ [LTick 6 (tick (sec 1071)); LTick 6 (posted (PRBody $"Rnew") (tick (sec 1072)))]
  ++ many 5 6 (tick (sec 1073)).

Definition late_at : nat -> world := run_at w_late late.
Definition late_step : nat -> option label := run_step late.
Definition late_time : nat -> Z := run_time late (sec 1073).

Lemma late_stays k : (34 <= k)%nat -> late_at k = after w_late late.
Proof. intros L. apply then_rest_end. exact L. Qed.

Lemma late_starts : reachable toy w_late.
Proof. unfold w_late. reach_after. Qed.

Lemma late_times : forallb (fun k => (sec 1004 <=? run_time late (sec 1073) k)
    && (run_time late (sec 1073) k <=? run_time late (sec 1073) (S k)) && (run_time late (sec 1073) k <=? sec 1073))
  (seq 0 (List.length late)) = true.
Proof. vm_compute. reflexivity. Qed.

Lemma late_prompt : prompt toy late_at late_step late_time (sec 100) (sec 100).
Proof.
  apply (run_prompt w_late late (sec 1004) (sec 1073) (sec 100) late_starts); try (vm_compute; reflexivity); try (vm_compute; discriminate).
  unfold late, many. cbn [repeat app]. repeat match goal with |- Forall _ _ => constructor end; intros i0; reflexivity.
Qed.

Lemma late_within k : sec 1004 <= late_time k <= sec 1073.
Proof.
  pose proof (run_times late (sec 1004) (sec 1073) late_times ltac:(vm_compute; discriminate) k) as T. unfold late_time. lia.
Qed.

(** No client says anything. *)
Lemma late_undisturbed : undisturbed late_at late_step 0 $"a".
Proof.
  intros j e _ _ ([env G] & _).
  assert (match late_step j with Some (LTick 0 _) => false | _ => true end = true) as B.
  { apply (run_always late (fun j => match late_step j with Some (LTick 0 _) => false | _ => true end)); [vm_compute; reflexivity|].
    intros k L. unfold late_step, run_step, then_nothing. rewrite (proj2 (nth_error_None late k) L). reflexivity. }
  rewrite G in B. discriminate B.
Qed.

(** The provider answers well, or cannot be reached. *)
Definition lateb (k : nat) : bool :=
  match observed late_at k with
  | [OPost _ _ res] => match res with PRBody s => str_eqb s $"Rnew" | PRTransport TrDns _ => true | _ => false end
  | [OTransientCmd _ _ _] => false
  | _ => true
  end.

Lemma late_provider : flaky_provider toy late_at late_time 0 $"a" (sec 3600) (sec 3600) (sec 100).
Proof.
  assert (forall j, lateb j = true) as B.
  { apply (run_always late); [vm_compute; reflexivity|]. intros k L. change (List.length late) with 34%nat in L. unfold lateb, observed.
    rewrite !late_stays by lia. rewrite skipn_all. reflexivity. }
  constructor.
  - intros j res _ (a & r & uri & pairs & _ & _ & OB & _). specialize (B j). unfold lateb in B. rewrite OB in B.
    destruct res as [s| | |t m]; try discriminate B; [|destruct t; try discriminate B; right; exact I].
    apply str_eqb_eq in B. subst s. left.
    exists $"Rnew", (JObj [($"access_token", JStr $"new"); ($"token_type", JStr $"Bearer"); ($"expires_in", JNum 3600); ($"refresh_token", JStr $"r")]),
      $"new", 3600.
    split; [reflexivity|]. split; [vm_compute; reflexivity|]. do 4 (split; [reflexivity|]).
    split; [unfold sec, from_secs, secs, nanos; lia|]. right. exists $"r". reflexivity.
  - intros j j' t _ _ _ _ _. pose proof (late_within j). pose proof (late_within (S j')). unfold sec, from_secs, nanos in *. lia.
  - intros j cmd _ OB. specialize (B j). unfold lateb in B. rewrite OB in B. discriminate B.
Qed.

(** The settings stay what they are. *)
Definition late_setting (k : nat) : bool :=
  match lookup $"a" (c_accounts (lconfig (w_lk (late_at k)))) with
  | Some act => (margin act (conf (late_at k)) =? sec 3000) && (retry_gap act (conf (late_at k)) =? sec 10)
  | None => true
  end.

Lemma late_settings j act : configured (late_at j) $"a" act ->
  margin act (conf (late_at j)) = sec 3000 /\ retry_gap act (conf (late_at j)) = sec 10.
Proof.
  intros C. unfold configured in C. assert (late_setting j = true) as B.
  { apply (run_always late); [vm_compute; reflexivity|]. intros k L. change (List.length late) with 34%nat in L.
    unfold late_setting. rewrite late_stays by exact L. vm_compute. reflexivity. }
  unfold late_setting in B. rewrite C in B. apply andb_true_iff in B as [B1 B2]. split; apply Z.eqb_eq; assumption.
Qed.
