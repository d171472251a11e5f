(** A run in which a token is refreshed while nothing takes long. *)
From Verif Require Import Base BaseLemmas Time Utf8 Url Json Oracles Config Dump State Http Timers Server SpecServer
  SpecTimers SpecSessions SpecFair SpecTimed Reach Steps Inv Fair Timed Scenario Runs Cases Endless.
Local Open Scope Z_scope.

(** Tokens are renewed after fifty seconds. *)
Definition conf_soon : str := conf_account $"a" $"refresh_before_expiry = 2000s; refresh_at_least = 50s;".
Definition w_soon : world := after (start conf_soon) (authorise $"Rtok").

Definition soon : list label :=
  many 5 3 (tick (sec 1004))
  ++ [rf (woken (tick (sec 1042)))] ++ many 4 3 (tick (sec 1042))
  ++ [rf (woken (tick (sec 1054)))] ++ many 3 3 (tick (sec 1055))
  ++ [LTick 5 (tick (sec 1056)); LTick 5 (posted (PRBody $"Rnew") (tick (sec 1057)))]
  ++ [main (client $"showtoken:withurl a" (tick (sec 1058))); main (tick (sec 1058))]
  ++ many 5 5 (tick (sec 1059))
  ++ [main (client $"showtoken:withurl a" (tick (sec 1060))); main (tick (sec 1060))].

Definition soon_at : nat -> world := then_rest w_soon soon.
Definition soon_step : nat -> option label := then_nothing soon.
Definition soon_time (k : nat) : Z :=
  match nth_error soon k with Some (LTick _ e) => ri1 (e_clk e 0%nat) | _ => sec 1060 end.


Lemma soon_starts : reachable toy w_soon.
Proof. unfold w_soon. reach_after. Qed.

Lemma soon_runs : runs w_soon soon = true.
Proof. vm_compute. reflexivity. Qed.

Lemma soon_endless : endless toy soon_at soon_step.
Proof. exact (rest_endless _ _ soon_starts soon_runs). Qed.

(** What holds at the times of the run holds at all times. *)
Lemma soon_always (b : nat -> bool) :
  forallb b (seq 0 25) = true -> (forall k, (25 <= k)%nat -> b k = true) -> forall k, b k = true.
Proof.
  intros F R k. destruct (Nat.lt_ge_cases k 25) as [L|G]; [|apply R; exact G].
  apply (proj1 (forallb_forall _ _) F). apply in_seq. lia.
Qed.

Lemma soon_after k : (25 <= k)%nat -> soon_step k = None.
Proof. intros L. apply nth_error_None. exact L. Qed.

Lemma soon_stays k : (25 <= k)%nat -> soon_at k = after w_soon soon.
Proof. intros L. apply then_rest_end. exact L. Qed.

Lemma soon_time_after k : (25 <= k)%nat -> soon_time k = sec 1060.
Proof. intros L. unfold soon_time. fold (soon_step k). rewrite soon_after by exact L. reflexivity. Qed.

Lemma soon_forward k : soon_time k <= soon_time (S k).
Proof.
  apply Z.leb_le. apply (soon_always (fun k => (soon_time k <=? soon_time (S k))%Z)); [vm_compute; reflexivity|].
  intros i L. apply Z.leb_le. rewrite !soon_time_after by lia. lia.
Qed.

Lemma soon_within k : sec 1004 <= soon_time k <= sec 1060.
Proof.
  assert ((sec 1004 <=? soon_time k) && (soon_time k <=? sec 1060) = true) as B.
  { apply (soon_always (fun k => (sec 1004 <=? soon_time k) && (soon_time k <=? sec 1060))); [vm_compute; reflexivity|].
    intros i L. rewrite soon_time_after by lia. reflexivity. }
  apply andb_true_iff in B as [B1 B2]. split; apply Z.leb_le; assumption.
Qed.

Lemma soon_clock k tid e i : soon_step k = Some (LTick tid e) -> ri1 (e_clk e i) = soon_time k.
Proof.
  intros E. assert (forall l, In l soon -> match l with LTick _ e => forall i, ri1 (e_clk e i) = ri1 (e_clk e 0%nat) | _ => True end) as F.
  { apply Forall_forall. unfold soon, many. cbn [repeat app].
    repeat match goal with |- Forall _ _ => constructor end; intros i0; reflexivity. }
  unfold soon_time. unfold soon_step, then_nothing in E. rewrite E. exact (F _ (nth_error_In _ _ E) i).
Qed.

Lemma soon_brief Q b : sec 100 <= b -> brief soon_time Q b.
Proof. intros L k j _ _. pose proof (soon_within k). pose proof (soon_within (S j)). unfold sec, from_secs, nanos in *. lia. Qed.

Lemma soon_prompt : prompt toy soon_at soon_step soon_time (sec 100) (sec 100).
Proof.
  constructor.
  - exact soon_endless.
  - exact soon_forward.
  - intros k tid e i E. rewrite (soon_clock k tid e i E). pose proof (soon_forward k). lia.
  - intros tid q b E. apply soon_brief. destruct q; cbn [limit] in E; try discriminate E; assert (b = sec 100) as -> by congruence; lia.
  - apply soon_brief. lia.
  - intros tid. apply soon_brief. lia.
  - intros nw. apply soon_brief. lia.
  - intros t k j _ _. pose proof (soon_within k). pose proof (soon_within (S j)). unfold sec, from_secs, nanos in *. lia.
Qed.

(** The client only looks. *)
Definition onlooker (k : nat) : bool :=
  match soon_step k with Some (LTick 0 _) => ((16 <=? k) && (k <=? 17) || (23 <=? k) && (k <=? 24))%nat | _ => true end.

Lemma soon_undisturbed : undisturbed soon_at soon_step 0 $"a".
Proof.
  intros j e _ _ ([env G] & I & NI). apply NI.
  assert (onlooker j = true) as B.
  { apply soon_always; [vm_compute; reflexivity|]. intros k L. unfold onlooker. rewrite soon_after by exact L. reflexivity. }
  unfold onlooker in B. rewrite G in B.
  assert (j = 16 \/ j = 17 \/ j = 23 \/ j = 24)%nat as C.
  { apply orb_true_iff in B as [B|B]; apply andb_true_iff in B as [B1 B2]; apply Nat.leb_le in B1, B2; lia. }
  destruct C as [->|[->|[->| ->]]];
    [assert (w_lk (soon_at 17) = w_lk (soon_at 16)) as -> by (vm_compute; reflexivity)
    |assert (w_lk (soon_at 18) = w_lk (soon_at 17)) as -> by (vm_compute; reflexivity)
    |assert (w_lk (soon_at 24) = w_lk (soon_at 23)) as -> by (vm_compute; reflexivity)
    |assert (w_lk (soon_at 25) = w_lk (soon_at 24)) as -> by (vm_compute; reflexivity)]; exact I.
Qed.

(** The provider answers well. *)
Definition answerb (k : nat) : bool :=
  match observed soon_at k with [OPost _ _ res] => match res with PRBody s => str_eqb s $"Rnew" | _ => false end | _ => true end.

Lemma soon_provider : good_provider toy soon_at 0 $"a" (sec 3600) (sec 3600).
Proof.
  intros j a r uri pairs res _ _ _ OB _.
  assert (answerb j = true) as B.
  { apply soon_always; [vm_compute; reflexivity|]. intros k L. unfold answerb, observed.
    rewrite !soon_stays by lia. rewrite skipn_all. reflexivity. }
  unfold answerb in B. rewrite OB in B. destruct res as [s| | |]; try discriminate B. apply str_eqb_eq in B. subst s.
  exists $"Rnew", (JObj [($"access_token", JStr $"new"); ($"token_type", JStr $"Bearer"); ($"expires_in", JNum 3600); ($"refresh_token", JStr $"r")]),
    $"new", 3600.
  split; [reflexivity|]. split; [vm_compute; reflexivity|]. do 4 (split; [reflexivity|]).
  split; [unfold sec, from_secs, secs, nanos; lia|]. right. exists $"r". reflexivity.
Qed.

(** The settings stay what they are. *)
Definition settingb (k : nat) : bool :=
  match lookup $"a" (c_accounts (lconfig (w_lk (soon_at k)))) with
  | Some act => (margin act (conf (soon_at k)) =? sec 2000)
  | None => true
  end.

Lemma soon_margin j act : configured (soon_at j) $"a" act -> margin act (conf (soon_at j)) = sec 2000.
Proof.
  intros C. unfold configured in C. assert (settingb j = true) as B.
  { apply soon_always; [vm_compute; reflexivity|]. intros k L. unfold settingb. rewrite soon_stays by exact L. vm_compute. reflexivity. }
  unfold settingb in B. rewrite C in B. apply Z.eqb_eq. exact B.
Qed.

(** The token at the beginning of the run. *)
Definition ripeb (k : nat) : bool :=
  match lookup $"a" (c_accounts (lconfig (w_lk (soon_at k)))) with
  | Some act => (max_age act (conf (soon_at k)) =? sec 50)
  | None => true
  end.

Lemma soon_ripe : exists e0 a, d_ts e0 = TSActive a /\ ongoing a = false /\ time_ok (expiry a) /\ ripe soon_at 0 (d_name e0) a (sec 1053)
    /\ (forall i, (i <= 14)%nat -> In e0 (details (w_lk (soon_at i)))) /\ ~ In e0 (details (w_lk (soon_at 15))).
Proof.
  exists (mkEntry $"a" 2%N (TSActive (mkActive $"tok" (sec 1003) (sec 4603) (Some $"r") false 0 None))),
    (mkActive $"tok" (sec 1003) (sec 4603) (Some $"r") false 0 None).
  split; [reflexivity|]. split; [reflexivity|]. split; [vm_compute; split; discriminate|]. split; [|split].
  - intros j act now _ C LT. cbn [d_name] in C. pose proof (soon_margin j act C) as M.
    assert (ripeb j = true) as B.
    { apply soon_always; [vm_compute; reflexivity|]. intros k L. unfold ripeb. rewrite soon_stays by exact L. vm_compute. reflexivity. }
    unfold ripeb in B. unfold configured in C. rewrite C in B. apply Z.eqb_eq in B.
    eexists. split; [apply rt_fresh; [reflexivity|intros l X; discriminate X|cbn [expiry]; rewrite M; vm_compute; discriminate]|].
    cbn [expiry obtained]. rewrite M, B. vm_compute. discriminate.
  - intros i L. do 15 (destruct i as [|i]; [vm_compute; left; reflexivity|]). lia.
  - vm_compute. intros [X|[]]. discriminate X.
Qed.
