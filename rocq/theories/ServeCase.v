(** A run in which a client that dawdles keeps another waiting, and a browser comes. *)
From Verif Require Import Base BaseLemmas Time Utf8 Url Json Oracles Config Dump State Http Timers Server SpecServer
  SpecTimers SpecSessions SpecFair SpecTimed SpecReturn Wire SpecWire SpecServe WireLemmas WireNet Reach Steps Inv Fair
  TimedServe Scenario Runs Cases Endless.
Local Open Scope Z_scope.

Section Given.
Variable s0 : net.
Variable l : list (Z * nlabel).
Variable t0 tl t1 : Z.

Definition net_after_all (ls : list (Z * nlabel)) : option net := net_run toy s0 (map snd ls).
Definition given_at (k : nat) : net := match net_after_all (firstn k l) with Some s => s | None => s0 end.
Definition given_step (k : nat) : option nlabel := option_map snd (nth_error l k).
(** A state is reached at the time of the step before. *)
Definition given_time (k : nat) : Z :=
  match k with O => t0 | S k => match nth_error l k with Some (t, _) => t | None => t1 end end.

Definition given_env (k : nat) : env := match given_step k with Some (NMain e) => e | _ => tick (given_time k) end.

(** Nobody who does not dawdle has anything to do. *)
Definition idle (s : net) : bool :=
  negb (match nth_error (w_threads (n_world s)) 0, nth_error (n_clients s) (n_next s) with
        | Some PMain, Some (mkConn _ Open) => false
        | Some PMain, Some _ => true
        | _, _ => false
        end)
  && forallb (fun q => match q with
       | PHttpPost _ _ _ _ | PHttpStart _ _ | PHttpBody _ _ | PHttpFail _ _ | PHttpNotify _ _ _ | PDo _ _ => false
       | _ => true end) (w_threads (n_world s))
  && forallb (fun b => b_read b || match get_in toy (b_https b) (c_in (b_conn b)) (c_fin (b_conn b)) with Waits => true | _ => false end)
       (n_browsers s).
Definition all_told_b (s : net) : bool := forallb (fun c => match c_fin c with Open => false | _ => true end) (n_clients s).

Definition given_ok (k : nat) : bool :=
  (given_time k <=? given_time (S k))
  && ((given_time (S k) =? given_time k) || idle (given_at k))
  && ((given_time (S k) <=? tl) || all_told_b (given_at k)).

Definition given_clock (x : Z * nlabel) : Prop :=
  match snd x with NMain e | NTick _ e => forall i, ri1 (e_clk e i) = fst x | _ => True end.

Hypothesis START : net_reachable toy s0.
Hypothesis RUNS : match net_after_all l with Some s => idle s && all_told_b s | None => false end = true.
Hypothesis CLOCKS : Forall given_clock l.
Hypothesis OK : forallb given_ok (seq 0 (S (List.length l))) = true.
Hypothesis LAST : given_time (List.length l) <= t1.

Lemma net_run_app O s a b : net_run O s (a ++ b) = match net_run O s a with Some s' => net_run O s' b | None => None end.
Proof. revert s. induction a as [|x a IH]; intros s; [reflexivity|]. cbn. destruct (net_step O s x); [apply IH|reflexivity]. Qed.

Lemma given_prefix k : exists s, net_after_all (firstn k l) = Some s.
Proof.
  destruct (net_after_all (firstn k l)) as [s|] eqn:E; [eauto|]. exfalso. revert RUNS.
  unfold net_after_all in *. rewrite <- (firstn_skipn k l) at 1. rewrite map_app, net_run_app, E. discriminate.
Qed.

Lemma given_next k : match given_step k with
                     | Some x => net_step toy (given_at k) x = Some (given_at (S k))
                     | None => given_at (S k) = given_at k
                     end.
Proof.
  unfold given_step. destruct (nth_error l k) as [[t x]|] eqn:E; cbn [option_map snd].
  - unfold given_at. destruct (given_prefix (S k)) as [s' E']. rewrite E'. destruct (given_prefix k) as [s E0]. rewrite E0.
    revert E' E0. unfold net_after_all. assert (firstn (S k) l = firstn k l ++ [(t, x)]) as ->.
    { clear - E. revert l E. induction k as [|k IH]; intros [|y l] E; try discriminate E; cbn in E; [injection E as ->; reflexivity|].
      change (y :: firstn (S k) l = y :: firstn k l ++ [(t, x)]). rewrite (IH l E). reflexivity. }
    rewrite map_app, net_run_app. cbn [map snd]. intros E' E0. rewrite E0 in E'. cbn in E'.
    destruct (net_step toy s x); [exact E'|discriminate E'].
  - apply nth_error_None in E. unfold given_at. rewrite !firstn_all2 by lia. reflexivity.
Qed.

Lemma given_nets : nets toy given_at given_step.
Proof. constructor; [exact START|exact given_next]. Qed.

Lemma given_end k : (List.length l <= k)%nat -> idle (given_at k) = true /\ all_told_b (given_at k) = true.
Proof.
  intros L. unfold given_at. rewrite firstn_all2 by lia. revert RUNS. destruct (net_after_all l) as [s|]; [|discriminate].
  apply andb_true_iff.
Qed.

Lemma given_time_after k : (List.length l < k)%nat -> given_time k = t1.
Proof. destruct k as [|k]; [lia|]. intros L. cbn. rewrite (proj2 (nth_error_None l k)) by lia. reflexivity. Qed.

Lemma given_all k : given_time k <= given_time (S k)
  /\ (given_time (S k) = given_time k \/ idle (given_at k) = true)
  /\ (given_time (S k) <= tl \/ all_told_b (given_at k) = true).
Proof.
  destruct (Nat.lt_ge_cases k (S (List.length l))) as [L|G].
  - pose proof (proj1 (forallb_forall _ _) OK k ltac:(apply in_seq; lia)) as B.
    apply andb_true_iff in B as [B B3]. apply andb_true_iff in B as [B1 B2].
    apply Z.leb_le in B1. apply orb_true_iff in B2, B3. rewrite Z.eqb_eq in B2. rewrite Z.leb_le in B3. auto.
  - destruct (given_end k ltac:(lia)) as [I A]. rewrite !given_time_after by lia. split; [lia|auto].
Qed.

Lemma given_forward k : given_time k <= given_time (S k).
Proof. apply given_all. Qed.

Lemma given_later k : t0 <= given_time k.
Proof. induction k as [|k IH]; [cbn; lia|]. pose proof (given_forward k). lia. Qed.

Lemma given_still d (Q : nat -> Prop) : 0 <= d -> (forall k, Q k -> idle (given_at k) = false) -> brief given_time Q d.
Proof.
  intros D SQ k j L H. enough (given_time (S j) = given_time k) by lia.
  assert (forall i, Q i -> given_time (S i) = given_time i) as ST.
  { intros i QI. destruct (given_all i) as (_ & [X|X] & _); [exact X|]. rewrite SQ in X by exact QI. discriminate X. }
  induction L as [|j L IH]; [apply ST; apply H; lia|]. rewrite ST by (apply H; lia). apply IH. intros i I1 I2. apply H; lia.
Qed.

Lemma idle_thread s tid q : nth_error (w_threads (n_world s)) tid = Some q ->
  match q with
  | PHttpPost _ _ _ _ | PHttpStart _ _ | PHttpBody _ _ | PHttpFail _ _ | PHttpNotify _ _ _ | PDo _ _ => True
  | _ => False end -> idle s = false.
Proof.
  intros N F. destruct (idle s) eqn:E; [|reflexivity]. exfalso. unfold idle in E.
  apply andb_true_iff in E as [E _]. apply andb_true_iff in E as [_ E].
  pose proof (proj1 (forallb_forall _ _) E _ (nth_error_In _ _ N)) as X. destruct q; try discriminate X; exact F.
Qed.

Lemma given_serving d : 0 <= d -> serving toy given_at given_step given_env given_time d (tl - t0).
Proof.
  intros D. constructor.
  - exact given_nets.
  - exact given_forward.
  - intros k e E. unfold given_env. rewrite E. reflexivity.
  - intros n k j L H. destruct (H j L (le_n _)) as [ps N]. destruct (given_all j) as (_ & _ & [X|X]).
    + pose proof (given_later k). lia.
    + exfalso. pose proof (proj1 (forallb_forall _ _) X _ (nth_error_In _ _ N)) as Y. discriminate Y.
  - intros n. apply (given_still d _ D). intros k (_ & M & N & (ps & f & C & F) & _).
    unfold idle. unfold at_main in M. rewrite M, N, C. destruct f; [congruence|reflexivity|reflexivity].
  - intros a q. apply (given_still d _ D). intros k (_ & M). eapply idle_thread; [exact M|exact I].
  - intros n. apply (given_still d _ D). intros k (_ & b & N & B & DU). destruct (idle (given_at k)) eqn:E; [|reflexivity]. exfalso.
    unfold idle in E. apply andb_true_iff in E as [_ E]. pose proof (proj1 (forallb_forall _ _) E _ (nth_error_In _ _ N)) as X.
    cbn beta in X. rewrite B in X. apply (due_iff toy) in DU. destruct (get_in _ _ _ _); try discriminate X. congruence.
Qed.

Lemma given_browsing d : 0 <= d -> browsing toy (worlds given_at) (labels toy given_at given_step) given_time d d.
Proof.
  intros D. constructor.
  - exact (net_endless _ _ _ given_nets).
  - exact given_forward.
  - intros k tid e i E. pose proof (given_forward k) as F. unfold labels, given_step in E.
    destruct (nth_error l k) as [[t x]|] eqn:N; [|discriminate E]. cbn [option_map snd] in E.
    assert (given_time (S k) = t) as T by (cbn [given_time]; rewrite N; reflexivity).
    pose proof (proj1 (Forall_forall _ _) CLOCKS _ (nth_error_In _ _ N)) as C. unfold given_clock in C. cbn [fst snd] in C.
    destruct x as [| | |e0| | | |m|t2 e0]; cbn [label_of] in E; try discriminate E.
    + destruct (nth_error (n_clients (given_at k)) _) as [[ps f]|]; [|discriminate E]. destruct f; try discriminate E.
      injection E as <- <-. cbn [e_clk with_client]. rewrite C. lia.
    + destruct (nth_error (n_browsers (given_at k)) m) as [b|]; [|discriminate E]. destruct (request_bytes toy b); discriminate E.
    + injection E as <- <-. rewrite C. lia.
  - intros tid q b LI. assert (b = d) as -> by (destruct q; try discriminate LI; cbn in LI; congruence).
    apply (given_still d _ D). intros k N. eapply idle_thread; [exact N|]. destruct q; try discriminate LI; exact I.
  - intros tid a q _. apply (given_still d _ D). intros k N. eapply idle_thread; [exact N|exact I].
Qed.
End Given.

Definition all_at (t : Z) (xs : list nlabel) : list (Z * nlabel) := map (fun x => (sec t, x)) xs.

(** The first client is slow; the second waits for it; then a browser asks for
    something in two pieces. *)
Definition dawdle : list (Z * nlabel) :=
  all_at 1000 [NClient; NClientSends 0 $"status"]
  ++ all_at 1001 [NClient; NClientSends 1 $"info:"; NClientEnds 1 Ended]
  ++ all_at 1004 [NClientSends 0 $":"; NClientEnds 0 Ended; NMain (tick (sec 1004)); NTick 0 (tick (sec 1004));
               NMain (tick (sec 1004)); NTick 0 (tick (sec 1004))]
  ++ all_at 1010 [NBrowser false; NBrowserSends 0 $"GET /?sta"]
  ++ all_at 1020 [NBrowserSends 0 (skipn 9 (callback $"state=x&code=c0de")); NRead 0; NTick 4 (tick (sec 1020)); NTick 4 (tick (sec 1020))].

Definition dawdle_at : nat -> net := given_at (net_start (start conf1)) dawdle.
Definition dawdle_step : nat -> option nlabel := given_step dawdle.
Definition dawdle_time : nat -> Z := given_time dawdle (sec 1000) (sec 1100).
Definition dawdle_env : nat -> env := given_env dawdle (sec 1000) (sec 1100).

Lemma dawdle_start : net_reachable toy (net_start (start conf1)).
Proof. apply (nreach_init toy (env_file conf1)). vm_compute. reflexivity. Qed.

Lemma dawdle_clocks : Forall given_clock dawdle.
Proof.
  unfold dawdle, all_at. cbn [map app]. repeat match goal with |- Forall _ _ => constructor end; unfold given_clock; cbn [snd fst]; try exact I;
    intros i; reflexivity.
Qed.

Lemma dawdle_serving : serving toy dawdle_at dawdle_step dawdle_env dawdle_time (sec 1) (sec 4).
Proof.
  change (sec 4) with (sec 1004 - sec 1000).
  apply (given_serving (net_start (start conf1)) dawdle (sec 1000) (sec 1004) (sec 1100) dawdle_start);
    try (vm_compute; reflexivity); try (vm_compute; discriminate).
Qed.

Lemma dawdle_browsing : browsing toy (worlds dawdle_at) (labels toy dawdle_at dawdle_step) dawdle_time (sec 1) (sec 1).
Proof.
  apply (given_browsing (net_start (start conf1)) dawdle (sec 1000) (sec 1004) (sec 1100) dawdle_start);
    try (vm_compute; reflexivity); try (vm_compute; discriminate). exact dawdle_clocks.
Qed.

(** With nothing to be dated nothing breaks. *)
Definition undated (s : net) : bool :=
  forallb (fun e0 => match d_ts e0 with TSEmpty => true | _ => false end) (details (w_lk (n_world s))).

Lemma undated_ok O e s : undated s = true -> ~ next_breaks O e s.
Proof.
  intros U (c & _ & B). inversion B as [tid e1 k e0 A N C D F]. subst.
  pose proof (proj1 (forallb_forall _ _) U _ (nth_error_In _ _ D)) as X. cbn beta in X.
  inversion F as [? ? ? ? ? E|? ? ? E|? ? ? E|? ? ? ? ? E]; rewrite <- E in X; discriminate X.
Qed.

Lemma dawdle_unbroken x : (x <= 30)%nat -> ~ next_breaks toy (dawdle_env x) (dawdle_at x).
Proof.
  intros L. apply undated_ok.
  assert (forallb (fun x => undated (dawdle_at x)) (seq 0 31) = true) as F by (vm_compute; reflexivity).
  apply (proj1 (forallb_forall _ _) F). apply in_seq. lia.
Qed.
