(** Starting up. *)
From Verif Require Import Base BaseLemmas Startup SpecStartup.
Local Open Scope N_scope.

(** * Paths *)

Lemma push_plain p s : starts_with $"/" s = false -> p <> [] -> ends_in_slash p = false -> push p s = p ++ $"/" ++ s.
Proof.
  intros S NE ES. unfold push. rewrite S. destruct p as [|c p]; [contradiction|]. rewrite ES. reflexivity.
Qed.

Lemma push_empty s : push [] s = s.
Proof. unfold push. destruct (starts_with $"/" s); reflexivity. Qed.

Lemma push_longer p s : starts_with $"/" s = false -> (List.length p < List.length (push p s))%nat \/ s = [].
Proof.
  intros S. destruct s as [|c s]; [right; reflexivity|]. left. unfold push. rewrite S.
  destruct p as [|d p]; [cbn; lia|]. destruct (ends_in_slash (d :: p)); rewrite !app_length; cbn [List.length]; lia.
Qed.

Lemma ends_in_slash_app p s : s <> [] -> ends_in_slash (p ++ s) = ends_in_slash s.
Proof.
  intros N. unfold ends_in_slash. rewrite rev_app_distr. destruct (rev s) as [|c r] eqn:E; [|reflexivity].
  exfalso. apply N. rewrite <- (rev_involutive s), E. reflexivity.
Qed.

Lemma cache_leaf_neat v : cache_leaf v <> [] /\ ends_in_slash (cache_leaf v) = false.
Proof.
  unfold cache_leaf, push. change (starts_with $"/" $"pizauth") with false. cbv beta iota.
  destruct (runtime_path v) as [|c p]; [split; [discriminate|reflexivity]|].
  destruct (ends_in_slash (c :: p)); (split; [discriminate|]).
  - rewrite ends_in_slash_app by discriminate. reflexivity.
  - rewrite app_assoc, ends_in_slash_app by discriminate. reflexivity.
Qed.

Lemma sock_inside v : sock_path (cache_leaf v) = cache_leaf v ++ $"/pizauth.sock".
Proof.
  destruct (cache_leaf_neat v) as [N E]. unfold sock_path. rewrite push_plain; [reflexivity|reflexivity|exact N|exact E].
Qed.

Lemma cache_leaf_differs v : runtime_path v <> cache_leaf v.
Proof.
  intros E. destruct (push_longer (runtime_path v) $"pizauth" eq_refl) as [L|L]; [|discriminate L].
  fold (cache_leaf v) in L. rewrite <- E in L. lia.
Qed.

(** * The cache directory *)

Lemma put_same p n f : put p n f p = Some n.
Proof. unfold put. rewrite str_eqb_refl. reflexivity. Qed.

Lemma put_other p n f q : q <> p -> put p n f q = f q.
Proof. intros N. unfold put. destruct (str_eqb_spec p q) as [->|_]; [contradiction|reflexivity]. Qed.

Lemma make_private_spec me a f p f' :
  make_private me a f p = Some f' ->
  (exists n, f' p = Some n /\ n_mode n = mode_0700 /\ (me <> 0 -> n_owner n = me))
  /\ forall q, q <> p -> f' q = f q.
Proof.
  unfold make_private. destruct (if path_exists a f p then Some f else create_dir me a f p) as [f1|] eqn:E; [|discriminate].
  assert (forall q, q <> p -> f1 q = f q) as FR.
  { intros q N. destruct (path_exists a f p); [injection E as <-; reflexivity|].
    unfold create_dir in E. destruct (f p); [discriminate E|]. destruct (an_mkdir a p); [|discriminate E].
    injection E as <-. apply put_other. exact N. }
  unfold set_0700. destruct (f1 p) as [n|]; [|discriminate].
  destruct (((n_owner n =? me) || (me =? 0)) && an_chmod a p) eqn:C; [|discriminate]. intros [= <-].
  apply andb_true_iff in C. destruct C as [C _]. apply orb_true_iff in C. rewrite !N.eqb_eq in C. split.
  - eexists. split; [apply put_same|]. split; [reflexivity|]. intros NZ. cbn [n_owner]. destruct C; [assumption|contradiction].
  - intros q N. rewrite put_other by exact N. apply FR. exact N.
Qed.

Lemma private_0700 me n : n_owner n = me -> n_mode n = mode_0700 ->
  may_enter me n /\ forall u, u <> me -> u <> 0 -> ~ may_enter u n.
Proof.
  intros OW MO. unfold may_enter. rewrite OW, MO. split.
  - right. left. split; reflexivity.
  - intros u NM NZ [X|[[X _]|[_ [X|X]]]]; [contradiction|contradiction|discriminate X|discriminate X].
Qed.

Lemma cache_private me a v f p f' :
  me <> 0 -> cache_path me a v f = Some (p, f') ->
  (exists n, f' p = Some n /\ may_enter me n /\ forall u, u <> me -> u <> 0 -> ~ may_enter u n)
  /\ sock_path p = p ++ $"/pizauth.sock"
  /\ forall q, q <> p -> q <> runtime_path v -> f' q = f q.
Proof.
  intros NZ. unfold cache_path. destruct (make_private me a f (runtime_path v)) as [f1|] eqn:M1; [|discriminate].
  destruct (make_private me a f1 (cache_leaf v)) as [f2|] eqn:M2; [|discriminate]. intros [= <- <-].
  apply make_private_spec in M1, M2. destruct M1 as [_ FR1]. destruct M2 as [(n & FN & MO & OW) FR2]. split.
  - exists n. split; [exact FN|]. exact (private_0700 me n (OW NZ) MO).
  - split; [apply sock_inside|]. intros q N1 N2. rewrite FR2 by exact N1. apply FR1. exact N2.
Qed.

Lemma make_private_free me a f p :
  free_for me a f p -> exists f', make_private me a f p = Some f' /\ forall q, q <> p -> f' q = f q.
Proof.
  intros (SE & MK & CH & OW).
  assert (exists f', make_private me a f p = Some f') as [f' E].
  { unfold make_private, path_exists. destruct (f p) as [n|] eqn:F.
    - rewrite SE. unfold set_0700. rewrite F, CH, andb_true_r.
      assert ((n_owner n =? me) || (me =? 0) = true) as ->.
      { apply orb_true_iff. rewrite !N.eqb_eq. exact (OW n eq_refl). }
      eexists. reflexivity.
    - unfold create_dir. rewrite F, MK. unfold set_0700. rewrite put_same, CH. cbn [n_owner]. rewrite N.eqb_refl.
      cbn [orb andb]. eexists. reflexivity. }
  exists f'. split; [exact E|]. exact (proj2 (make_private_spec _ _ _ _ _ E)).
Qed.

Lemma runtime_dir_is v d : runtime_dir v d -> runtime_path v = d.
Proof.
  unfold runtime_path. intros [E|(E & t & T & [NE ES] & ->)]; rewrite E; [apply push_empty|].
  assert (match v_tmpdir v with Some s => push [] s | None => push [] $"/tmp" end = t) as ->.
  { destruct T as [T|[T ->]]; rewrite T; [apply push_empty|reflexivity]. }
  rewrite push_plain; [reflexivity|reflexivity|exact NE|exact ES].
Qed.

Lemma cache_available me a v f d :
  runtime_dir v d -> neat d -> free_for me a f d -> free_for me a f (d ++ $"/pizauth") ->
  exists f', cache_path me a v f = Some (d ++ $"/pizauth", f').
Proof.
  intros R [NE ES] F1 F2. apply runtime_dir_is in R.
  assert (cache_leaf v = d ++ $"/pizauth") as L.
  { unfold cache_leaf. rewrite R, push_plain; [reflexivity|reflexivity|exact NE|exact ES]. }
  pose proof (cache_leaf_differs v) as D. rewrite R, L in D.
  unfold cache_path. rewrite R, L. destruct (make_private_free _ _ _ _ F1) as (f1 & -> & FR).
  assert (free_for me a f1 (d ++ $"/pizauth")) as F3.
  { destruct F2 as (A & B & C & O). repeat (split; [assumption|]). intros n. rewrite FR by (intros X; apply D; symmetry; exact X).
    apply O. }
  destruct (make_private_free _ _ _ _ F3) as (f2 & -> & _). eexists. reflexivity.
Qed.

(** * The configuration file *)

Lemma conf_given v is_file p : conf_path v is_file (Some p) = Some p.
Proof. reflexivity. Qed.

Lemma conf_in_config_home v is_file d p :
  v_config_home v = Some d -> neat d ->
  (conf_path v is_file None = Some p <-> p = d ++ $"/pizauth.conf" /\ is_file p = true).
Proof.
  intros E [NE ES]. unfold conf_path. rewrite E, push_empty, push_plain; [|reflexivity|exact NE|exact ES].
  change ($"/" ++ $"pizauth.conf") with $"/pizauth.conf". cbv zeta.
  destruct (is_file (d ++ $"/pizauth.conf")) eqn:F; split.
  - intros [= <-]. auto.
  - intros [-> _]. reflexivity.
  - discriminate.
  - intros [-> X]. congruence.
Qed.

Lemma conf_in_home v is_file d p :
  v_config_home v = None -> v_home v = Some d -> neat d ->
  (conf_path v is_file None = Some p <-> p = d ++ $"/.config/pizauth.conf" /\ is_file p = true).
Proof.
  intros E1 E2 [NE ES]. unfold conf_path. rewrite E1, E2, push_empty, (push_plain d $".config"); [|reflexivity|exact NE|exact ES].
  rewrite push_plain.
  - rewrite <- !app_assoc. change ($"/" ++ $".config" ++ $"/" ++ $"pizauth.conf") with $"/.config/pizauth.conf". cbv zeta.
    destruct (is_file (d ++ $"/.config/pizauth.conf")) eqn:F; split.
    + intros [= <-]. auto.
    + intros [-> _]. reflexivity.
    + discriminate.
    + intros [-> X]. congruence.
  - reflexivity.
  - destruct d; discriminate.
  - rewrite app_assoc, ends_in_slash_app by discriminate. reflexivity.
Qed.

(** What is chosen is the first file among the documented places. *)
Lemma conf_documented v is_file p :
  (forall d, v_config_home v = Some d -> neat d) -> (forall d, v_home v = Some d -> neat d) ->
  conf_path v is_file None = Some p -> first_file is_file (documented_places v) p.
Proof.
  intros N1 N2 C. unfold first_file, documented_places. destruct (v_config_home v) as [d|] eqn:E.
  - apply (conf_in_config_home _ _ _ _ E (N1 _ eq_refl)) in C. destruct C as [-> F].
    exists []. eexists. split; [reflexivity|]. split; [exact F|]. intros q [].
  - destruct (v_home v) as [d|] eqn:E2.
    + apply (conf_in_home _ _ _ _ E E2 (N2 _ eq_refl)) in C. destruct C as [-> F].
      exists [], []. split; [reflexivity|]. split; [exact F|]. intros q [].
    + exfalso. unfold conf_path in C. rewrite E, E2 in C. discriminate C.
Qed.

(** * Processes *)

Lemma set_same {A} pid (x : A) l y : nth_error l pid = Some y -> nth_error (list_set pid x l) pid = Some x.
Proof.
  revert pid. induction l as [|z l IH]; intros [|pid] H; cbn in *; try discriminate H; [reflexivity|]. exact (IH _ H).
Qed.

Lemma set_other {A} pid (x : A) l q : q <> pid -> nth_error (list_set pid x l) q = nth_error l q.
Proof.
  revert pid q. induction l as [|z l IH]; intros [|pid] [|q] N; cbn; try reflexivity; try contradiction.
  apply IH. intros ->. apply N. reflexivity.
Qed.

(** What one step does to the processes. *)
Lemma step_procs h e h' : host_step h e = Some h' ->
  match e with
  | EStart d => h_sock h' = h_sock h /\ h_procs h' = h_procs h ++ [mkProcess d SCheck None false]
  | EGo pid b => exists p, nth_error (h_procs h) pid = Some p /\ go h pid p b = Some h'
  | EKill pid => exists p, nth_error (h_procs h) pid = Some p /\ p_pc p <> SEnd
                   /\ h' = mkHost (abandoned (h_sock h) pid) (list_set pid (quit p 143) (h_procs h))
  | ETouch pid => h' = h /\ exists p, nth_error (h_procs h) pid = Some p /\ p_touches p = true
  end.
Proof.
  destruct e as [d|pid b|pid|pid]; cbn [host_step].
  - intros [= <-]. split; reflexivity.
  - destruct (nth_error (h_procs h) pid) as [p|]; [|discriminate]. intros G. exists p. auto.
  - destruct (nth_error (h_procs h) pid) as [p|]; [|discriminate]. intros G. exists p. split; [reflexivity|].
    destruct (p_pc p); try discriminate G; injection G as <-; (split; [discriminate|reflexivity]).
  - destruct (nth_error (h_procs h) pid) as [p|]; [|discriminate]. destruct (p_touches p) eqn:T; [|discriminate].
    intros [= <-]. split; [reflexivity|]. exists p. auto.
Qed.

(** A single process and its socket: all moves that [go] makes. *)
Lemma go_cases h pid p b h' : nth_error (h_procs h) pid = Some p -> go h pid p b = Some h' ->
  exists p', h_procs h' = list_set pid p' (h_procs h) /\ nth_error (h_procs h') pid = Some p'
    /\ p_detach p' = p_detach p
    /\ ((p_pc p = SCheck /\ h_sock h = NoFile /\ h_sock h' = h_sock h /\ p' = with_toucher p)
        \/ (p_pc p = SCheck /\ h_sock h <> NoFile /\ h_sock h' = h_sock h /\ p' = goto p SConnect)
        \/ (p_pc p = SConnect /\ (exists q, h_sock h = Listening q) /\ h_sock h' = h_sock h /\ p' = quit p 1)
        \/ (p_pc p = SConnect /\ (forall q, h_sock h <> Listening q) /\ h_sock h' = h_sock h /\ p' = goto p SRemove)
        \/ (p_pc p = SRemove /\ (h_sock h' = NoFile \/ h_sock h' = h_sock h) /\ p' = with_toucher p)
        \/ (p_pc p = SConf /\ h_sock h' = h_sock h /\ p' = goto p (if p_detach p then SDetach else SSetup))
        \/ (p_pc p = SDetach /\ h_sock h' = h_sock h /\ p' = detached p)
        \/ (p_pc p = SSetup /\ h_sock h' = h_sock h /\ p' = goto p SBind)
        \/ (In (p_pc p) [SConf; SDetach; SSetup; SBind] /\ h_sock h' = h_sock h /\ p' = quit p 1)
        \/ (p_pc p = SBind /\ h_sock h = NoFile /\ h_sock h' = Listening pid /\ p' = goto p SServe)).
Proof.
  intros N G. unfold go in G.
  assert (forall x, nth_error (list_set pid x (h_procs h)) pid = Some x) as SS by (intros x; eapply set_same; exact N).
  destruct (p_pc p) eqn:PC; try discriminate G.
  - injection G as <-. destruct (h_sock h) eqn:HS; eexists; cbn [h_procs h_sock set_proc];
      (split; [reflexivity|]); (split; [apply SS|]); (split; [reflexivity|]).
    + left. auto.
    + right. left. repeat split; auto. discriminate.
    + right. left. repeat split; auto. discriminate.
  - injection G as <-. destruct (h_sock h) eqn:HS; eexists; cbn [h_procs h_sock set_proc];
      (split; [reflexivity|]); (split; [apply SS|]); (split; [reflexivity|]).
    + do 3 right. left. repeat split; auto. discriminate.
    + do 2 right. left. repeat split; eauto.
    + do 3 right. left. repeat split; auto. discriminate.
  - injection G as <-. eexists; cbn [h_procs h_sock]; (split; [reflexivity|]); (split; [apply SS|]); (split; [reflexivity|]).
    do 4 right. left. destruct b; auto.
  - injection G as <-. destruct b; eexists; cbn [h_procs h_sock set_proc];
      (split; [reflexivity|]); (split; [apply SS|]); (split; [reflexivity|]).
    + do 5 right. left. auto.
    + do 8 right. left. cbn. auto.
  - injection G as <-. destruct b; eexists; cbn [h_procs h_sock set_proc];
      (split; [reflexivity|]); (split; [apply SS|]); (split; [reflexivity|]).
    + do 6 right. left. auto.
    + do 8 right. left. cbn. auto.
  - injection G as <-. destruct b; eexists; cbn [h_procs h_sock set_proc];
      (split; [reflexivity|]); (split; [apply SS|]); (split; [reflexivity|]).
    + do 7 right. left. auto.
    + do 8 right. left. cbn. auto.
  - destruct (h_sock h) eqn:HS; [destruct b|..]; injection G as <-; eexists; cbn [h_procs h_sock set_proc];
      (split; [reflexivity|]); (split; [apply SS|]); (split; [reflexivity|]).
    + do 9 right. auto.
    + do 8 right. left. cbn. auto 6.
    + do 8 right. left. cbn. auto 6.
    + do 8 right. left. cbn. auto 6.
Qed.

Lemma host_run_app es1 : forall h es2,
  host_run h (es1 ++ es2) = match host_run h es1 with Some h1 => host_run h1 es2 | None => None end.
Proof.
  induction es1 as [|e es1 IH]; intros h es2; [reflexivity|]. cbn [app host_run].
  destruct (host_step h e); [apply IH|reflexivity].
Qed.

Lemma host_ind (P : list event -> host -> Prop) s :
  P [] (fresh_host s) ->
  (forall es h e h', host_run (fresh_host s) es = Some h -> P es h -> host_step h e = Some h' -> P (es ++ [e]) h') ->
  forall es h, host_run (fresh_host s) es = Some h -> P es h.
Proof.
  intros B ST es. induction es as [|e es IH] using rev_ind; intros h R.
  - injection R as <-. exact B.
  - rewrite host_run_app in R. destruct (host_run (fresh_host s) es) as [h1|] eqn:R1; [|discriminate R].
    cbn [host_run] in R. destruct (host_step h1 e) as [h2|] eqn:S; [|discriminate R]. injection R as <-.
    exact (ST _ _ _ _ R1 (IH _ eq_refl) S).
Qed.

(** Where the processes are after a step. *)
Lemma at_start h d h' pid c :
  host_step h (EStart d) = Some h' -> is_at h' pid c -> is_at h pid c \/ c = SCheck.
Proof.
  intros S (p & N & <-). apply step_procs in S. destruct S as [_ E]. rewrite E in N.
  destruct (Nat.lt_ge_cases pid (List.length (h_procs h))) as [L|L].
  - rewrite nth_error_app1 in N by exact L. left. exists p. auto.
  - rewrite nth_error_app2 in N by exact L. destruct (pid - List.length (h_procs h))%nat as [|k]; cbn in N.
    + injection N as <-. right. reflexivity.
    + destruct k; discriminate N.
Qed.

Lemma at_set l pid x q c sk :
  is_at (mkHost sk (list_set pid x l)) q c ->
  (q = pid /\ c = p_pc x) \/ (q <> pid /\ is_at (mkHost sk l) q c).
Proof.
  intros (p & N & <-). cbn [h_procs] in N. destruct (Nat.eq_dec q pid) as [->|NE].
  - left. split; [reflexivity|]. destruct (nth_error l pid) as [y|] eqn:Y.
    + rewrite (set_same _ _ _ _ Y) in N. injection N as <-. reflexivity.
    + exfalso. assert (nth_error (list_set pid x l) pid = None) as Z.
      { clear -Y. revert pid Y. induction l as [|z l IH]; intros [|pid] Y; cbn in *; auto; discriminate Y. }
      congruence.
  - right. split; [exact NE|]. rewrite set_other in N by exact NE. exists p. auto.
Qed.

Lemma at_any s1 s2 l q c : is_at (mkHost s1 l) q c -> is_at (mkHost s2 l) q c.
Proof. intros X. exact X. Qed.

Lemma is_at_unique h pid c1 c2 : is_at h pid c1 -> is_at h pid c2 -> c1 = c2.
Proof. intros (p1 & N1 & <-) (p2 & N2 & <-). congruence. Qed.

Definition later (c : ppc) : Prop := In c [SRemove; SConf; SDetach; SSetup; SBind].

Definition sock_inv (h : host) : Prop :=
  (forall pid, serves h pid -> h_sock h = Listening pid)
  /\ (forall pid c, is_at h pid c -> later c -> forall q, ~ serves h q)
  /\ (forall pid, h_sock h = Listening pid -> serves h pid).

Lemma sock_inv_step h e h' :
  sock_inv h -> (forall i j, starting h i -> starting h j -> i = j) -> host_step h e = Some h' -> sock_inv h'.
Proof.
  intros (I1 & I2 & I3) SO S. pose proof (step_procs _ _ _ S) as SP. destruct e as [d|pid b|pid|pid].
  - destruct SP as [SK _].
    assert (forall q c, is_at h' q c -> is_at h q c \/ c = SCheck) as AT by (intros q c; exact (at_start _ _ _ _ _ S)).
    assert (forall q, serves h' q -> serves h q) as SV.
    { intros q Q. destruct (AT _ _ Q) as [X|X]; [exact X|discriminate X]. }
    split; [|split].
    + intros q Q. rewrite SK. apply I1. exact (SV _ Q).
    + intros q c A L r Q. destruct (AT _ _ A) as [X|X]; [exact (I2 _ _ X L r (SV _ Q))|].
      subst c. unfold later in L. cbn in L. intuition discriminate.
    + intros q Q. rewrite SK in Q. destruct (I3 _ Q) as (p & N & PC). exists p. split; [|exact PC].
      apply step_procs in S. destruct S as [_ ->]. rewrite nth_error_app1; [exact N|]. apply nth_error_Some. congruence.
  - destruct SP as (p & N & G). destruct (go_cases _ _ _ _ _ N G) as (p' & PS & N' & _ & CA).
    assert (is_at h pid (p_pc p)) as AP by (exists p; auto).
    assert (forall q c, is_at h' q c -> (q = pid /\ c = p_pc p') \/ (q <> pid /\ is_at h q c)) as AT.
    { intros q c A. destruct h' as [sk ps]. cbn in PS. subst ps. apply at_set in A. exact A. }
    assert (forall q, q <> pid -> serves h q -> serves h' q) as KEEP.
    { intros q NE (x & NX & PX). exists x. split; [|exact PX]. rewrite PS, set_other by exact NE. exact NX. }
    assert (forall c r, r <> pid -> is_at h r c -> later c -> (In (p_pc p) [SConnect; SRemove; SConf; SDetach; SSetup; SBind]) -> False) as ONE.
    { intros c r NE A L IN. apply NE. apply SO.
      - exists c. split; [exact A|]. right. exact L.
      - exists (p_pc p). split; [exact AP|exact IN]. }
    assert (p_pc p <> SServe) as NS.
    { destruct CA as [C|[C|[C|[C|[C|[C|[C|[C|[C|C]]]]]]]]]; destruct C as [C _]; try (rewrite C; discriminate).
      cbn in C. intros X. rewrite X in C. intuition discriminate. }
    assert (forall q, h_sock h = Listening q -> q <> pid) as NL.
    { intros q Q ->. apply NS. exact (is_at_unique _ _ _ _ AP (I3 _ Q)). }
    (* a step after which the process neither serves nor is past the check *)
    assert (p_pc p' <> SServe -> ~ later (p_pc p') -> h_sock h' = h_sock h -> sock_inv h') as K1.
    { intros D1 D2 SK. split; [|split].
      - intros q Q. rewrite SK. destruct (AT _ _ Q) as [[_ X]|[_ X]]; [congruence|]. exact (I1 _ X).
      - intros q c A L r Q. destruct (AT _ _ Q) as [[_ X]|[_ X]]; [congruence|].
        destruct (AT _ _ A) as [[_ Y]|[_ Y]]; [subst c; contradiction|]. exact (I2 _ _ Y L _ X).
      - intros q Q. rewrite SK in Q. exact (KEEP _ (NL _ Q) (I3 _ Q)). }
    (* a step of the only process that is past the check *)
    assert (p_pc p' <> SServe -> (forall q, ~ serves h q) -> (h_sock h' = NoFile \/ h_sock h' = h_sock h) -> sock_inv h') as K2.
    { intros D1 NSV SK.
      assert (forall q, ~ serves h' q) as NSV'.
      { intros q Q. destruct (AT _ _ Q) as [[_ X]|[_ X]]; [congruence|]. exact (NSV _ X). }
      split; [|split].
      - intros q Q. exfalso. exact (NSV' _ Q).
      - intros q c _ _ r Q. exact (NSV' _ Q).
      - intros q Q. destruct SK as [SK|SK]; rewrite SK in Q; [discriminate Q|]. exfalso. exact (NSV _ (I3 _ Q)). }
    destruct CA as [(C & NF & SK & ->)|[(C & NF & SK & ->)|[(C & LI & SK & ->)|[(C & LI & SK & ->)|[(C & SK & ->)
      |[(C & SK & ->)|[(C & SK & ->)|[(C & SK & ->)|[(C & SK & ->)|(C & NF & SK & ->)]]]]]]]]].
    + apply K2; [discriminate| |right; exact SK]. intros q Q. apply I1 in Q. congruence.
    + apply K1; [discriminate| |exact SK]. cbn. intuition discriminate.
    + apply K1; [discriminate| |exact SK]. cbn. intuition discriminate.
    + apply K2; [discriminate| |right; exact SK]. intros q Q. apply I1 in Q. exact (LI _ Q).
    + apply K2; [discriminate| |exact SK]. apply (I2 _ _ AP). rewrite C. cbn. auto.
    + apply K2; [|apply (I2 _ _ AP); rewrite C; cbn; auto|right; exact SK]. cbn. destruct (p_detach p); discriminate.
    + apply K2; [discriminate|apply (I2 _ _ AP); rewrite C; cbn; auto|right; exact SK].
    + apply K2; [discriminate|apply (I2 _ _ AP); rewrite C; cbn; auto|right; exact SK].
    + apply K1; [discriminate| |exact SK]. cbn. intuition discriminate.
    + assert (forall q, ~ serves h q) as NSV by (apply (I2 _ _ AP); rewrite C; cbn; auto 8).
      split; [|split].
      * intros q Q. destruct (AT _ _ Q) as [[-> _]|[_ X]]; [exact SK|]. exfalso. exact (NSV _ X).
      * intros q c A L r _. destruct (AT _ _ A) as [[_ Y]|[NE Y]].
        -- subst c. cbn in L. intuition discriminate.
        -- eapply (ONE c q NE Y L). rewrite C. cbn. auto 8.
      * intros q Q. rewrite SK in Q. injection Q as <-. exists (goto p SServe). split; [exact N'|reflexivity].
  - destruct SP as (p & N & NE & ->).
    assert (forall q c, is_at (mkHost (abandoned (h_sock h) pid) (list_set pid (quit p 143) (h_procs h))) q c ->
              (q = pid /\ c = SEnd) \/ (q <> pid /\ is_at h q c)) as AT.
    { intros q c A. apply at_set in A. destruct A as [[-> ->]|[X Y]]; [left; auto|right; auto]. }
    split; [|split].
    + intros q Q. destruct (AT _ _ Q) as [[_ X]|[NQ X]]; [discriminate X|]. cbn [h_sock]. rewrite (I1 _ X). cbn [abandoned].
      destruct (Nat.eqb_spec q pid); [contradiction|reflexivity].
    + intros q c A L r Q. destruct (AT _ _ Q) as [[_ X]|[NQ X]]; [discriminate X|].
      destruct (AT _ _ A) as [[_ Y]|[NA Y]]; [subst c; cbn in L; intuition discriminate|]. exact (I2 _ _ Y L _ X).
    + intros q Q. cbn [h_sock] in Q. assert (q <> pid /\ h_sock h = Listening q) as [NQ HS].
      { destruct (h_sock h) as [|x|]; cbn [abandoned] in Q; try discriminate Q.
        destruct (Nat.eqb_spec x pid) as [->|NX]; [discriminate Q|]. injection Q as ->. auto. }
      destruct (I3 _ HS) as (x & NX & PX). exists x. split; [|exact PX]. cbn [h_procs]. rewrite set_other by exact NQ. exact NX.
  - destruct SP as [-> _]. split; [exact I1|]. split; [exact I2|exact I3].
Qed.

Lemma sock_inv_run s es h :
  leftover s -> one_at_a_time s es -> host_run (fresh_host s) es = Some h -> sock_inv h.
Proof.
  intros LO OT R. revert OT. revert es h R.
  apply (host_ind (fun es h => one_at_a_time s es -> sock_inv h)).
  - intros _. split; [|split].
    + intros pid (p & N & _). destruct pid; discriminate N.
    + intros pid c (p & N & _). destruct pid; discriminate N.
    + intros pid Q. exfalso. exact (LO _ Q).
  - intros es h e h' R IH S OT. eapply sock_inv_step; [apply IH| |exact S].
    + intros es1 es2 h1 i j -> R1. apply (OT es1 (es2 ++ [e])); [rewrite app_assoc; reflexivity|exact R1].
    + intros i j. apply (OT es [e]); [reflexivity|exact R].
Qed.

(** Servers started one after the other: each one that serves can be reached,
    hence there is at most one. *)
Lemma served_reached s es h pid :
  leftover s -> one_at_a_time s es -> host_run (fresh_host s) es = Some h ->
  (serves h pid <-> reaches h pid).
Proof. intros LO OT R. destruct (sock_inv_run _ _ _ LO OT R) as (I1 & _ & I3). split; [apply I1|apply I3]. Qed.

Lemma one_server s es h i j :
  leftover s -> one_at_a_time s es -> host_run (fresh_host s) es = Some h -> serves h i -> serves h j -> i = j.
Proof.
  intros LO OT R A B. apply (served_reached _ _ _ _ LO OT R) in A, B. unfold reaches in *. congruence.
Qed.

(** * Refusing and restarting *)

Lemma second_refused h pid q b1 b2 :
  is_at h pid SCheck -> reaches h q ->
  exists h1 h2, host_step h (EGo pid b1) = Some h1 /\ host_step h1 (EGo pid b2) = Some h2
    /\ is_at h2 pid SEnd /\ reaches h2 q
    /\ (forall r, r <> pid -> nth_error (h_procs h2) r = nth_error (h_procs h) r)
    /\ (forall p, nth_error (h_procs h) pid = Some p -> p_status p = None -> status_of h2 pid 1).
Proof.
  intros (p & N & PC) RE. unfold reaches in RE.
  set (p1 := goto p SConnect). set (h1 := set_proc h pid p1).
  assert (host_step h (EGo pid b1) = Some h1) as S1.
  { cbn [host_step]. rewrite N. unfold go. rewrite PC, RE. reflexivity. }
  assert (nth_error (h_procs h1) pid = Some p1) as N1 by (eapply set_same; exact N).
  set (h2 := set_proc h1 pid (quit p1 1)).
  assert (host_step h1 (EGo pid b2) = Some h2) as S2.
  { cbn [host_step]. rewrite N1. unfold go, p1 at 1. cbn [goto p_pc]. unfold h1 at 2. cbn [set_proc h_sock]. rewrite RE. reflexivity. }
  assert (nth_error (h_procs h2) pid = Some (quit p1 1)) as N2 by (eapply set_same; exact N1).
  exists h1, h2. split; [exact S1|]. split; [exact S2|]. split; [exists (quit p1 1); split; [exact N2|reflexivity]|].
  split; [exact RE|]. split.
  - intros r NE. unfold h2, h1, set_proc. cbn [h_procs]. rewrite !set_other by exact NE. reflexivity.
  - intros p0 N0 ST. exists (quit p1 1). split; [exact N2|]. rewrite N in N0. injection N0 as <-. cbn. rewrite ST. reflexivity.
Qed.

(** A socket file nobody listens to does not keep a server from starting. *)
Lemma set_last {A} (l : list A) x y : list_set (List.length l) x (l ++ [y]) = l ++ [x].
Proof. induction l as [|z l IH]; [reflexivity|]. cbn. rewrite IH. reflexivity. Qed.

Lemma nth_last {A} (l : list A) y : nth_error (l ++ [y]) (List.length l) = Some y.
Proof. rewrite nth_error_app2 by lia. rewrite Nat.sub_diag. reflexivity. Qed.

Lemma step_last sk l p h' :
  go (mkHost sk (l ++ [p])) (List.length l) p true = Some h' ->
  host_step (mkHost sk (l ++ [p])) (EGo (List.length l) true) = Some h'.
Proof. intros G. cbn [host_step h_procs]. rewrite nth_last. exact G. Qed.

Lemma from_conf d st tc l :
  exists n p, host_run (mkHost NoFile (l ++ [mkProcess d SConf st tc])) (repeat (EGo (List.length l) true) n)
    = Some (mkHost (Listening (List.length l)) (l ++ [p])) /\ p_pc p = SServe.
Proof.
  destruct d.
  - exists 4%nat. eexists. split.
    + cbn [repeat host_run]. erewrite step_last by (cbn; reflexivity). unfold set_proc. cbn [h_sock h_procs]. rewrite set_last.
      erewrite step_last by (cbn; reflexivity). unfold set_proc. cbn [h_sock h_procs]. rewrite set_last.
      erewrite step_last by (cbn; reflexivity). unfold set_proc. cbn [h_sock h_procs]. rewrite set_last.
      erewrite step_last by (cbn; reflexivity). cbn [h_sock h_procs]. rewrite set_last. reflexivity.
    + reflexivity.
  - exists 3%nat. eexists. split.
    + cbn [repeat host_run]. erewrite step_last by (cbn; reflexivity). unfold set_proc. cbn [h_sock h_procs]. rewrite set_last.
      erewrite step_last by (cbn; reflexivity). unfold set_proc. cbn [h_sock h_procs]. rewrite set_last.
      erewrite step_last by (cbn; reflexivity). cbn [h_sock h_procs]. rewrite set_last. reflexivity.
    + reflexivity.
Qed.

Lemma restarts h d :
  (forall q, ~ reaches h q) ->
  exists n h', host_run h (EStart d :: repeat (EGo (List.length (h_procs h)) true) n) = Some h'
    /\ serves h' (List.length (h_procs h)) /\ reaches h' (List.length (h_procs h))
    /\ forall r, (r < List.length (h_procs h))%nat -> nth_error (h_procs h') r = nth_error (h_procs h) r.
Proof.
  intros NR. destruct h as [sk l]. cbn [h_procs].
  assert (exists n d' st tc,
            host_run (mkHost sk l) (EStart d :: repeat (EGo (List.length l) true) n)
            = Some (mkHost NoFile (l ++ [mkProcess d' SConf st tc]))) as (n1 & d' & st & tc & R1).
  { destruct sk as [|q|].
    - exists 1%nat. do 3 eexists. cbn [repeat host_run host_step h_sock h_procs]. rewrite nth_last. unfold go. cbn [p_pc h_sock].
      unfold set_proc. cbn [h_procs h_sock]. rewrite set_last. unfold with_toucher. cbn. reflexivity.
    - exfalso. exact (NR q eq_refl).
    - exists 3%nat. do 3 eexists. change (EStart d :: ?x) with ([EStart d] ++ x). cbn [repeat app]. cbn [host_run].
      change (host_step (mkHost Unattended l) (EStart d)) with (Some (mkHost Unattended (l ++ [mkProcess d SCheck None false]))). cbv beta iota.
      erewrite step_last by (cbn; reflexivity). unfold set_proc. cbn [h_sock h_procs]. rewrite set_last.
      erewrite step_last by (cbn; reflexivity). unfold set_proc. cbn [h_sock h_procs]. rewrite set_last.
      erewrite step_last by (cbn; reflexivity). cbn [h_sock h_procs]. rewrite set_last. unfold with_toucher. cbn. reflexivity. }
  destruct (from_conf d' st tc l) as (n2 & p & R2 & PC).
  exists (n1 + n2)%nat, (mkHost (Listening (List.length l)) (l ++ [p])). split.
  - rewrite repeat_app. change (EStart d :: ?x ++ ?y) with ((EStart d :: x) ++ y). rewrite host_run_app, R1. exact R2.
  - split; [exists p; split; [apply nth_last|exact PC]|]. split; [reflexivity|].
    intros r L. cbn [h_procs]. apply nth_error_app1. exact L.
Qed.

(** * Exit statuses *)

(** What a process has become. *)
Definition p_inv (p : process) : Prop :=
  (p_status p = Some 0 -> p_detach p = true)
  /\ (forall s, p_status p = Some s -> s <> 0 -> p_pc p = SEnd)
  /\ (p_pc p = SServe -> p_touches p = negb (p_detach p))
  /\ (In (p_pc p) [SSetup; SBind] -> p_touches p = negb (p_detach p))
  /\ (In (p_pc p) [SConf; SDetach] -> p_touches p = true)
  /\ (p_pc p = SDetach -> p_detach p = true)
  /\ (p_pc p = SServe -> p_detach p = true -> p_status p = Some 0)
  /\ (In (p_pc p) [SSetup; SBind] -> p_detach p = true -> p_status p = Some 0)
  /\ (In (p_pc p) [SCheck; SConnect; SRemove; SConf; SDetach] -> p_status p = None)
  /\ (In (p_pc p) [SSetup; SBind; SServe] -> p_detach p = false -> p_status p = None)
  /\ (In (p_pc p) [SCheck; SConnect; SRemove; SEnd] -> p_touches p = false).

Lemma quit_inv p s : s <> 0 -> p_inv p -> p_inv (quit p s).
Proof.
  intros NZ (A1 & A2 & _). unfold p_inv, quit. cbn [p_status p_detach p_pc p_touches].
  repeat split; try discriminate; try (cbn; intuition discriminate).
  destruct (p_status p) as [t|]; [exact A1|]. intros [= X]. contradiction.
Qed.

Lemma p_inv_step h pid p b h' p' :
  nth_error (h_procs h) pid = Some p -> go h pid p b = Some h' -> nth_error (h_procs h') pid = Some p' ->
  p_inv p -> p_inv p'.
Proof.
  intros N G N' IP. destruct (go_cases _ _ _ _ _ N G) as (p0 & _ & N0 & _ & CA). rewrite N0 in N'. injection N' as <-.
  pose proof IP as (A1 & A2 & A3 & A4 & A5 & A6 & A7 & A8 & A9 & A10 & A11). destruct p as [d c st tc]. cbn [p_status p_detach p_pc p_touches] in *.
  destruct CA as [(C & NF & SK & ->)|[(C & NF & SK & ->)|[(C & LI & SK & ->)|[(C & LI & SK & ->)|[(C & SK & ->)
      |[(C & SK & ->)|[(C & SK & ->)|[(C & SK & ->)|[(C & SK & ->)|(C & NF & SK & ->)]]]]]]]]];
    try (apply quit_inv; [discriminate|exact IP]); subst c;
    unfold p_inv, with_toucher, goto, detached; cbn [p_status p_detach p_pc p_touches].
  - rewrite A9 by (cbn; auto). repeat split; try discriminate; try (cbn; intuition discriminate); intros _; apply A11; cbn; auto.
  - rewrite A9 by (cbn; auto). repeat split; try discriminate; try (cbn; intuition discriminate); intros _; apply A11; cbn; auto.
  - rewrite A9 by (cbn; auto). repeat split; try discriminate; try (cbn; intuition discriminate); intros _; apply A11; cbn; auto.
  - rewrite A9 by (cbn; auto). repeat split; try discriminate; try (cbn; intuition discriminate); intros _; apply A11; cbn; auto.
  - rewrite A9, A5 by (cbn; auto 6). destruct d; repeat split; try discriminate; try (cbn; intuition discriminate).
  - rewrite A6 by reflexivity. repeat split; try discriminate; try (cbn; intuition discriminate).
    intros s [= <-] X. contradiction.
  - rewrite A4 by (cbn; auto). repeat split; try discriminate; try (cbn; intuition discriminate); auto.
    + intros s X Y. discriminate (A2 s X Y).
    + intros _. apply A8. cbn. auto.
    + intros _. apply A10. cbn. auto.
  - rewrite A4 by (cbn; auto). repeat split; try discriminate; try (cbn; intuition discriminate); auto.
    + intros s X Y. discriminate (A2 s X Y).
    + intros _. apply A8. cbn. auto.
    + intros _. apply A10. cbn. auto.
Qed.

Lemma p_inv_run s es h pid p :
  host_run (fresh_host s) es = Some h -> nth_error (h_procs h) pid = Some p -> p_inv p.
Proof.
  intros R. revert pid p. revert es h R. apply (host_ind (fun es h => forall pid p, nth_error (h_procs h) pid = Some p -> p_inv p)).
  - intros [|pid] p N; discriminate N.
  - intros es h e h' R IH S pid p N. pose proof (step_procs _ _ _ S) as SP. destruct e as [d|q b|q|q].
    + destruct SP as [_ E]. rewrite E in N.
      destruct (Nat.lt_ge_cases pid (List.length (h_procs h))) as [L|L].
      * rewrite nth_error_app1 in N by exact L. exact (IH _ _ N).
      * rewrite nth_error_app2 in N by exact L. destruct (pid - List.length (h_procs h))%nat as [|k]; cbn in N.
        -- injection N as <-. unfold p_inv. cbn. repeat split; try discriminate; try (intuition discriminate).
        -- destruct k; discriminate N.
    + destruct SP as (x & NX & G). destruct (Nat.eq_dec pid q) as [->|NE].
      * exact (p_inv_step _ _ _ _ _ _ NX G N (IH _ _ NX)).
      * destruct (go_cases _ _ _ _ _ NX G) as (x' & PS & _). rewrite PS, set_other in N by exact NE. exact (IH _ _ N).
    + destruct SP as (x & NX & _ & ->). cbn [h_procs] in N. destruct (Nat.eq_dec pid q) as [->|NE].
      * rewrite (set_same _ _ _ _ NX) in N. injection N as <-. apply quit_inv; [discriminate|]. exact (IH _ _ NX).
      * rewrite set_other in N by exact NE. exact (IH _ _ N).
    + destruct SP as [-> _]. exact (IH _ _ N).
Qed.

(** A process that has ended stays so. *)
Lemma ended_stays es : forall h h' pid, host_run h es = Some h' -> is_at h pid SEnd -> is_at h' pid SEnd.
Proof.
  induction es as [|e es IH]; intros h h' pid R A; cbn [host_run] in R; [injection R as <-; exact A|].
  destruct (host_step h e) as [h1|] eqn:S; [|discriminate R]. apply (IH h1 _ _ R). clear IH R.
  destruct A as (p & N & PC). pose proof (step_procs _ _ _ S) as SP. destruct e as [d|q b|q|q].
  - destruct SP as [_ E]. exists p. split; [|exact PC]. rewrite E. rewrite nth_error_app1; [exact N|]. apply nth_error_Some. congruence.
  - destruct SP as (x & NX & G). destruct (go_cases _ _ _ _ _ NX G) as (x' & PS & _ & _ & CA).
    assert (pid <> q) as NE.
    { intros ->. rewrite N in NX. injection NX as <-. unfold go in G. rewrite PC in G. discriminate G. }
    exists p. split; [|exact PC]. rewrite PS, set_other by exact NE. exact N.
  - destruct SP as (x & NX & NE & ->). assert (pid <> q) as NQ by (intros ->; congruence).
    exists p. split; [|exact PC]. cbn [h_procs]. rewrite set_other by exact NQ. exact N.
  - destruct SP as [-> _]. exists p. auto.
Qed.

(** A status other than 0 means that the server does not and will not run. *)
Lemma failure_reported s es h pid st es' h' :
  host_run (fresh_host s) es = Some h -> status_of h pid st -> st <> 0 ->
  host_run h es' = Some h' -> ~ serves h' pid.
Proof.
  intros R (p & N & ST) NZ R' SV.
  destruct (p_inv_run _ _ _ _ _ R N) as (_ & A2 & _).
  assert (is_at h pid SEnd) as AE by (exists p; split; [exact N|exact (A2 _ ST NZ)]).
  pose proof (ended_stays _ _ _ _ R' AE) as AE'. pose proof (is_at_unique _ _ _ _ SV AE') as X. discriminate X.
Qed.

(** Status 0 is only seen by whoever let the server detach itself, and always
    seen if it serves. *)
Lemma success_reported s es h pid :
  host_run (fresh_host s) es = Some h ->
  (status_of h pid 0 -> started_with h pid true)
  /\ (serves h pid -> started_with h pid true -> status_of h pid 0).
Proof.
  intros R. split.
  - intros (p & N & ST). destruct (p_inv_run _ _ _ _ _ R N) as (A1 & _). exists p. auto.
  - intros (p & N & PC) (p1 & N1 & D). rewrite N in N1. injection N1 as <-.
    destruct (p_inv_run _ _ _ _ _ R N) as (_ & _ & _ & _ & _ & _ & A7 & _). exists p. auto.
Qed.

(** * Time stamps *)

Lemma touched s es h pid d :
  host_run (fresh_host s) es = Some h -> serves h pid -> started_with h pid d ->
  (host_step h (ETouch pid) <> None <-> d = false).
Proof.
  intros R (p & N & PC) (p1 & N1 & <-). rewrite N in N1. injection N1 as <-.
  destruct (p_inv_run _ _ _ _ _ R N) as (_ & _ & A3 & _). specialize (A3 PC).
  cbn [host_step]. rewrite N, A3. destruct (p_detach p); cbn [negb]; split; try discriminate; try reflexivity.
  intros X. exfalso. apply X. reflexivity.
Qed.

(** Only a server that has looked round and has not ended renews them. *)
Lemma touches_living s es h pid :
  host_run (fresh_host s) es = Some h -> host_step h (ETouch pid) <> None ->
  exists c, is_at h pid c /\ In c [SConf; SDetach; SSetup; SBind; SServe].
Proof.
  intros R T. cbn [host_step] in T. destruct (nth_error (h_procs h) pid) as [p|] eqn:N; [|contradiction].
  destruct (p_touches p) eqn:E; [|contradiction]. exists (p_pc p). split; [exists p; auto|].
  destruct (p_inv_run _ _ _ _ _ R N) as (_ & _ & _ & _ & _ & _ & _ & _ & _ & _ & A11).
  destruct (p_pc p); cbn; auto 6; exfalso; rewrite A11 in E by (cbn; auto 6); discriminate E.
Qed.

Lemma detached_untouched s es h pid :
  host_run (fresh_host s) es = Some h -> serves h pid -> started_with h pid true -> host_step h (ETouch pid) = None.
Proof.
  intros R S W. destruct (host_step h (ETouch pid)) eqn:E; [|reflexivity].
  assert (true = false) as X; [|discriminate X]. apply (touched _ _ _ _ _ R S W). rewrite E. discriminate.
Qed.

Lemma each_v_louder v : (v < 4)%nat -> (loudness (log_level v) < loudness (log_level (S v)))%nat.
Proof. intros L. do 4 (destruct v as [|v]; [cbn; lia|]). lia. Qed.
