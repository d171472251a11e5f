(** When nothing dawdles browsers are served in time. *)
From Verif Require Import Base BaseLemmas Time Utf8 Base64 Url Json Oracles Config Dump State Http Timers Server
  StateLemmas ConfigLemmas Steps Inv Reach Own SpecServer SpecTimers SpecSessions SpecFair SpecTimed SpecReturn Trace Remind
  Wake Basic Decide Pend Life Refresh Sched Sessions Counters Fair Complete Exchange TimedNotify.
Local Open Scope Z_scope.

(** What is left to do takes no longer than this. *)
Fixpoint cost (d p : Z) (q : pc) : Z :=
  match q with
  | PDo _ k => d + cost d p k
  | PHttpNotify _ _ _ => d
  | PHttpFail _ _ => 2 * d
  | PHttpBody _ _ => 4 * d
  | PHttpPost _ _ _ tries => Z.of_nat (S (pred tries)) * p + 4 * d
  | PHttpStart _ _ => 6 * d + 10 * p
  | _ => 0
  end.

Lemma cost_goes_down O w e q q' os d p b :
  0 <= d -> 0 <= p -> conn_pc q -> moves O w e q q' os -> browser_limit d p q = Some b \/ (exists a k, q = PDo a k) /\ b = d ->
  b + cost d p q' <= cost d p q.
Proof.
  intros D P CP MV LI. destruct MV as [q lk' q' os C|a k].
  - destruct LI as [LI|[(a & k & ->) _]]; [|inversion C].
    destruct C; try contradiction; cbn [browser_limit] in LI; injection LI as <-; unfold respond, push_event; cbn [cost]; try lia.
    + change (Z.of_nat (S (Init.Nat.pred retry_post))) with 10. lia.
    + destruct (e_post e) as [body|m|code body|t m]; cbn [http_post_next cost]; try nia.
      destruct tries as [|[|x]]; cbn [cost]; try nia.
    + cbn [conn_pc] in CP. subst wa. cbn [cost]. lia.
    + cbn [conn_pc] in CP. subst wa. cbn [cost]. lia.
  - destruct LI as [LI|[_ ->]]; [discriminate LI|]. cbn [cost]. lia.
Qed.

Lemma body_step O w tid i e body v tok exs n ts act :
  reachable O w -> w_alive w = true -> nth_error (w_threads w) tid = Some (PHttpBody i body) ->
  o_json O body = inl v -> grants v tok exs -> In (mkEntry n i ts) (details (w_lk w)) -> configured w n act ->
  (env_now e + exs * 1000000000 <= time_max)%Z ->
  exists lk' p', step O w (LTick tid e) = SNext (set_thread (set_lk w lk') tid p')
    /\ becomes w lk' n (TSActive (mkActive tok (env_now e) (env_now e + exs * 1000000000) (json_str $"refresh_token" v) false 0 None)).
Proof.
  intros R A N J (JE & JA & JT & JX) H CF B.
  pose proof (reach_inv _ _ R) as I. pose proof (inv_wf _ _ I) as W.
  rewrite (Refresh.step_at _ _ _ _ _ A N). cbn [step_thread]. unfold http_body.
  assert (is_act_id_valid (w_lk w) i = true) as V by apply (is_valid w _ H). rewrite J, V, JE, JT, JX, JA.
  rewrite (proj2 (str_eqb_eq _ _) eq_refl).
  pose proof (ct_account_in _ _ act W H CF) as CA. cbn [d_id] in CA.
  pose proof (fun ts => tokenstate_replace_in _ _ ts W H) as TR. cbn [d_id] in TR.
  pose proof (fun ts => bump_becomes w 0 _ ts W H) as BB. cbn [d_id d_name] in BB.
  unfold expiry_instant, from_secs, checked_add, nanos. rewrite (proj2 (Z.leb_le _ _) B). cbn [bind].
  rewrite TR. cbn [bind]. rewrite CA. cbn [bind run_cs]. rewrite emit_nil. eexists _, _. split; [reflexivity|apply BB].
Qed.

Section Return.
Variable O : oracles.
Variable ws : nat -> world.
Variable ls : nat -> option label.
Variable tau : nat -> Z.
Variable d p : Z.
Hypothesis BR : browsing O ws ls tau d p.
Hypothesis D0 : 0 <= d.
Hypothesis P0 : 0 <= p.

Let EN : endless O ws ls := br_endless _ _ _ _ _ _ BR.
Notation at_ := (Fair.at_ ws).
Notation reach k := (Fair.reach_at O ws ls EN k).

Lemma later k j : (k <= j)%nat -> tau k <= tau j.
Proof.
  induction 1 as [|j L IH]; [lia|]. pose proof (br_forward _ _ _ _ _ _ BR j). lia.
Qed.

Lemma at_between tid q k g i :
  at_ k tid q -> (forall x, (k <= x)%nat -> (x < g)%nat -> ~ goes ls x tid) -> (k <= i)%nat -> (i <= g)%nat -> at_ i tid q.
Proof.
  intros A F L1 L2. replace i with (k + (i - k))%nat by lia. eapply at_stays; [exact EN|exact A|].
  intros x X1 X2. apply F; lia.
Qed.

(** How long a browser's thread stays at a point. *)
Definition allows (q : pc) (b : Z) : Prop := browser_limit d p q = Some b \/ (exists a k, q = PDo a k) /\ b = d.

Lemma allows_do a q : allows (PDo a q) d.
Proof. right. eauto. Qed.

Lemma worker_above k tid q : at_ k tid q -> pc_role q = RoWorker -> (4 <= tid)%nat.
Proof.
  intros A RW. pose proof (ro_pc _ (reach_roles _ _ (reach k)) _ _ A) as RO. rewrite RW in RO.
  destruct tid as [|[|[|[|n]]]]; try discriminate RO. lia.
Qed.

Lemma stay tid q b k j :
  allows q b -> conn_pc q -> at_ k tid q -> (k <= j)%nat ->
  tau (S j) <= tau k + b
  \/ exists g e, (k <= g)%nat /\ (g < j)%nat /\ at_ g tid q /\ step O (ws g) (LTick tid e) = SNext (ws (S g))
       /\ ls g = Some (LTick tid e)
       /\ tau (S g) <= tau k + b /\ (forall x, (k <= x)%nat -> (x < g)%nat -> ~ goes ls x tid).
Proof.
  intros AL CP A L.
  assert (brief tau (fun i => nth_error (w_threads (ws i)) tid = Some q) b) as BF.
  { destruct AL as [LI|[(a & k0 & ->) ->]]; [apply (br_point _ _ _ _ _ _ BR tid q b LI)|].
    apply (br_action _ _ _ _ _ _ BR). eapply worker_above; [exact A|]. apply conn_worker. exact CP. }
  destruct (first_step ls k tid (j - k)) as [NG|(g & L1 & L2 & G & F)].
  - left. apply (BF k j L). intros i I1 I2.
    apply (at_between tid q k j i A); [|exact I1|exact I2]. intros x X1 X2. apply NG; lia.
  - right. destruct (step_at _ _ _ EN _ _ G) as (e & S & LS). exists g, e.
    split; [exact L1|]. split; [lia|]. split; [apply (at_between tid q k g g A F); lia|]. split; [exact S|].
    split; [exact LS|]. split; [|exact F].
    apply (BF k g L1). intros i I1 I2. apply (at_between tid q k g i A F I1 I2).
Qed.

Lemma conn_allows q : conn_pc q -> q = PDone \/ exists b, allows q b.
Proof.
  unfold allows. destruct q; intros C; try contradiction; auto; right; try (eexists; left; reflexivity).
  eexists. right. eauto.
Qed.

Lemma done_stays k j tid : at_ k tid PDone -> (k <= j)%nat -> at_ j tid PDone.
Proof.
  induction 2 as [|j L IH]; [assumption|]. apply (at_next O ws ls EN _ _ _ IH). intros G.
  destruct (step_at _ _ _ EN _ _ G) as (e & S & _).
  destruct (own_step _ _ _ _ _ _ (reach j) IH S) as [(lk' & p' & os & C & _)|SY]; [inversion C|inversion SY].
Qed.

(** Every browser's thread comes to its end. *)
Lemma conn_over n : forall k j tid q, (left q <= n)%nat -> at_ k tid q -> conn_pc q -> (k <= j)%nat ->
  tau k + cost d p q < tau (S j) -> at_ j tid PDone.
Proof.
  induction n as [|n IH]; intros k j tid q LN A CP L T;
    destruct (conn_allows q CP) as [->|[b AL]]; try (apply (done_stays k); assumption).
  - exfalso. destruct q; try contradiction; cbn in LN; try lia. destruct AL as [E|[(a & q & E) _]]; discriminate E.
  - assert (0 <= cost d p q - b) as CB.
    { destruct AL as [E|[(a & k0 & ->) ->]].
      - destruct q; try contradiction; cbn [browser_limit] in E; try discriminate E; injection E as <-; cbn [cost]; try lia; nia.
      - cbn [cost]. enough (forall q, 0 <= cost d p q) as X by (specialize (X k0); lia).
        clear -D0 P0. intros q; induction q; cbn [cost]; try lia; nia. }
    destruct (stay tid q b k j AL CP A L) as [B|(g & e & L1 & L2 & AG & S & _ & B & _)]; [lia|].
    destruct (worker_step _ _ _ _ _ _ (reach g) AG (conn_worker _ CP) S) as (q' & os & MV & A' & _).
    assert (pc_ok (w_lk (ws g)) q) as PO.
    { eapply (proj1 (Forall_forall _ _) (inv_threads _ _ (reach_inv _ _ (reach g)))). eapply nth_error_In. exact AG. }
    destruct (csr_conn _ _ _ _ _ _ (reach g) PO CP MV) as [CP' _].
    pose proof (cost_goes_down _ _ _ _ _ _ d p b D0 P0 CP MV AL) as CD.
    pose proof (moves_left _ _ _ _ _ _ MV (conn_worker _ CP)) as ML.
    apply (IH (Datatypes.S g) j tid q'); [lia|exact A'|exact CP'|lia|lia].
Qed.

Lemma browser_served k j tid https bytes :
  nth_error (w_threads (ws k)) tid = Some (PHttpStart https bytes) -> (k <= j)%nat ->
  tau k + 6 * d + 10 * p < tau (S j) -> over (ws j) tid.
Proof.
  intros A L T. apply (conn_over _ k j tid (PHttpStart https bytes) (le_n _) A); [exact Logic.I|exact L|].
  cbn [cost]. lia.
Qed.

(** The answer comes first. *)
Lemma browser_answered k j tid https bytes :
  nth_error (w_threads (ws k)) tid = Some (PHttpStart https bytes) -> (k <= j)%nat ->
  tau k + 2 * d < tau (S j) -> exists x r, (k <= x)%nat /\ (x < j)%nat /\ goes ls x tid /\ observed ws x = [OHttpResp r].
Proof.
  intros A L T.
  destruct (stay tid _ d k j (or_introl eq_refl : allows (PHttpStart https bytes) d) Logic.I A L)
    as [B|(g & e & L1 & L2 & AG & S & _ & B & _)]; [lia|].
  destruct (worker_step _ _ _ _ _ _ (reach g) AG eq_refl S) as (q' & os & MV & A' & OS).
  assert (pc_ok (w_lk (ws g)) (PHttpStart https bytes)) as PO.
  { eapply (proj1 (Forall_forall _ _) (inv_threads _ _ (reach_inv _ _ (reach g)))). eapply nth_error_In. exact AG. }
  destruct (csr_conn _ _ _ _ _ _ (reach g) PO Logic.I MV) as [CP' LA].
  assert (exists r q2, q' = PDo (AEmit (OHttpResp r)) q2) as (r & q2 & ->).
  { clear OS. inversion MV as [? ? ? ? C|]; subst. inversion C; subst; unfold respond; try (eexists _, _; reflexivity).
    exfalso. specialize (LA [] eq_refl). cbn in LA. inversion LA. }
  destruct (stay tid _ d (Datatypes.S g) j (allows_do _ _) CP' A' ltac:(lia))
    as [B2|(g2 & e2 & M1 & M2 & AG2 & S2 & LS2 & B2 & _)]; [lia|].
  destruct (done_next _ _ _ EN _ _ _ _ _ AG2 S2) as [W _].
  exists g2, r. split; [lia|]. split; [lia|]. split; [exists e2; exact LS2|].
  unfold observed. rewrite W, do_action_trace. apply skipn_trace.
Qed.

(** * From the code to the token *)

Section Code.
Variable k tid : nat.
Variable https : bool.
Variable bytes n : str.
Variable i : account_id.
Variable cvr st : str.
Variable ln : option Z.
Variable u : url.
Variable code : str.
Hypothesis CB : comes_back O (ws k) https bytes n i cvr st ln u code.
Variable j : nat.
Hypothesis UNIQ : forall x m, (k <= x)%nat -> (x <= j)%nat -> awaits (ws x) m st -> m = n.
Variable lo hi : Z.
Hypothesis ANS : forall x res, (k <= x)%nat -> (x < j)%nat -> redeems_code ws x code res ->
  good_answer O lo hi res \/ exists t m, res = PRTransport t m.
Hypothesis REP : tau (S j) + hi <= time_max.

Let e0 : entry := mkEntry n i (TSPending cvr ln st u).

Definition calm (x : nat) : Prop :=
  In e0 (details (w_lk (ws x))) /\ conf (ws x) = conf (ws k)
  /\ w_http (ws x) = w_http (ws k) /\ w_https (ws x) = w_https (ws k).

Lemma meddled_later g : (g <= j)%nat -> meddled ws ls k g tid e0 -> meddled ws ls k j tid e0.
Proof. intros L (x & X1 & X2 & X). exists x. split; [exact X1|]. split; [lia|exact X]. Qed.

Lemma calm_next x : (k <= x)%nat -> calm x -> ~ goes ls x tid -> calm (S x) \/ meddled ws ls k (S x) tid e0.
Proof.
  intros L (I & CF & PH & PS) NG. pose proof (en_next _ _ _ EN x) as N. destruct (ls x) as [l|] eqn:LS.
  2:{ left. unfold calm. rewrite N. auto. }
  destruct (step_ok _ _ _ _ (reach_inv _ _ (reach x)) N) as (_ & _ & T & _).
  destruct (tstep_ports _ _ _ _ T) as [T1 T2]. destruct (tstep_trace _ _ _ _ T) as [os TR].
  assert (observed ws x = os) as OB by (unfold observed; rewrite TR; apply skipn_trace).
  destruct (existsb is_config os) eqn:EC.
  { right. apply existsb_exists in EC as (o & IO & IC). destruct o; try discriminate IC.
    exists x. split; [exact L|]. split; [lia|]. left. eexists. rewrite OB. exact IO. }
  assert (conf (ws (S x)) = conf (ws k)) as CF'.
  { rewrite <- CF. pose proof (reach_config_at _ _ (reach (S x))) as C1. pose proof (reach_config_at _ _ (reach x)) as C2.
    rewrite TR, config_at_app, config_at_none in C1; [unfold conf; congruence|].
    intros o IO. destruct (is_config o) eqn:E; [|reflexivity].
    assert (existsb is_config os = true) as X by (apply existsb_exists; eauto). congruence. }
  destruct (in_dec entry_dec e0 (details (w_lk (ws (S x))))) as [I'|NI].
  { left. split; [exact I'|]. split; [exact CF'|]. split; congruence. }
  right. exists x. split; [exact L|]. split; [lia|]. right. split; [exact I|]. split; [exact NI|].
  inversion T as [t e q lk' q' os' A C EL EW|t e q w1 A SY EL EW|h b X EL EW]; subst.
  - exists t, e, q. split; [exact LS|]. split; [intros ->; apply NG; exists e; exact LS|]. split; [exact A|].
    assert (~ In e0 (details lk')) as NL.
    { intros Y. apply NI. replace (w_lk (ws (S x))) with lk'; [exact Y|]. rewrite <- EW. reflexivity. }
    pose proof (ro_pc _ (reach_roles _ _ (reach x)) _ _ A) as RO.
    destruct (pending_ends _ _ _ _ _ _ _ _ _ _ _ _ _ (reach x) A C I eq_refl NL) as [R|[R|R]]; [left|right; left|right; right; exact R];
      rewrite R in RO; destruct t as [|[|[|[|t]]]]; try discriminate RO; reflexivity.
  - exfalso. apply NI. replace (w_lk (ws (S x))) with (w_lk (ws x)); [exact I|].
    destruct SY; try reflexivity. destruct a; reflexivity.
  - exfalso. apply NI. rewrite <- EW. exact I.
Qed.

Lemma calm_until a g : (k <= a)%nat -> (a <= g)%nat -> (g <= j)%nat -> calm a ->
  (forall x, (a <= x)%nat -> (x < g)%nat -> ~ goes ls x tid) -> calm g \/ meddled ws ls k j tid e0.
Proof.
  intros LK L LJ C. induction L as [|g L IH]; intros F; [left; exact C|].
  destruct (IH ltac:(lia)) as [C1|M]; [intros x X1 X2; apply F; lia| |right; exact M].
  destruct (calm_next g ltac:(lia) C1 (F g ltac:(lia) ltac:(lia))) as [C2|M]; [left; exact C2|].
  right. apply (meddled_later (S g)); [lia|exact M].
Qed.

(** The thread's own step, unless somebody else acts first or time is up. *)
Lemma calm_stay q b a : (k <= a)%nat -> (a <= j)%nat -> calm a -> allows q b -> conn_pc q -> at_ a tid q ->
  tau a + b < tau (S j) ->
  meddled ws ls k j tid e0
  \/ exists g e, (a <= g)%nat /\ (g < j)%nat /\ calm g /\ at_ g tid q /\ step O (ws g) (LTick tid e) = SNext (ws (S g))
       /\ ls g = Some (LTick tid e) /\ tau (S g) <= tau a + b.
Proof.
  intros LK LJ C AL CP A T.
  destruct (stay tid q b a j AL CP A LJ) as [B|(g & e & L1 & L2 & AG & S & LS & B & F)]; [lia|].
  destruct (calm_until a g LK L1 ltac:(lia) C F) as [CG|M]; [|left; exact M].
  right. exists g, e. split; [exact L1|]. split; [exact L2|]. split; [exact CG|]. auto.
Qed.

Lemma calm_same g x : calm g -> w_lk (ws x) = w_lk (ws g) -> w_http (ws x) = w_http (ws g) -> w_https (ws x) = w_https (ws g) ->
  calm x.
Proof.
  intros (I & CF & PH & PS) E1 E2 E3. unfold calm, conf. rewrite E1, E2, E3. auto.
Qed.

Lemma alive_at g e : step O (ws g) (LTick tid e) = SNext (ws (S g)) -> w_alive (ws g) = true.
Proof. apply step_alive. Qed.

Lemma code_start a : (k <= a)%nat -> (a <= j)%nat -> calm a -> at_ a tid (PHttpStart https bytes) -> tau a + d < tau (S j) ->
  meddled ws ls k j tid e0
  \/ exists g r uri pairs, (a <= g)%nat /\ (g < j)%nat /\ calm (S g) /\ tau (S g) <= tau a + d
       /\ at_ (S g) tid (PDo (AEmit (OHttpResp r)) (PHttpPost i uri pairs 10)) /\ In ($"code", code) pairs.
Proof.
  intros LK LJ C A T.
  destruct (calm_stay _ d a LK LJ C (or_introl eq_refl : allows (PHttpStart https bytes) d) Logic.I A T)
    as [M|(g & e & L1 & L2 & CG & AG & S & _ & B)]; [left; exact M|right].
  destruct CB as [_ (uri & act & ru & P & LST & LE & LC & CF & RU & SO)]. pose proof CG as (I & CE & PH & PS).
  destruct (callback_code O (ws g) tid e https bytes uri n cvr st i ln u act ru) with (code := code) as [r SE]; auto.
  - apply (reach g).
  - apply (alive_at g e S).
  - intros m X. apply (UNIQ g); [lia|lia|exact X].
  - unfold configured in *. unfold conf in CE. rewrite CE. exact CF.
  - rewrite PH, PS. exact RU.
  - rewrite S in SE. injection SE as W. eexists g, _, _, _. split; [exact L1|]. split; [exact L2|].
    split; [apply (calm_same g _ CG); rewrite W; reflexivity|]. split; [exact B|].
    split; [unfold Fair.at_; rewrite W; cbn [set_thread w_threads]; eapply nth_list_set_same; exact AG|].
    left. reflexivity.
Qed.

Lemma code_answer a r q : (k <= a)%nat -> (a <= j)%nat -> calm a -> at_ a tid (PDo (AEmit (OHttpResp r)) q) -> conn_pc q ->
  tau a + d < tau (S j) ->
  meddled ws ls k j tid e0
  \/ exists g, (a <= g)%nat /\ (g < j)%nat /\ calm (S g) /\ tau (S g) <= tau a + d /\ at_ (S g) tid q.
Proof.
  intros LK LJ C A CP T.
  destruct (calm_stay _ d a LK LJ C (allows_do (AEmit (OHttpResp r)) q) (conj Logic.I CP) A T)
    as [M|(g & e & L1 & L2 & CG & AG & S & _ & B)]; [left; exact M|right].
  destruct (done_next _ _ _ EN _ _ _ _ _ AG S) as [W AT]. exists g. split; [exact L1|]. split; [exact L2|].
  split; [apply (calm_same g _ CG); rewrite W; reflexivity|]. split; [exact B|exact AT].
Qed.

(** The attempts. *)
Lemma code_posts uri pairs : In ($"code", code) pairs -> forall t a xs, (k <= a)%nat -> (a <= j)%nat -> calm a ->
  at_ a tid (PHttpPost i uri pairs (S t)) -> tau a + Z.of_nat (S t) * p < tau (S j) ->
  (List.length xs + S t = 10)%nat -> NoDup xs ->
  (forall x, In x xs -> (k <= x)%nat /\ (x < a)%nat /\ exists t m, redeems_code ws x code (PRTransport t m)) ->
  meddled ws ls k j tid e0
  \/ exists g, (k <= g)%nat /\ (g < j)%nat /\ calm (S g) /\ tau (S g) <= tau a + Z.of_nat (S t) * p
      /\ ((exists body, redeems_code ws g code (PRBody body) /\ good_answer O lo hi (PRBody body)
             /\ at_ (S g) tid (PHttpBody i body))
          \/ (out_of_reach ws k (S g) code /\ exists m, at_ (S g) tid (PHttpFail i m))).
Proof.
  intros IC. induction t as [|t IH]; intros a xs LK LJ C A T LX ND FX;
    (destruct (calm_stay _ p a LK LJ C (or_introl eq_refl : allows (PHttpPost i uri pairs (S _)) p) (Nat.neq_succ_0 _) A ltac:(nia))
      as [M|(g & e & L1 & L2 & CG & AG & SG & _ & B)]; [left; exact M|]);
    (assert (ws (S g) = emit (set_thread (ws g) tid (http_post_next i uri pairs _ (e_post e))) [OPost uri pairs (e_post e)]) as W
       by (rewrite (Refresh.step_at _ _ _ _ _ (alive_at g e SG) AG) in SG; cbn [step_thread] in SG; injection SG as SG; symmetry; exact SG));
    (assert (redeems_code ws g code (e_post e)) as RC
       by (exists uri, pairs; split; [unfold observed; rewrite W; cbn [emit set_thread w_trace]; apply skipn_trace|exact IC]));
    (assert (calm (S g)) as CS by (apply (calm_same g _ CG); rewrite W; reflexivity));
    (assert (at_ (S g) tid (http_post_next i uri pairs _ (e_post e))) as AS
       by (unfold Fair.at_; rewrite W; cbn [emit set_thread w_threads]; eapply nth_list_set_same; exact AG));
    destruct (ANS g _ ltac:(lia) ltac:(lia) RC) as [GA|(x & m & PR)].
  - right. exists g. split; [lia|]. split; [exact L2|]. split; [exact CS|]. split; [nia|]. left.
    destruct GA as (body & v & tok & ex & PB & GR). exists body. rewrite PB in RC, AS. split; [exact RC|].
    split; [exists body, v, tok, ex; auto|exact AS].
  - right. exists g. split; [lia|]. split; [exact L2|]. split; [exact CS|]. split; [nia|]. right.
    rewrite PR in RC, AS. split; [|eexists; exact AS]. exists (g :: xs). split; [cbn [List.length]; lia|].
    split; [constructor; [|exact ND]; intros X; apply FX in X; lia|].
    intros y [<-|Y]; [split; [lia|]; split; [lia|]; eauto|]. destruct (FX y Y) as (Y1 & Y2 & Y3). split; [lia|]. split; [lia|exact Y3].
  - right. exists g. split; [lia|]. split; [exact L2|]. split; [exact CS|]. split; [nia|]. left.
    destruct GA as (body & v & tok & ex & PB & GR). exists body. rewrite PB in RC, AS. split; [exact RC|].
    split; [exists body, v, tok, ex; auto|exact AS].
  - rewrite PR in RC, AS. cbn [http_post_next] in AS.
    destruct (IH (S g) (g :: xs) ltac:(lia) ltac:(lia) CS AS ltac:(nia)) as [M|(g2 & G1 & G2 & G3 & G4 & G5)].
    + cbn [List.length]. lia.
    + constructor; [|exact ND]. intros X. apply FX in X. lia.
    + intros y [<-|Y]; [split; [lia|]; split; [lia|]; eauto|]. destruct (FX y Y) as (Y1 & Y2 & Y3). split; [lia|]. split; [lia|exact Y3].
    + left. exact M.
    + right. exists g2. split; [lia|]. split; [lia|]. split; [exact G3|]. split; [nia|exact G5].
Qed.

Lemma browser_token :
  nth_error (w_threads (ws k)) tid = Some (PHttpStart https bytes) -> (k <= j)%nat ->
  tau k + 4 * d + 10 * p < tau (S j) ->
  token_from O ws k j n code
  \/ (out_of_reach ws k j code /\ told_error ws k j n)
  \/ meddled ws ls k j tid e0.
Proof.
  intros A LJ T.
  assert (calm k) as C by (split; [exact (cb_entry _ _ _ _ _ _ _ _ _ _ _ CB)|auto]).
  destruct (code_start k ltac:(lia) LJ C A ltac:(lia)) as [M|(g & r & uri & pairs & L1 & L2 & C1 & B1 & A1 & IC)]; [auto|].
  destruct (code_answer (S g) r _ ltac:(lia) ltac:(lia) C1 A1 (Nat.neq_succ_0 9) ltac:(lia)) as [M|(g2 & L3 & L4 & C2 & B2 & A2)]; [auto|].
  destruct (code_posts uri pairs IC 9 (S g2) [] ltac:(lia) ltac:(lia) C2 A2 ltac:(lia) eq_refl (NoDup_nil _) (fun x X => match X with end))
    as [M|(g3 & L5 & L6 & C3 & B3 & [(body & RC & GA & A3)|[UR [m A3]]])]; [auto| |].
  - destruct (calm_stay _ d (S g3) ltac:(lia) ltac:(lia) C3 (or_introl eq_refl : allows (PHttpBody i body) d) Logic.I A3 ltac:(lia))
      as [M|(g4 & e & L7 & L8 & C4 & A4 & S4 & LS4 & B4)]; [auto|].
    left. destruct GA as (b & v & tok & ex & PB & J & JE & JA & JT & JX & RG & RT). injection PB as <-.
    pose proof C4 as (I4 & CE & _ & _).
    destruct CB as [_ (uri' & act & ru & _ & _ & _ & _ & CF & _)].
    pose proof (br_clock _ _ _ _ _ _ BR g4 tid e 0 LS4) as CK. pose proof (later (S g4) (S j) ltac:(lia)) as LT.
    destruct (body_step O (ws g4) tid i e body v tok ex n _ act (reach g4) (alive_at g4 e S4) A4 J (conj JE (conj JA (conj JT JX))) I4)
      as (lk' & p' & SE & (e1 & I1 & N1 & T1) & _ & _).
    { unfold configured in *. unfold conf in CE. rewrite CE. exact CF. }
    { unfold env_now. unfold secs in RG. lia. }
    rewrite S4 in SE. injection SE as W.
    exists g3, g4, body, v, (mkActive tok (env_now e) (env_now e + ex * 1000000000) (json_str $"refresh_token" v) false 0 None).
    split; [lia|]. split; [lia|]. split; [lia|]. split; [exact RC|]. split; [exact J|]. split; [exact JA|]. split; [reflexivity|].
    exists e1. rewrite W. cbn [set_thread set_lk w_lk] in *. auto.
  - destruct (calm_stay _ d (S g3) ltac:(lia) ltac:(lia) C3 (or_introl eq_refl : allows (PHttpFail i m) d) Logic.I A3 ltac:(lia))
      as [M|(g4 & e & L7 & L8 & C4 & A4 & S4 & LS4 & B4)]; [auto|].
    right. left. destruct C4 as (I4 & _ & _ & _).
    destruct (exchange_fail_step O (ws g4) tid i m e n _ (reach g4) (alive_at g4 e S4) A4 I4) as (lk' & _ & SE).
    rewrite S4 in SE. injection SE as W.
    assert (at_ (S g4) tid (PHttpNotify n ($"Authentication for " ++ n ++ $" failed: " ++ m) false)) as A5.
    { unfold Fair.at_. rewrite W. cbn [set_thread set_lk w_threads]. eapply nth_list_set_same. exact A4. }
    destruct (stay tid _ d (S g4) j (or_introl eq_refl : allows (PHttpNotify _ _ false) d) eq_refl A5 ltac:(lia))
      as [B5|(g5 & e5 & L9 & L10 & A6 & S5 & _)].
    { lia. }
    pose proof (exchange_notify_step O (ws g5) tid e5 n _ (alive_at g5 e5 S5) A6) as SE. rewrite S5 in SE. injection SE as W5.
    split.
    { destruct UR as (xs & U1 & U2 & U3). exists xs. split; [exact U1|]. split; [exact U2|]. intros x X.
      destruct (U3 x X) as (X1 & X2 & X3). split; [exact X1|]. split; [lia|exact X3]. }
    eexists g5, _. split; [lia|]. split; [lia|]. split.
    { unfold observed. rewrite W5. cbn [emit set_thread w_trace]. apply skipn_trace. }
    eexists. destruct (c_error_notify_cmd _); [right; eexists; reflexivity|left; reflexivity].
Qed.
End Code.
End Return.
