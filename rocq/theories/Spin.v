(** The background threads look for work only when there is a reason to. *)
From Verif Require Import Base BaseLemmas Time Utf8 Base64 Url Json Oracles Config Dump State Http
  Timers Server StateLemmas ConfigLemmas SpecServer Steps Inv Reach Own Trace SpecTimers Wake
  SpecSessions SpecFair Fair SpecSpin.
Local Open Scope Z_scope.

Lemma refresh_alarm O w e t :
  reachable O w -> next_wakeup refresh_at (w_lk w) (e_clk e) = Val (Some t) -> refresh_ahead w e t.
Proof.
  intros R H. pose proof (reach_inv _ _ R) as I. destruct (next_wakeup_spec _ _ _ _ H) as [A B].
  destruct (B t eq_refl) as (_ & k & e0 & u & N & F & D).
  destruct (A k e0 u N F) as (d & Ed & L). injection Ed as <-.
  assert (has (w_lk w) e0) as Hh by exact (nth_error_In _ _ N).
  destruct (wf_account _ _ (inv_wf _ _ I) Hh) as (act & AC & _).
  rewrite (refresh_at_in _ _ I _ _ _ Hh AC) in F. destruct (d_ts e0) as [|cvr ln st url|a] eqn:TS; try discriminate F.
  injection F as F. exists (d_name e0), act, a, (ri1 (e_clk e (S k))), u. split; [exact AC|].
  split; [exists e0; auto|]. split; [unfold refresh_due in F; destruct (ongoing a); [discriminate F|reflexivity]|].
  split; [exists (S k); reflexivity|]. split.
  - intros EX. apply due_time; [apply EX|eapply settings_nonneg; eassumption|exact F].
  - destruct D as [-> | ->]; [left; reflexivity|right; split; [reflexivity|exact L]].
Qed.

Lemma reminder_alarm O w e t :
  reachable O w -> next_wakeup notify_at (w_lk w) (e_clk e) = Val (Some t) -> reminder_ahead w e t.
Proof.
  intros R H. pose proof (reach_inv _ _ R) as I. destruct (next_wakeup_spec _ _ _ _ H) as [A B].
  destruct (B t eq_refl) as (_ & k & e0 & u & N & F & D).
  destruct (A k e0 u N F) as (d & Ed & L). injection Ed as <-.
  assert (has (w_lk w) e0) as Hh by exact (nth_error_In _ _ N).
  rewrite (notify_at_in _ _ I _ _ Hh) in F. destruct (d_ts e0) as [|cvr ln st url|a] eqn:TS; try discriminate F.
  exists (d_name e0), cvr, ln, st, url, (ri1 (e_clk e (S k))), u.
  split; [exists e0; auto|]. split; [exists (S k); reflexivity|]. split.
  - destruct ln as [l|].
    + unfold checked_add in F. destruct (Z.leb_spec (l + c_auth_notify_interval (lconfig (w_lk w))) time_max) as [LE|LE];
        [|discriminate F]. injection F as <-. apply rm_next. exact LE.
    + injection F as <-. constructor.
  - destruct D as [-> | ->]; [left; reflexivity|right; split; [reflexivity|exact L]].
Qed.

Section Spin.
Variable O : oracles.
Variable ws : nat -> world.
Variable ls : nat -> option label.
Hypothesis EN : endless O ws ls.

Let RA := reach_at O ws ls EN.

Lemma next_step k l : ls k = Some l -> step O (ws k) l = SNext (ws (S k)).
Proof. intros L. pose proof (en_next _ _ _ EN k) as N. rewrite L in N. exact N. Qed.

(** What [refresher_stirs] means in the model. *)
Lemma rf_stirs_at k :
  refresher_stirs ws k -> exists e nw,
    ls k = Some (LTick 3 e) /\ nth_error (w_threads (ws k)) 3 = Some (PRfCheck nw)
    /\ wait_or_go e (w_rf (ws k)) nw = true /\ w_rf (ws (S k)) = mkCv false false.
Proof.
  intros [NL [A' N']]. pose proof (en_next _ _ _ EN k) as E.
  destruct (ls k) as [l|] eqn:L; [|rewrite E in *; exfalso; apply NL; split; assumption].
  destruct (step_ok _ _ _ _ (reach_inv _ _ (RA k)) E) as (_ & _ & T & AL).
  destruct (reach_roles _ _ (RA k)) as [LEN RO].
  assert (nth_error (w_threads (ws k)) 3 <> Some PRfScan) as NS by (intros X; apply NL; split; assumption).
  destruct l as [tid e|h b].
  2:{ exfalso. apply NS. destruct (nth_error (w_threads (ws k)) 3) as [q|] eqn:Q; [|apply nth_error_None in Q; lia].
      rewrite (tstep_other _ _ _ _ 3 q T ltac:(discriminate) Q) in N'; exact N'. }
  destruct (Nat.eq_dec tid 3) as [->|NE].
  2:{ exfalso. apply NS. destruct (nth_error (w_threads (ws k)) 3) as [q|] eqn:Q; [|apply nth_error_None in Q; lia].
      rewrite (tstep_other _ _ _ _ 3 q T ltac:(congruence) Q) in N'; exact N'. }
  exists e. inversion T as [tid0 e0 p lk' p' os N C Et Ew|tid0 e0 p w' N Sy Et Ew|]; subst.
  - rewrite <- Ew in N'. cbn [w_threads after_cs emit set_thread set_lk] in N'.
    rewrite (nth_list_set_same _ _ _ _ N) in N'. injection N' as ->. pose proof (RO _ _ N) as RL.
    inversion C; subst; cbn in RL; try discriminate RL; destruct ids; discriminate.
  - pose proof (RO _ _ N) as RL. inversion Sy as [a q Ea Ew|?|?|?|?|?|?|?|?|nw G Ep Ew|nw G Ep Ew|nw G Ep Ew]; subst;
      cbn in RL; try discriminate RL.
    + rewrite <- Ew in N'. rewrite (do_threads (ws k) 3 q a 3 q (nth_list_set_same _ _ _ _ N)) in N'.
      injection N' as ->. pose proof (do_not_inner _ _ _ _ _ (RA k) N) as IN. discriminate IN.
    + exists nw. repeat split; try assumption.
    + rewrite <- Ew in N'. threads N'. rewrite (nth_list_set_same _ _ _ _ N) in N'. discriminate N'.
    + rewrite <- Ew in N'. threads N'. rewrite (nth_list_set_same _ _ _ _ N) in N'. discriminate N'.
Qed.

(** Since [i] nobody has told the refresher to look, and the alarm it has set is
    a recent one. *)
Definition rf_calm (i x : nat) : Prop :=
  cv_pred (w_rf (ws x)) = false
  /\ forall p nw, nth_error (w_threads (ws x)) 3 = Some p -> rf_waits p = Some nw ->
       exists y e, (i < y < x)%nat /\ ls y = Some (LTick 3 e) /\ next_wakeup refresh_at (w_lk (ws y)) (e_clk e) = Val nw.

Lemma rf_calm_step i x :
  (i < x)%nat -> rf_calm i x -> ~ takes ws ls ASigRefresher x -> rf_calm i (S x).
Proof.
  intros L [P F] NT. pose proof (en_next _ _ _ EN x) as E.
  assert (forall p nw, nth_error (w_threads (ws x)) 3 = Some p -> rf_waits p = Some nw ->
       exists y e, (i < y < S x)%nat /\ ls y = Some (LTick 3 e) /\ next_wakeup refresh_at (w_lk (ws y)) (e_clk e) = Val nw) as F'.
  { intros p nw N Wt. destruct (F p nw N Wt) as (y & e & By & R). exists y, e. split; [lia|exact R]. }
  destruct (ls x) as [l|] eqn:Lx; [|unfold rf_calm; rewrite E; split; assumption].
  destruct (step_ok _ _ _ _ (reach_inv _ _ (RA x)) E) as (_ & _ & T & AL).
  destruct (reach_roles _ _ (RA x)) as [LEN RO].
  assert (forall p nw, nth_error (w_threads (ws (S x))) 3 = Some p -> (forall e, l <> LTick 3 e) -> rf_waits p = Some nw ->
       exists y e, (i < y < S x)%nat /\ ls y = Some (LTick 3 e) /\ next_wakeup refresh_at (w_lk (ws y)) (e_clk e) = Val nw) as OT.
  { intros p nw N NE Wt. destruct (nth_error (w_threads (ws x)) 3) as [q|] eqn:Q; [|apply nth_error_None in Q; lia].
    rewrite (tstep_other _ _ _ _ 3 q T NE Q) in N. injection N as <-. eapply F'; [reflexivity|exact Wt]. }
  unfold rf_calm. inversion T as [tid e p lk' p' os N C Et Ew|tid e p w' N Sy Et Ew|h b B Et Ew]; subst l.
  - split; [exact P|]. rewrite ?Ew.
    intros q nw N3 Wt. destruct (Nat.eq_dec tid 3) as [->|NE]; [|eapply OT; [exact N3|congruence|exact Wt]].
    rewrite <- Ew in N3. cbn [w_threads after_cs emit set_thread set_lk] in N3.
    rewrite (nth_list_set_same _ _ _ _ N) in N3. injection N3 as ->. pose proof (RO _ _ N) as RL.
    inversion C; subst; cbn in RL; try discriminate RL.
    + injection Wt as <-. exists x, e. repeat split; try assumption; lia.
    + destruct ids; discriminate Wt.
  - subst w'. split.
    + inversion Sy as [a q Ea Ew|?|?|?|?|?|?|?|?|nw G Ep Ew|nw G Ep Ew|nw G Ep Ew]; subst; cbn; try exact P; try reflexivity.
      destruct a; cbn; try exact P. exfalso. apply NT. exists tid, e, q. split; assumption.
    + intros q nw N3 Wt. destruct (Nat.eq_dec tid 3) as [->|NE]; [|eapply OT; [exact N3|congruence|exact Wt]].
      pose proof (RO _ _ N) as RL. revert N3.
      inversion Sy as [a q0 Ea Ew|?|?|?|?|?|?|?|?|nw0 G Ep Ew|nw0 G Ep Ew|nw0 G Ep Ew]; subst; cbn in RL; try discriminate RL; intros N3.
      * rewrite (do_threads (ws x) 3 q0 a 3 q0 (nth_list_set_same _ _ _ _ N)) in N3. injection N3 as ->.
        pose proof (do_not_inner _ _ _ _ _ (RA x) N) as IN. destruct q; try discriminate Wt; discriminate IN.
      * threads N3. rewrite (nth_list_set_same _ _ _ _ N) in N3. injection N3 as <-. discriminate Wt.
      * threads N3. rewrite (nth_list_set_same _ _ _ _ N) in N3. injection N3 as <-. eapply F'; [exact N|exact Wt].
      * threads N3. rewrite (nth_list_set_same _ _ _ _ N) in N3. injection N3 as <-. eapply F'; [exact N|exact Wt].
  - split; [exact P|]. rewrite ?Ew. intros q nw N3 Wt; eapply OT; [exact N3|discriminate|exact Wt].
Qed.

Lemma takes_dec a k : {takes ws ls a k} + {~ takes ws ls a k}.
Proof.
  unfold takes. destruct (ls k) as [[tid e|h b]|]; [|right; intros (t & e & p & E & _); discriminate E..].
  destruct (nth_error (w_threads (ws k)) tid) as [q|] eqn:Q.
  2:{ right. intros (t & e' & p & E & N). injection E as <- <-. congruence. }
  destruct q; try (right; intros (t & e' & p & E & N); injection E as <- <-; congruence).
  assert ({a0 = a} + {a0 <> a}) as [->|NE]; [|left; exists tid, e, q; split; [reflexivity|exact Q]|].
  2:{ right; intros (t & e' & p & E & N); injection E as <- <-; congruence. }
  decide equality; repeat decide equality; apply N.eq_dec.
Qed.

Lemma refresher_has_reason i j :
  (i < j)%nat -> refresher_stirs ws i -> refresher_stirs ws j ->
  (exists x, (i < x < j)%nat /\ takes ws ls ASigRefresher x) \/ alarmed ws ls refresh_ahead 3 i j.
Proof.
  intros L Si Sj. destruct (rf_stirs_at _ Si) as (e & nw & Li & Ni & _ & CV).
  destruct (rf_stirs_at _ Sj) as (e' & nw' & Lj & Nj & G & _).
  assert (forall d, (S i + d <= j)%nat ->
      (exists x, (i < x < S i + d)%nat /\ takes ws ls ASigRefresher x) \/ rf_calm i (S i + d)) as IND.
  { induction d as [|d IH]; intros LE.
    - right. rewrite Nat.add_0_r. split; [rewrite CV; reflexivity|]. intros p w N Wt.
      destruct Si as [_ [_ N']]. rewrite N in N'. injection N' as ->. discriminate Wt.
    - destruct IH as [(x & Bx & T)|CA]; [lia|left; exists x; split; [lia|exact T]|].
      destruct (takes_dec ASigRefresher (S i + d)) as [T|NT]; [left; exists (S i + d)%nat; split; [lia|exact T]|].
      right. rewrite Nat.add_succ_r. apply rf_calm_step; [lia|exact CA|exact NT]. }
  destruct (IND (j - S i)%nat ltac:(lia)) as [(x & Bx & T)|[P F]]; [left; exists x; split; [lia|exact T]|].
  replace (S i + (j - S i))%nat with j in * by lia. right.
  destruct (F _ _ Nj eq_refl) as (y & ey & By & Ly & NW).
  unfold wait_or_go in G. rewrite P in G. cbn [orb] in G. destruct nw' as [t|]; [|discriminate G].
  exists y, ey, e', t. split; [lia|]. split; [exact Ly|]. split; [eapply refresh_alarm; [apply RA|exact NW]|].
  split; [exact Lj|]. apply Z.ltb_lt. exact G.
Qed.

(** ** The notifier *)

Lemma nt_stirs_at k :
  notifier_stirs ws k -> exists e nw,
    ls k = Some (LTick 2 e) /\ nth_error (w_threads (ws k)) 2 = Some (PNtCheck nw)
    /\ wait_or_go e (w_nt (ws k)) nw = true /\ w_nt (ws (S k)) = mkCv false false.
Proof.
  intros [NL [A' N']]. pose proof (en_next _ _ _ EN k) as E.
  destruct (ls k) as [l|] eqn:L; [|rewrite E in *; exfalso; apply NL; split; assumption].
  destruct (step_ok _ _ _ _ (reach_inv _ _ (RA k)) E) as (_ & _ & T & AL).
  destruct (reach_roles _ _ (RA k)) as [LEN RO].
  assert (nth_error (w_threads (ws k)) 2 <> Some PNtScan) as NS by (intros X; apply NL; split; assumption).
  destruct l as [tid e|h b].
  2:{ exfalso. apply NS. destruct (nth_error (w_threads (ws k)) 2) as [q|] eqn:Q; [|apply nth_error_None in Q; lia].
      rewrite (tstep_other _ _ _ _ 2 q T ltac:(discriminate) Q) in N'; exact N'. }
  destruct (Nat.eq_dec tid 2) as [->|NE].
  2:{ exfalso. apply NS. destruct (nth_error (w_threads (ws k)) 2) as [q|] eqn:Q; [|apply nth_error_None in Q; lia].
      rewrite (tstep_other _ _ _ _ 2 q T ltac:(congruence) Q) in N'; exact N'. }
  exists e. inversion T as [tid0 e0 p lk' p' os N C Et Ew|tid0 e0 p w' N Sy Et Ew|]; subst.
  - rewrite <- Ew in N'. cbn [w_threads after_cs emit set_thread set_lk] in N'.
    rewrite (nth_list_set_same _ _ _ _ N) in N'. injection N' as ->. pose proof (RO _ _ N) as RL.
    inversion C; subst; cbn in RL; try discriminate RL;
      exfalso; match goal with X : emit_cmds ?l _ = PNtScan |- _ => revert X; generalize l; intros [|[[? ?] ?] ?] X; discriminate X end.
  - pose proof (RO _ _ N) as RL. inversion Sy as [a q Ea Ew|?|?|?|?|?|nw G Ep Ew|nw G Ep Ew|nw G Ep Ew|?|?|?]; subst;
      cbn in RL; try discriminate RL.
    + rewrite <- Ew in N'. rewrite (do_threads (ws k) 2 q a 2 q (nth_list_set_same _ _ _ _ N)) in N'.
      injection N' as ->. pose proof (do_not_inner _ _ _ _ _ (RA k) N) as IN. discriminate IN.
    + exists nw. repeat split; try assumption.
    + rewrite <- Ew in N'. threads N'. rewrite (nth_list_set_same _ _ _ _ N) in N'. discriminate N'.
    + rewrite <- Ew in N'. threads N'. rewrite (nth_list_set_same _ _ _ _ N) in N'. discriminate N'.
Qed.

Definition nt_calm (i x : nat) : Prop :=
  cv_pred (w_nt (ws x)) = false
  /\ forall p nw, nth_error (w_threads (ws x)) 2 = Some p -> nt_waits p = Some nw ->
       exists y e, (i < y < x)%nat /\ ls y = Some (LTick 2 e) /\ next_wakeup notify_at (w_lk (ws y)) (e_clk e) = Val nw.

Lemma nt_calm_step i x :
  (i < x)%nat -> nt_calm i x -> ~ takes ws ls ASigNotifier x -> nt_calm i (S x).
Proof.
  intros L [P F] NT. pose proof (en_next _ _ _ EN x) as E.
  assert (forall p nw, nth_error (w_threads (ws x)) 2 = Some p -> nt_waits p = Some nw ->
       exists y e, (i < y < S x)%nat /\ ls y = Some (LTick 2 e) /\ next_wakeup notify_at (w_lk (ws y)) (e_clk e) = Val nw) as F'.
  { intros p nw N Wt. destruct (F p nw N Wt) as (y & e & By & R). exists y, e. split; [lia|exact R]. }
  destruct (ls x) as [l|] eqn:Lx; [|unfold nt_calm; rewrite E; split; assumption].
  destruct (step_ok _ _ _ _ (reach_inv _ _ (RA x)) E) as (_ & _ & T & AL).
  destruct (reach_roles _ _ (RA x)) as [LEN RO].
  assert (forall p nw, nth_error (w_threads (ws (S x))) 2 = Some p -> (forall e, l <> LTick 2 e) -> nt_waits p = Some nw ->
       exists y e, (i < y < S x)%nat /\ ls y = Some (LTick 2 e) /\ next_wakeup notify_at (w_lk (ws y)) (e_clk e) = Val nw) as OT.
  { intros p nw N NE Wt. destruct (nth_error (w_threads (ws x)) 2) as [q|] eqn:Q; [|apply nth_error_None in Q; lia].
    rewrite (tstep_other _ _ _ _ 2 q T NE Q) in N. injection N as <-. eapply F'; [reflexivity|exact Wt]. }
  unfold nt_calm. inversion T as [tid e p lk' p' os N C Et Ew|tid e p w' N Sy Et Ew|h b B Et Ew]; subst l.
  - split; [exact P|]. rewrite ?Ew.
    intros q nw N3 Wt. destruct (Nat.eq_dec tid 2) as [->|NE]; [|eapply OT; [exact N3|congruence|exact Wt]].
    rewrite <- Ew in N3. cbn [w_threads after_cs emit set_thread set_lk] in N3.
    rewrite (nth_list_set_same _ _ _ _ N) in N3. injection N3 as ->. pose proof (RO _ _ N) as RL.
    inversion C; subst; cbn in RL; try discriminate RL.
    + injection Wt as <-. exists x, e. repeat split; try assumption; lia.
    + exfalso. revert Wt. match goal with |- nt_waits (emit_cmds ?l _) = _ -> _ => generalize l; intros [|[[? ?] ?] ?] X; discriminate X end.
  - subst w'. split.
    + inversion Sy as [a q Ea Ew|?|?|?|?|?|nw G Ep Ew|nw G Ep Ew|nw G Ep Ew|?|?|?]; subst; cbn; try exact P; try reflexivity.
      destruct a; cbn; try exact P. exfalso. apply NT. exists tid, e, q. split; assumption.
    + intros q nw N3 Wt. destruct (Nat.eq_dec tid 2) as [->|NE]; [|eapply OT; [exact N3|congruence|exact Wt]].
      pose proof (RO _ _ N) as RL. revert N3.
      inversion Sy as [a q0 Ea Ew|?|?|?|?|?|nw0 G Ep Ew|nw0 G Ep Ew|nw0 G Ep Ew|?|?|?]; subst; cbn in RL; try discriminate RL; intros N3.
      * rewrite (do_threads (ws x) 2 q0 a 2 q0 (nth_list_set_same _ _ _ _ N)) in N3. injection N3 as ->.
        pose proof (do_not_inner _ _ _ _ _ (RA x) N) as IN. destruct q; try discriminate Wt; discriminate IN.
      * threads N3. rewrite (nth_list_set_same _ _ _ _ N) in N3. injection N3 as <-. discriminate Wt.
      * threads N3. rewrite (nth_list_set_same _ _ _ _ N) in N3. injection N3 as <-. eapply F'; [exact N|exact Wt].
      * threads N3. rewrite (nth_list_set_same _ _ _ _ N) in N3. injection N3 as <-. eapply F'; [exact N|exact Wt].
  - split; [exact P|]. rewrite ?Ew. intros q nw N3 Wt; eapply OT; [exact N3|discriminate|exact Wt].
Qed.

Lemma notifier_has_reason i j :
  (i < j)%nat -> notifier_stirs ws i -> notifier_stirs ws j ->
  (exists x, (i < x < j)%nat /\ takes ws ls ASigNotifier x) \/ alarmed ws ls reminder_ahead 2 i j.
Proof.
  intros L Si Sj. destruct (nt_stirs_at _ Si) as (e & nw & Li & Ni & _ & CV).
  destruct (nt_stirs_at _ Sj) as (e' & nw' & Lj & Nj & G & _).
  assert (forall d, (S i + d <= j)%nat ->
      (exists x, (i < x < S i + d)%nat /\ takes ws ls ASigNotifier x) \/ nt_calm i (S i + d)) as IND.
  { induction d as [|d IH]; intros LE.
    - right. rewrite Nat.add_0_r. split; [rewrite CV; reflexivity|]. intros p w N Wt.
      destruct Si as [_ [_ N']]. rewrite N in N'. injection N' as ->. discriminate Wt.
    - destruct IH as [(x & Bx & T)|CA]; [lia|left; exists x; split; [lia|exact T]|].
      destruct (takes_dec ASigNotifier (S i + d)) as [T|NT]; [left; exists (S i + d)%nat; split; [lia|exact T]|].
      right. rewrite Nat.add_succ_r. apply nt_calm_step; [lia|exact CA|exact NT]. }
  destruct (IND (j - S i)%nat ltac:(lia)) as [(x & Bx & T)|[P F]]; [left; exists x; split; [lia|exact T]|].
  replace (S i + (j - S i))%nat with j in * by lia. right.
  destruct (F _ _ Nj eq_refl) as (y & ey & By & Ly & NW).
  unfold wait_or_go in G. rewrite P in G. cbn [orb] in G. destruct nw' as [t|]; [|discriminate G].
  exists y, ey, e', t. split; [lia|]. split; [exact Ly|]. split; [eapply reminder_alarm; [apply RA|exact NW]|].
  split; [exact Lj|]. apply Z.ltb_lt. exact G.
Qed.

(** ** Idle servers *)

Lemma refresher_idle k :
  (forall x, (k <= x)%nat -> ~ takes ws ls ASigRefresher x) ->
  (forall x n a, (k <= x)%nat -> holds (ws x) n (TSActive a) -> ongoing a = true) ->
  forall i j, (k <= i)%nat -> (k <= j)%nat -> refresher_stirs ws i -> refresher_stirs ws j -> i = j.
Proof.
  intros NT NA.
  assert (forall i j, (k <= i)%nat -> (i < j)%nat -> refresher_stirs ws i -> refresher_stirs ws j -> False) as H.
  { intros i j Li L Si Sj. destruct (refresher_has_reason i j L Si Sj) as [(x & Bx & T)|AL].
    - apply (NT x); [lia|exact T].
    - destruct AL as (y & e & e' & t & By & _ & (n & act & a & now & u & _ & Ha & OG & _) & _).
      rewrite (NA y n a ltac:(lia) Ha) in OG. discriminate OG. }
  intros i j Li Lj Si Sj. destruct (Nat.lt_trichotomy i j) as [L|[E|L]]; [|exact E|];
    exfalso; [apply (H i j)|apply (H j i)]; assumption.
Qed.

Lemma notifier_idle k :
  (forall x, (k <= x)%nat -> ~ takes ws ls ASigNotifier x) ->
  (forall x n cvr ln st u, (k <= x)%nat -> ~ holds (ws x) n (TSPending cvr ln st u)) ->
  forall i j, (k <= i)%nat -> (k <= j)%nat -> notifier_stirs ws i -> notifier_stirs ws j -> i = j.
Proof.
  intros NT NA.
  assert (forall i j, (k <= i)%nat -> (i < j)%nat -> notifier_stirs ws i -> notifier_stirs ws j -> False) as H.
  { intros i j Li L Si Sj. destruct (notifier_has_reason i j L Si Sj) as [(x & Bx & T)|AL].
    - apply (NT x); [lia|exact T].
    - destruct AL as (y & e & e' & t & By & _ & (n & cvr & ln & st & url & now & u & Ha & _) & _).
      exact (NA y n cvr ln st url ltac:(lia) Ha). }
  intros i j Li Lj Si Sj. destruct (Nat.lt_trichotomy i j) as [L|[E|L]]; [|exact E|];
    exfalso; [apply (H i j)|apply (H j i)]; assumption.
Qed.

End Spin.
