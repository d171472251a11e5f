(** Only a request stops the server; otherwise it can go on for ever. *)
From Verif Require Import Base BaseLemmas Time Utf8 Base64 Url Json Oracles Config Dump State Http Timers Server
  StateLemmas ConfigLemmas Steps Inv Reach Own SpecServer SpecTimers SpecSessions SpecFair SpecStop Trace Reply Dialog Remind Wake Events Sched Sessions
  Counters Fair.

(** * Stopping *)

Definition halts (p : pc) : Prop := In AHalt (chain p).

Lemma reply_halts req txt : ~ halts (reply req txt).
Proof. intros [X|[]]. discriminate X. Qed.

Ltac no_halt :=
  match goal with
  | X : halts _ |- _ => exfalso; cbn in X; repeat match goal with Y : _ \/ _ |- _ => destruct Y as [Y|Y] end;
      try discriminate; try contradiction
  end.

Lemma request_halts O e w req lk p os :
  request O e w req = Val (lk, p, os) -> halts p -> req = $"shutdown:".
Proof.
  unfold request. destruct (split_first ":"%char req) as [[cmd rest]|] eqn:SF; [|discriminate].
  apply split_first_some in SF as [SF _]. unfold from_utf8. destruct (utf8_valid cmd); cbn [bind]; [|discriminate].
  unfold dispatch. cbv zeta.
  destruct (str_eqb cmd $"dump" && _).
  { destruct (auth_dump _ _ _ _ _); cbn [bind]; try discriminate. intros [= _ <- _] H. no_halt. }
  destruct (str_eqb cmd $"info" && _). { intros [= _ <- _] H. no_halt. }
  destruct (str_eqb cmd $"reload" && _).
  { unfold req_reload. destruct (config_from_path O e); try discriminate.
    - destruct (update_conf _ _); cbn [bind]; try discriminate. intros [= _ <- _] H. no_halt.
    - intros [= _ <- _] H. no_halt. }
  assert (forall wu n i, request_and_reply O e w req wu n i = Val (lk, p, os) -> halts p -> req = $"shutdown:") as RR.
  { intros wu n i. unfold request_and_reply. destruct (request_token _ _ _ _ _ _) as [[lk1 u]| |]; cbn [bind]; try discriminate.
    intros [= _ <- _] H. no_halt. }
  destruct (str_eqb cmd $"refresh").
  { unfold req_refresh, from_utf8. destruct (utf8_valid rest); cbn [bind]; [|discriminate].
    destruct (split_first " "%char rest) as [[wu n]|]; [|discriminate].
    destruct (validate_act_name (w_lk w) n) as [i|]; [|intros [= _ <- _] H; no_halt].
    destruct (ct_tokenstate (w_lk w) i) as [[| |a]| |]; cbn [bind]; try discriminate; try apply RR.
    intros [= _ <- _] H. no_halt. }
  destruct (str_eqb cmd $"restore").
  { unfold req_restore. destruct (auth_restore _ _ _ _ _); try discriminate; intros [= _ <- _] H; no_halt. }
  destruct (str_eqb cmd $"revoke").
  { unfold req_revoke, from_utf8. destruct (utf8_valid rest); cbn [bind]; [|discriminate].
    destruct (validate_act_name (w_lk w) rest) as [i|]; [|intros [= _ <- _] H; no_halt].
    destruct (tokenstate_replace _ _ _) as [[lk1 i1]| |]; cbn [bind]; try discriminate. intros [= _ <- _] H. no_halt. }
  destruct (str_eqb cmd $"showtoken").
  { unfold req_showtoken, from_utf8. destruct (utf8_valid rest); cbn [bind]; [|discriminate].
    destruct (split_first " "%char rest) as [[wu n]|]; [|discriminate].
    destruct (validate_act_name (w_lk w) n) as [i|]; [|intros [= _ <- _] H; no_halt].
    destruct (ct_tokenstate (w_lk w) i) as [[| |a]| |]; cbn [bind]; try discriminate; try apply RR.
    - intros [= _ <- _] H. no_halt.
    - destruct (env_now e <? expiry a)%Z; [intros [= _ <- _] H; no_halt|].
      destruct (ongoing a); intros [= _ <- _] H; no_halt. }
  destruct (str_eqb cmd $"shutdown" && match rest with [] => true | _ => false end) eqn:SD.
  { apply andb_true_iff in SD as [S1 S2]. apply str_eqb_eq in S1. subst cmd. destruct rest; [|discriminate S2]. intros _ _. exact SF. }
  destruct (str_eqb cmd $"status" && _).
  { unfold req_status. destruct (status_lines _ _ _ _ _); cbn [bind]; try discriminate. intros [= _ <- _] H. no_halt. }
  intros [= _ <- _] H. no_halt.
Qed.

Lemma csr_halts O w e p lk' p' os : csr O w e p lk' p' os -> halts p' -> p = PMain.
Proof.
  intros C H. unfold halts in H. destruct C; try reflexivity; exfalso;
    rewrite ?chain_ref_post_next, ?chain_ref_body_next, ?chain_http_post_next in H; try (destruct wa); cbn in H;
    repeat match goal with X : _ \/ _ |- _ => destruct X as [X|X] end; try discriminate; try contradiction.
  - apply chain_emit_cmds in H as [(n & c & u & _ & X)|[]]. discriminate X.
  - apply chain_spawn_all in H as [(i & _ & X)|[]]. discriminate X.
Qed.

Lemma request_shutdown O e w : request O e w $"shutdown:" = Val (w_lk w, PDo AHalt PMain, []).
Proof. reflexivity. Qed.

(** The main thread is about to halt only if it was told to. *)
Lemma step_halts O w tid e w' p' :
  reachable O w -> step O w (LTick tid e) = SNext w' -> nth_error (w_threads w) tid = Some PMain ->
  nth_error (w_threads w') tid = Some p' -> halts p' ->
  e_client e = Some $"shutdown:" /\ exists os, w_trace w' = w_trace w ++ OClient $"shutdown:" :: os /\ forall r, ~ In (OClient r) os.
Proof.
  intros R S N N' H. unfold step in S. destruct (w_alive w); cbn [negb] in S; [|discriminate S].
  rewrite N in S. cbn [step_thread] in S. destruct (e_client e) as [req|] eqn:EC; [|discriminate S].
  unfold run_cs in S. destruct (request O e w req) as [[[lk p] os]|m|] eqn:RQ; [..|discriminate S]; injection S as <-;
    cbn in N'; rewrite (nth_list_set_same _ _ _ _ N) in N'; injection N' as <-.
  - pose proof (request_halts _ _ _ _ _ _ _ RQ H) as ->. split; [reflexivity|].
    exists os. split; [cbn; rewrite <- app_assoc; reflexivity|]. intros r I.
    rewrite request_shutdown in RQ. injection RQ as _ _ <-. exact I.
  - destruct H.
Qed.

Definition no_stop (o : obs) : bool := match o with OClient _ | OShutdown => false | _ => true end.

Lemma csr_no_stop O w e p lk' p' os : csr O w e p lk' p' os -> ~ In OShutdown os.
Proof.
  intros C I. destruct C; cbn in I; repeat match goal with X : _ \/ _ |- _ => destruct X as [X|X] end; try discriminate; contradiction.
Qed.

Lemma told_more t os : told_to_stop t -> (forall r, ~ In (OClient r) os) -> told_to_stop (t ++ os).
Proof.
  intros (t1 & t2 & -> & Q) H. exists t1, (t2 ++ os). split; [rewrite <- app_assoc; reflexivity|].
  intros r I. apply in_app_or in I as [I|I]; [exact (Q r I)|exact (H r I)].
Qed.

Record stopping (w : world) : Prop := {
  st_alive : w_alive w = true -> ~ In OShutdown (w_trace w);
  st_dead : w_alive w = false -> exists t, w_trace w = t ++ [OShutdown] /\ ~ In OShutdown t /\ told_to_stop t;
  st_main : forall tid p, nth_error (w_threads w) tid = Some p -> halts p -> tid = 0 /\ told_to_stop (w_trace w);
}.

Lemma emits_plain O w : reachable O w -> forall tid p o, nth_error (w_threads w) tid = Some p -> In (AEmit o) (chain p) -> no_stop o = true.
Proof.
  intros R tid p o N I.
  assert (Forall (fun p => forall a, In a (chain p) -> match a with AEmit o => no_stop o = true | _ => True end) (w_threads w)) as F.
  { revert w R N. intros w R _. revert w R.
    apply (reach_ind O (fun w => Forall (fun p => forall a, In a (chain p) -> match a with AEmit o => no_stop o = true | _ => True end) (w_threads w))).
    - intros. repeat constructor; intros a [].
    - intros w0 l w' R I0 I' A IH S T.
      eapply (tstep_chain_inv (fun a => match a with AEmit o => no_stop o = true | _ => True end)); try eassumption.
      intros e q lk' p' os a C Ia. pose proof (csr_chain _ _ _ _ _ _ _ a C Ia) as X.
      destruct a; try exact Logic.I. destruct o0; try reflexivity; destruct X. }
  rewrite Forall_forall in F. exact (F p (nth_error_In _ _ N) _ I).
Qed.

Lemma reach_stopping O w : reachable O w -> stopping w.
Proof.
  revert w. apply (reach_ind O stopping).
  - intros e c hp hsp pk _ _. constructor.
    + intros _ [X|[]]. discriminate X.
    + intros X. discriminate X.
    + intros tid p N H. exfalso. destruct tid as [|[|[|[|tid]]]]; try (injection N as <-; destruct H). destruct tid; discriminate N.
  - intros w l w' R I I' A [SA SD SM] S T. specialize (SA A). clear SD.
    pose proof (ro_pc _ (reach_roles _ _ R)) as RO. pose proof (ro_len _ (reach_roles _ _ R)) as RL.
    destruct T as [tid e p lk' p' os N C|tid e p w' N SY|https bytes P].
    + constructor.
      * intros _ X. cbn in X. apply in_app_or in X as [X|X]; [exact (SA X)|exact (csr_no_stop _ _ _ _ _ _ _ C X)].
      * cbn. congruence.
      * intros t q NQ H. pose proof NQ as NQ'. cbn in NQ.
        destruct (Nat.eq_dec tid t) as [->|NE].
        -- rewrite (nth_list_set_same _ _ _ _ N) in NQ. injection NQ as <-.
           pose proof (csr_halts _ _ _ _ _ _ _ C H) as ->.
           pose proof (RO _ _ N) as RN. assert (t = 0) as -> by (destruct t as [|[|[|[|t]]]]; discriminate RN || reflexivity).
           split; [reflexivity|].
           destruct (step_halts _ _ _ _ _ _ R S N NQ' H) as (_ & os' & E & Q). rewrite E. exists (w_trace w), os'. split; [reflexivity|exact Q].
        -- rewrite nth_error_list_set_ne in NQ by congruence. destruct (SM t q NQ H) as [-> TS]. split; [reflexivity|].
           cbn. apply told_more; [exact TS|]. intros r Ir.
           assert (p <> PMain) as NM.
           { intros ->. pose proof (RO _ _ N) as RN. destruct tid as [|[|[|[|tid]]]]; congruence || discriminate RN. }
           pose proof (csr_quiet _ _ _ _ _ _ _ C NM _ Ir) as X. discriminate X.
    + destruct SY.
      { assert (forall t q, nth_error (list_set tid k (w_threads w)) t = Some q -> halts q -> t = 0 /\ told_to_stop (w_trace w)) as KEEP.
        { intros t q NQ H. destruct (Nat.eq_dec tid t) as [->|NE].
          - rewrite (nth_list_set_same _ _ _ _ N) in NQ. injection NQ as <-. apply (SM t _ N). right. exact H.
          - rewrite nth_error_list_set_ne in NQ by congruence. exact (SM t q NQ H). }
        destruct a as [| |n ev| |i|o|].
        1,2,4: constructor; [intros _; exact SA|cbn; congruence|exact KEEP].
        * constructor; [|cbn; congruence|].
          -- intros _ X. cbn in X. apply in_app_or in X as [X|[X|[]]]; [exact (SA X)|discriminate X].
          -- intros t q NQ H. destruct (KEEP t q NQ H) as [-> TS]. split; [reflexivity|]. cbn. apply told_more; [exact TS|].
             intros r [X|[]]. discriminate X.
        * constructor; [intros _; exact SA|cbn; congruence|].
          intros t q NQ H. cbn in NQ. destruct (Nat.lt_ge_cases t (List.length (list_set tid k (w_threads w)))) as [LT|GE].
          -- rewrite nth_error_app1 in NQ by exact LT. exact (KEEP t q NQ H).
          -- rewrite nth_error_app2 in NQ by exact GE. destruct (t - _) as [|[|m]]; cbn in NQ; try discriminate NQ. injection NQ as <-. destruct H.
        * pose proof (emits_plain _ _ R _ _ o N (or_introl eq_refl)) as EP. constructor; [|cbn; congruence|].
          -- intros _ X. cbn in X. apply in_app_or in X as [X|[X|[]]]; [exact (SA X)|subst o; discriminate EP].
          -- intros t q NQ H. destruct (KEEP t q NQ H) as [-> TS]. split; [reflexivity|]. cbn. apply told_more; [exact TS|].
             intros r [X|[]]. subst o. discriminate EP.
        * destruct (SM tid _ N (or_introl eq_refl)) as [-> TS]. constructor; [cbn; congruence| |].
          -- intros _. exists (w_trace w). split; [reflexivity|]. split; [exact SA|exact TS].
          -- intros t q NQ H. destruct (KEEP t q NQ H) as [-> _]. split; [reflexivity|]. cbn. apply told_more; [exact TS|].
             intros r [X|[]]. discriminate X. }
      all: constructor; [intros _; exact SA|cbn; congruence|].
      all: intros t q0 NQ HA; cbn in NQ; destruct (Nat.eq_dec tid t) as [->|NE];
        [rewrite (nth_list_set_same _ _ _ _ N) in NQ; injection NQ as <-; destruct HA
        |rewrite nth_error_list_set_ne in NQ by congruence; exact (SM t q0 NQ HA)].
    + constructor; [|cbn; congruence|].
      * intros _ X. cbn in X. apply in_app_or in X as [X|[X|[]]]; [exact (SA X)|discriminate X].
      * intros t q NQ H. cbn in NQ. destruct (Nat.lt_ge_cases t (List.length (w_threads w))) as [LT|GE].
        -- rewrite nth_error_app1 in NQ by exact LT. destruct (SM t q NQ H) as [-> TS]. split; [reflexivity|].
           cbn. apply told_more; [exact TS|]. intros r [X|[]]. discriminate X.
        -- rewrite nth_error_app2 in NQ by exact GE. destruct (t - _) as [|[|m]]; cbn in NQ; try discriminate NQ. injection NQ as <-. destruct H.
Qed.

Lemma stopped_because O w : reachable O w -> w_alive w = false ->
  exists t, w_trace w = t ++ [OShutdown] /\ ~ In OShutdown t /\ told_to_stop t.
Proof. intros R. apply (st_dead _ (reach_stopping _ _ R)). Qed.

Lemma stopped_for_good O w l : w_alive w = false -> step O w l = SStuck.
Proof. intros D. unfold step. rewrite D. reflexivity. Qed.

(** * Being told *)

Lemma told_less t os : told_to_stop (t ++ os) -> (forall r, ~ In (OClient r) os) -> told_to_stop t.
Proof.
  revert t. induction os as [|o os IH] using rev_ind; intros t (t1 & t2 & E & Q) NO; [rewrite app_nil_r in E; exists t1, t2; split; assumption|].
  apply IH; [|intros r I; apply (NO r), in_or_app; left; exact I].
  destruct t2 as [|x t2 _] using rev_ind.
  - rewrite app_assoc in E. apply app_inj_tail in E as [_ ->]. exfalso. apply (NO $"shutdown:"), in_or_app. right. left. reflexivity.
  - rewrite app_assoc in E. change (t1 ++ OClient $"shutdown:" :: t2 ++ [x]) with (t1 ++ (OClient $"shutdown:" :: t2) ++ [x]) in E.
    rewrite (app_assoc t1) in E. apply app_inj_tail in E as [E _]. exists t1, t2. split; [exact E|].
    intros r I. apply (Q r), in_or_app. left. exact I.
Qed.

Lemma told_last t req os : told_to_stop (t ++ OClient req :: os) -> (forall r, ~ In (OClient r) os) -> req = $"shutdown:".
Proof.
  intros T NO. change (OClient req :: os) with ([OClient req] ++ os) in T. rewrite app_assoc in T.
  apply told_less in T as (t1 & t2 & E & Q); [|exact NO]. destruct t2 as [|x t2 _] using rev_ind.
  - apply app_inj_tail in E as [_ [= ->]]. reflexivity.
  - change (t1 ++ OClient $"shutdown:" :: t2 ++ [x]) with (t1 ++ (OClient $"shutdown:" :: t2) ++ [x]) in E.
    rewrite app_assoc in E. apply app_inj_tail in E as [_ E]. subst x. exfalso. apply (Q req), in_or_app. right. left. reflexivity.
Qed.

Lemma main_csr O w tid e w' :
  reachable O w -> step O w (LTick tid e) = SNext w' -> nth_error (w_threads w) tid = Some PMain ->
  exists req os p', w_trace w' = w_trace w ++ OClient req :: os /\ nth_error (w_threads w') tid = Some p'
    /\ (req = $"shutdown:" -> halts p' /\ os = []).
Proof.
  intros R S N. unfold step in S. destruct (w_alive w); cbn [negb] in S; [|discriminate S].
  rewrite N in S. cbn [step_thread] in S. destruct (e_client e) as [req|] eqn:EC; [|discriminate S].
  unfold run_cs in S. destruct (request O e w req) as [[[lk p] os]|m|] eqn:RQ; [..|discriminate S]; injection S as <-.
  - exists req, os, p. split; [cbn; rewrite <- app_assoc; reflexivity|]. split; [exact (nth_list_set_same _ _ _ _ N)|].
    intros ->. rewrite request_shutdown in RQ. injection RQ as _ <- <-. split; [left; reflexivity|reflexivity].
  - exists req, [], PMain. split; [reflexivity|]. split; [exact (nth_list_set_same _ _ _ _ N)|].
    intros ->. rewrite request_shutdown in RQ. discriminate RQ.
Qed.

Lemma main_os O w e lk' p' os : csr O w e PMain lk' p' os ->
  exists req os', os = OClient req :: os' /\ forall r, ~ In (OClient r) os'.
Proof.
  intros C. inversion C; subst; eexists; eexists; (split; [reflexivity|]); intros r X; cbn in X;
    repeat match goal with Y : _ \/ _ |- _ => destruct Y as [Y|Y] end; try discriminate; contradiction.
Qed.

Lemma told_halts O w : reachable O w -> w_alive w = true -> told_to_stop (w_trace w) ->
  exists p, nth_error (w_threads w) 0 = Some p /\ halts p.
Proof.
  revert w. apply (reach_ind O (fun w => w_alive w = true -> told_to_stop (w_trace w) ->
    exists p, nth_error (w_threads w) 0 = Some p /\ halts p)).
  - intros e c hp hsp pk _ _ _ ([|o t1] & t2 & E & _); [discriminate E|]. injection E as _ E. destruct t1; discriminate E.
  - intros w l w' R I I' A IH S T A' TS. specialize (IH A).
    pose proof (ro_pc _ (reach_roles _ _ R)) as RO.
    assert (R' : reachable O w') by exact (reach_step _ _ _ _ R S).
    destruct T as [tid e p lk' p' os N C|tid e p w' N SY|https bytes P].
    + assert (p = PMain \/ p <> PMain) as [->|NM] by (destruct p; (left; reflexivity) || (right; discriminate)).
      * pose proof (RO _ _ N) as RN. assert (tid = 0) as -> by (destruct tid as [|[|[|[|tid]]]]; discriminate RN || reflexivity).
        destruct (main_csr _ _ _ _ _ R S N) as (req & os1 & p1 & E & N1 & H1).
        destruct (main_os _ _ _ _ _ _ C) as (req2 & os2 & -> & Q). pose proof E as E0. cbn in E. apply app_inv_head in E. injection E as -> ->.
        exists p1. split; [exact N1|]. apply H1. exact (told_last _ _ _ TS Q).
      * assert (told_to_stop (w_trace w)) as TW.
        { refine (told_less _ os _ _); [exact TS|]. intros r X. pose proof (csr_quiet _ _ _ _ _ _ _ C NM _ X) as Y. discriminate Y. }
        destruct (IH TW) as (q & NQ & HQ). exists q. split; [|exact HQ]. change (nth_error (list_set tid p' (w_threads w)) 0 = Some q). rewrite nth_error_list_set_ne; [exact NQ|].
        intros X. subst tid. pose proof (RO _ _ N) as RN. destruct C; try discriminate RN; exact (NM eq_refl).
    + assert (forall t q, nth_error (w_threads w) t = Some q -> halts q -> t = tid -> forall a k, p = PDo a k ->
        nth_error (list_set tid k (w_threads w)) t = Some k /\ (a <> AHalt -> halts k)) as OWN.
      { intros t q NQ HQ -> a k ->. split; [exact (nth_list_set_same _ _ _ _ N)|]. rewrite N in NQ. injection NQ as <-.
        intros NA. destruct HQ as [X|X]; [congruence|exact X]. }
      assert (told_to_stop (w_trace w) -> (forall a k, p <> PDo a k) -> forall k,
        exists q, nth_error (list_set tid k (w_threads w)) 0 = Some q /\ halts q) as KEEP.
      { intros TW NP k. destruct (IH TW) as (q & NQ & HQ). exists q. split; [|exact HQ].
        rewrite nth_error_list_set_ne; [exact NQ|]. intros X. subst tid. rewrite N in NQ. injection NQ as ->.
        destruct q as [|a k0| | | | | | | | | | | | | | | | | | | | | | | | | | | |]; try destruct HQ; exact (NP _ _ eq_refl). }
      destruct SY as [a k| | | | | | | | | | |]; try (apply KEEP; [exact TS|intros a0 k0 X; discriminate X]).
      assert (a <> AHalt) as NA by (intros ->; discriminate A').
      assert (told_to_stop (w_trace w)) as TW.
      { destruct a as [| |n ev| |i|o|]; try exact TS; try congruence.
        - refine (told_less _ [OEvent n ev] TS _). intros r [X|[]]. discriminate X.
        - refine (told_less _ [o] TS _). pose proof (emits_plain _ _ R _ _ o N (or_introl eq_refl)) as EP.
          intros r [X|[]]. subst o. discriminate EP. }
      destruct (IH TW) as (q & NQ & HQ).
      assert (exists q, nth_error (list_set tid k (w_threads w)) 0 = Some q /\ halts q) as (q1 & N1 & H1).
      { destruct (Nat.eq_dec 0 tid) as [E|NE].
        - destruct (OWN 0 q NQ HQ E a k eq_refl) as [X Y]. exists k. split; [exact X|exact (Y NA)].
        - exists q. split; [|exact HQ]. rewrite nth_error_list_set_ne by congruence. exact NQ. }
      exists q1. split; [|exact H1]. destruct a; try exact N1.
      change (nth_error (list_set tid k (w_threads w) ++ [PRefStart i]) 0 = Some q1). rewrite nth_error_app1; [exact N1|].
      apply nth_error_Some. rewrite N1. discriminate.
    + assert (told_to_stop (w_trace w)) as TW.
      { refine (told_less _ [OHttpIn https bytes] TS _). intros r [X|[]]. discriminate X. }
      destruct (IH TW) as (q & NQ & HQ). exists q. split; [|exact HQ].
      change (nth_error (w_threads w ++ [PHttpStart https bytes]) 0 = Some q). rewrite nth_error_app1; [exact NQ|].
      apply nth_error_Some. rewrite NQ. discriminate.
Qed.

(** In a fair run the server told to stop does stop. *)
Lemma halting_stops O ws ls : endless O ws ls -> fair_while_up ws ls ->
  forall p k, nth_error (w_threads (ws k)) 0 = Some p -> halts p -> exists j, k <= j /\ w_alive (ws j) = false.
Proof.
  intros EN FA. induction p as [|a p IH| | | | | | | | | | | | | | | | | | | | | | | | | | | |]; intros k N H; try (destruct H; fail).
  assert (0 < List.length (w_threads (ws k))) as L by (apply nth_error_Some; rewrite N; discriminate).
  destruct (FA 0 k L) as (j & KJ & X).
  destruct (first_step ls k 0 (S (j - k))) as [NG|(m & KM & _ & (e & GE) & NG)].
  - assert (nth_error (w_threads (ws j)) 0 = Some (PDo a p)) as NJ.
    { pose proof (at_stays O ws ls EN k 0 (PDo a p) (j - k) N) as Y. unfold at_ in Y. replace (k + (j - k)) with j in Y by lia.
      apply Y. intros n A B. apply NG; lia. }
    destruct X as [D|[RS|G]].
    + exists j. split; [exact KJ|exact D].
    + exfalso. exact (restless_not _ _ _ NJ Logic.I RS).
    + exfalso. exact (NG j KJ ltac:(lia) G).
  - assert (nth_error (w_threads (ws m)) 0 = Some (PDo a p)) as NM.
    { pose proof (at_stays O ws ls EN k 0 (PDo a p) (m - k) N) as Y. unfold at_ in Y. replace (k + (m - k)) with m in Y by lia.
      apply Y. intros n A B. apply NG; lia. }
    pose proof (en_next _ _ _ EN m) as S. rewrite GE in S.
    destruct (done_next O ws ls EN m 0 a p e NM S) as [E N'].
    assert (a = AHalt \/ a <> AHalt) as [->|NA] by (destruct a; (left; reflexivity) || (right; discriminate)).
    + exists (Datatypes.S m). split; [lia|]. rewrite E. reflexivity.
    + destruct (IH _ N') as (i & A & B); [destruct H as [H|H]; [congruence|exact H]|]. exists i. split; [lia|exact B].
Qed.

Lemma told_stops O ws ls k :
  endless O ws ls -> fair_while_up ws ls -> told_to_stop (w_trace (ws k)) -> exists j, k <= j /\ w_alive (ws j) = false.
Proof.
  intros EN FA TS. destruct (w_alive (ws k)) eqn:A; [|exists k; split; [lia|exact A]].
  destruct (told_halts _ _ (reach_at _ _ _ EN k) A TS) as (p & N & H).
  exact (halting_stops O ws ls EN FA p k N H).
Qed.
