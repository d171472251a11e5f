(** From replies in the trace back to the state in which they were given. *)
From Verif Require Import Base BaseLemmas Time Utf8 Base64 Url Json Oracles Config Dump State Http
  Timers Server StateLemmas ConfigLemmas SpecServer Steps Inv Reach Own Trace Origin.

(** The main thread does not look at its next request in this step. *)
Definition main_busy (w : world) (l : label) : Prop :=
  forall e, l = LTick 0 e -> nth_error (w_threads w) 0 <> Some PMain.

Lemma csr_not_main O w e p lk' p' os req txt :
  csr O w e p lk' p' os -> In (AEmit (OReply req txt)) (chain p') -> p = PMain.
Proof. intros C I. apply (csr_chain _ _ _ _ _ _ _ _ C) in I. apply I. Qed.

Lemma chain_role_main O w tid p req txt :
  reachable O w -> nth_error (w_threads w) tid = Some p -> In (AEmit (OReply req txt)) (chain p) -> tid = 0.
Proof.
  intros R N I.
  assert (Forall (fun p => In (AEmit (OReply req txt)) (chain p) -> pc_role p = RoMain) (w_threads w)) as F.
  { clear N I p tid. revert w R.
    apply (reach_ind O (fun w => Forall (fun p => In (AEmit (OReply req txt)) (chain p) -> pc_role p = RoMain) (w_threads w))).
    - intros. repeat constructor; intros [].
    - intros w l w' R I I' A F S T.
      destruct T as [tid e p lk' p' os N C|tid e p w' N SY|https bytes P]; simpl.
      + apply forall_list_set; [exact F|]. intros X. rewrite (csr_role _ _ _ _ _ _ _ C).
        rewrite (csr_not_main _ _ _ _ _ _ _ _ _ C X). reflexivity.
      + assert (In (AEmit (OReply req txt)) (chain p) -> pc_role p = RoMain) as SO
          by (rewrite Forall_forall in F; apply F; eapply nth_error_In; exact N).
        destruct SY; simpl; try (apply forall_list_set; [exact F|intros []]).
        assert (Forall (fun p => In (AEmit (OReply req txt)) (chain p) -> pc_role p = RoMain)
                  (list_set tid k (w_threads w))) as F'.
        { apply forall_list_set; [exact F|]. intros X. apply SO. right. exact X. }
        destruct a; simpl; try exact F'. apply Forall_app. split; [exact F'|].
        constructor; [intros []|constructor].
      + apply Forall_app. split; [exact F|]. constructor; [intros []|constructor]. }
  rewrite Forall_forall in F. specialize (F p (nth_error_In _ _ N) I).
  pose proof (ro_pc _ (reach_roles _ _ R) _ _ N) as RO. rewrite F in RO.
  destruct tid as [|[|[|[|tid]]]]; try discriminate. reflexivity.
Qed.

Lemma reply_principle O (Q : world -> str -> str -> Prop) :
  (forall w e lk' p' os req txt, reachable O w -> reachable O (after_cs w 0 lk' p' os) ->
     nth_error (w_threads w) 0 = Some PMain ->
     csr O w e PMain lk' p' os -> In (AEmit (OReply req txt)) (chain p') ->
     Q (after_cs w 0 lk' p' os) req txt) ->
  (forall w l w' req txt, reachable O w -> step O w l = SNext w' -> tstep O w l w' -> main_busy w l ->
     Q w req txt -> Q w' req txt) ->
  forall w, reachable O w -> forall t1 req txt t2, w_trace w = t1 ++ OReply req txt :: t2 ->
  exists w1, reachable O w1 /\ steps O w1 w /\ w_trace w1 = t1 /\ Q w1 req txt
             /\ nth_error (w_threads w1) 0 = Some (reply req txt).
Proof.
  intros H1 H2 w R.
  cut ((forall p req txt, nth_error (w_threads w) 0 = Some p -> In (AEmit (OReply req txt)) (chain p) -> Q w req txt)
       /\ (forall p req txt, nth_error (w_threads w) 0 = Some p -> In (AEmit (OReply req txt)) (chain p) ->
             exists a, a ++ [AEmit (OReply req txt)] = chain p /\ forall r t, ~ In (AEmit (OReply r t)) a)
       /\ trace_all (fun t1 o => match o with
             | OReply req txt => exists w1, reachable O w1 /\ steps O w1 w /\ w_trace w1 = t1 /\ Q w1 req txt
                                   /\ nth_error (w_threads w1) 0 = Some (reply req txt)
             | _ => True end) (w_trace w)).
  { intros (_ & _ & H) t1 req txt t2 E. exact (H t1 _ t2 E). }
  revert w R.
  apply (reach_ind O (fun w =>
    (forall p req txt, nth_error (w_threads w) 0 = Some p -> In (AEmit (OReply req txt)) (chain p) -> Q w req txt)
    /\ (forall p req txt, nth_error (w_threads w) 0 = Some p -> In (AEmit (OReply req txt)) (chain p) ->
             exists a, a ++ [AEmit (OReply req txt)] = chain p /\ forall r t, ~ In (AEmit (OReply r t)) a)
    /\ trace_all (fun t1 o => match o with
             | OReply req txt => exists w1, reachable O w1 /\ steps O w1 w /\ w_trace w1 = t1 /\ Q w1 req txt
                                   /\ nth_error (w_threads w1) 0 = Some (reply req txt)
             | _ => True end) (w_trace w))).
  - intros e c hp hsp pk _ _. simpl. split; [intros p req txt [= <-] []|]. split; [intros p req txt [= <-] []|].
    change [OConfig c] with ([] ++ [OConfig c]). apply trace_all_snoc; [apply trace_all_nil|exact Logic.I].
  - intros w l w' R I I' A (K & KL & TA) S T.
    assert (reachable O w') as R' by (eapply reach_step; eassumption).
    assert (trace_all (fun t1 o => match o with
             | OReply req txt => exists w1, reachable O w1 /\ steps O w1 w' /\ w_trace w1 = t1 /\ Q w1 req txt
                                   /\ nth_error (w_threads w1) 0 = Some (reply req txt)
             | _ => True end) (w_trace w)) as TA'.
    { intros t1 o t2 E. specialize (TA t1 o t2 E). simpl in TA. destruct o; try exact Logic.I.
      destruct TA as (w1 & R1 & ST & E1 & Q1 & N1). exists w1. repeat split; auto.
      eapply steps_step; eassumption. }
    assert (forall p q req txt, nth_error (w_threads w) 0 = Some p -> In (AEmit (OReply req txt)) (chain q) ->
              q = p \/ (exists a, p = PDo a q) -> main_busy w l -> Q w' req txt) as STAY.
    { intros p q req txt N0 IN X MB. apply (H2 w l w' req txt R S T MB).
      destruct X as [->|[a ->]]; [exact (K _ _ _ N0 IN)|exact (K _ _ _ N0 (or_intror IN))]. }
    assert (forall q req txt, nth_error (w_threads w) 0 = Some q ->
              main_busy w l -> In (AEmit (OReply req txt)) (chain q) -> Q w' req txt) as STAY0.
    { intros q req txt N0 MB IN. eapply STAY; eauto. }
    destruct T as [tid e p lk' p' os N C|tid e p w' N SY|https bytes P].
    + assert (forall q req txt, nth_error (list_set tid p' (w_threads w)) 0 = Some q ->
                In (AEmit (OReply req txt)) (chain q) ->
                (tid = 0 /\ q = p' /\ p = PMain) \/ (tid <> 0 /\ nth_error (w_threads w) 0 = Some q)) as CS.
      { intros q req txt N0 IN. destruct (Nat.eq_dec tid 0) as [->|NE].
        - left. rewrite (nth_list_set_same _ _ _ _ N) in N0. injection N0 as <-.
          rewrite (csr_not_main _ _ _ _ _ _ _ _ _ C IN). auto.
        - right. rewrite nth_error_list_set_ne in N0 by congruence. auto. }
      split; [|split].
      * simpl. intros q req txt N0 IN. destruct (CS q req txt N0 IN) as [(-> & -> & ->)|[NE N1]].
        -- eapply H1; eassumption.
        -- eapply STAY0; try eassumption. intros e' [= -> _]. congruence.
      * simpl. intros q req txt N0 IN. destruct (CS q req txt N0 IN) as [(-> & -> & ->)|[NE N1]].
        -- clear - C IN. inversion C; subst; simpl in *;
             repeat match goal with X : _ \/ _ |- _ => destruct X as [X|X]; try discriminate X end;
             try contradiction;
             repeat match goal with X : AEmit _ = AEmit _ |- _ => injection X as <- <- end;
             first [exists []; split; [reflexivity|intros r t []; fail]
                   |eexists [_]; split; [reflexivity|intros r t [X|[]]; discriminate X]
                   |eexists [_;_]; split; [reflexivity|intros r t [X|[X|[]]]; discriminate X]].
        -- eapply KL; eassumption.
      * simpl. apply trace_all_app; [exact TA'|]. intros a x b E. destruct x; try exact Logic.I. exfalso.
        assert (In (OReply req reply) os) as IO by (rewrite E; apply in_or_app; right; left; reflexivity).
        clear - C IO. destruct C; simpl in IO;
          repeat match goal with X : _ \/ _ |- _ => destruct X as [X|X]; try discriminate X end; try contradiction;
          try (destruct IO; fail).
    + assert (nth_error (w_threads w) 0 = Some p -> tid = 0 -> p <> PMain) as NM.
      { intros _ _ ->. inversion SY. }
      assert (main_busy w (LTick tid e)) as MB.
      { intros e' [= -> _] X. rewrite X in N. injection N as <-. inversion SY. }
      destruct SY;
        try (split; [|split; [|simpl; exact TA']]; intros q0 req txt N0 IN;
             cbn [w_threads set_thread set_ev set_evq set_nt set_rf] in N0;
             (destruct (Nat.eq_dec tid 0) as [->|NE];
              [rewrite (nth_list_set_same _ _ _ _ N) in N0; injection N0 as <-; destruct IN
              |rewrite nth_error_list_set_ne in N0 by congruence; solve [eapply STAY0; eassumption|eapply KL; eassumption]])).
      assert (forall q, nth_error (list_set tid k (w_threads w)) 0 = Some q ->
                 (q = k /\ tid = 0) \/ nth_error (w_threads w) 0 = Some q) as CS.
      { intros q N0. destruct (Nat.eq_dec tid 0) as [->|NE].
        - rewrite (nth_list_set_same _ _ _ _ N) in N0. injection N0 as <-. auto.
        - rewrite nth_error_list_set_ne in N0 by congruence. auto. }
      assert (forall q, nth_error (w_threads (do_action (set_thread w tid k) a)) 0 = Some q ->
                 (q = k /\ tid = 0) \/ nth_error (w_threads w) 0 = Some q) as CS'.
      { intros q N0. destruct a; try (apply CS; exact N0).
        change (nth_error (list_set tid k (w_threads w) ++ [PRefStart i]) 0 = Some q) in N0.
        rewrite nth_error_app1 in N0; [apply CS; exact N0|]. rewrite list_set_length.
        pose proof (ro_len _ (reach_roles _ _ R)). lia. }
      split; [|split].
      * intros q req txt N0 IN. destruct (CS' q N0) as [[-> ->]|N1].
        -- eapply STAY; try eassumption. right. eauto.
        -- eapply STAY0; eassumption.
      * intros q req txt N0 IN. destruct (CS' q N0) as [[-> ->]|N1]; [|eapply KL; eassumption].
        destruct (KL _ req txt N) as (b & E & NR); [right; exact IN|]. simpl in E.
        destruct b as [|x b]; simpl in E.
        -- injection E as _ E. rewrite <- E in IN. destruct IN.
        -- injection E as _ E. exists b. split; [exact E|]. intros r t X. apply (NR r t). right. exact X.
      * rewrite do_action_trace. change (w_trace (set_thread w tid k)) with (w_trace w). apply trace_all_app; [exact TA'|].
        intros b x c E. destruct x; try exact Logic.I.
        destruct a; simpl in E; try (destruct b; discriminate E);
          try (destruct b as [|? [|? ?]]; discriminate E).
        destruct b as [|? [|? ?]]; simpl in E; try discriminate E. injection E as -> <-.
        rewrite app_nil_r.
        assert (tid = 0) as -> by (eapply chain_role_main; [exact R|exact N|left; reflexivity]).
        exists w. split; [exact R|]. split; [eapply steps_step; [apply steps_refl|exact S]|].
        split; [reflexivity|]. split; [eapply K; [exact N|left; reflexivity]|].
        rewrite N. f_equal. unfold Server.reply. f_equal.
        destruct (KL _ req reply N (or_introl eq_refl)) as (b & E & NR). simpl in E.
        assert (chain k = []) as CK.
        { destruct b as [|y b]; simpl in E; [injection E as E; symmetry; exact E|].
          exfalso. injection E as -> _. apply (NR req reply). left. reflexivity. }
        pose proof (ro_pc _ (reach_roles _ _ R) _ _ N) as RO. simpl in RO.
        destruct k; simpl in *; try discriminate. reflexivity.
    + split; [|split].
      * intros q req txt N0 IN. eapply STAY0; try eassumption; [|intros e'; discriminate].
        change (nth_error (w_threads w ++ [PHttpStart https bytes]) 0 = Some q) in N0.
        rewrite nth_error_app1 in N0; [exact N0|]. pose proof (ro_len _ (reach_roles _ _ R)). lia.
      * intros q req txt N0 IN. eapply KL; try eassumption.
        change (nth_error (w_threads w ++ [PHttpStart https bytes]) 0 = Some q) in N0.
        rewrite nth_error_app1 in N0; [exact N0|]. pose proof (ro_len _ (reach_roles _ _ R)). lia.
      * simpl. apply trace_all_snoc; [exact TA'|exact Logic.I].
Qed.
