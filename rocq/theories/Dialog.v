(** At most one reply per request (C41). *)
From Verif Require Import Base BaseLemmas Time Utf8 Base64 Url Json Oracles Config Dump State Http
  Timers Server StateLemmas ConfigLemmas SpecServer Steps Inv Reach Own Trace Reply.

Lemma unanswered_app a b r : unanswered (a ++ b) r = unanswered b (unanswered a r).
Proof. revert r. induction a as [|o a IH]; intros r; [reflexivity|]. destruct o; simpl; apply IH. Qed.

Definition quiet_obs (o : obs) : bool := match o with OClient _ | OReply _ _ => false | _ => true end.

Lemma unanswered_quiet t r : (forall o, In o t -> quiet_obs o = true) -> unanswered t r = r.
Proof.
  revert r. induction t as [|o t IH]; intros r H; [reflexivity|].
  pose proof (H o (or_introl eq_refl)) as Q. destruct o; try discriminate Q; simpl; apply IH; intros x X; apply H; right; exact X.
Qed.

Definition reply_of (a : action) : list str := match a with AEmit (OReply r _) => [r] | _ => [] end.
Definition replies (l : list action) : list str := flat_map reply_of l.

Lemma replies_in l req txt : In (AEmit (OReply req txt)) l -> In req (replies l).
Proof. intros H. apply in_flat_map. eexists. split; [exact H|]. left. reflexivity. Qed.

Lemma replies_none l : (forall req txt, ~ In (AEmit (OReply req txt)) l) -> replies l = [].
Proof.
  intros H. induction l as [|a l IH]; [reflexivity|]. simpl. rewrite IH.
  - destruct a as [| | | | |o|]; try reflexivity. destruct o; try reflexivity. exfalso. eapply H. left. reflexivity.
  - intros r t X. apply (H r t). right. exact X.
Qed.

Lemma csr_quiet O w e p lk' p' os :
  csr O w e p lk' p' os -> p <> PMain -> forall o, In o os -> quiet_obs o = true.
Proof.
  intros C NM o IO. destruct C; try congruence; simpl in IO;
    repeat match goal with X : _ \/ _ |- _ => destruct X as [X|X] end; subst; try contradiction; reflexivity.
Qed.

Lemma csr_main_replies O w e lk' p' os :
  csr O w e PMain lk' p' os ->
  exists req, unanswered os None = Some req /\ (forall r, unanswered os r = Some req)
    /\ (replies (chain p') = [] \/ replies (chain p') = [req]).
Proof.
  intros C. inversion C; subst; simpl; eexists; repeat split; auto.
Qed.

Definition answering (w : world) : Prop :=
  forall p, nth_error (w_threads w) 0 = Some p ->
    replies (chain p) = [] \/ exists r, replies (chain p) = [r] /\ unanswered (w_trace w) None = Some r.

Lemma reach_answering O w : reachable O w -> answering w.
Proof.
  revert w. apply (reach_ind O answering).
  - intros e c hp hsp pk _ _ p [= <-]. left. reflexivity.
  - intros w l w' R I I' A IH S T.
    destruct T as [tid e p lk' p' os N C|tid e p w' N SY|https bytes P].
    + intros q NQ. cbn [w_threads w_trace after_cs emit set_thread set_lk] in NQ |- *. rewrite unanswered_app. destruct (Nat.eq_dec tid 0) as [->|NE].
      * rewrite (nth_list_set_same _ _ _ _ N) in NQ. injection NQ as <-.
        assert (p = PMain \/ p <> PMain) as [->|NM] by (destruct p; (left; reflexivity) || (right; discriminate)).
        -- destruct (csr_main_replies _ _ _ _ _ _ C) as (req & _ & U & [H|H]); [left; exact H|].
           right. exists req. split; [exact H|apply U].
        -- left. apply replies_none. intros r t X. apply NM. eapply csr_not_main; eassumption.
      * rewrite nth_error_list_set_ne in NQ by congruence.
        assert (p <> PMain) as NM.
        { intros ->. pose proof (ro_pc _ (reach_roles _ _ R) _ _ N) as RO. simpl in RO.
          destruct tid as [|[|[|[|tid]]]]; simpl in RO; congruence. }
        rewrite (unanswered_quiet os) by (eapply csr_quiet; eassumption). apply IH. exact NQ.
    + destruct SY;
        try (intros p2 NQ; cbn [w_threads set_thread set_ev set_evq set_nt set_rf w_trace] in NQ |- *;
             destruct (Nat.eq_dec tid 0) as [->|NE];
             [rewrite (nth_list_set_same _ _ _ _ N) in NQ; injection NQ as <-; left; reflexivity
             |rewrite nth_error_list_set_ne in NQ by congruence; apply IH; exact NQ]).
      intros p2 NQ. rewrite do_action_trace. change (w_trace (set_thread w tid k)) with (w_trace w).
      rewrite unanswered_app.
      assert (nth_error (list_set tid k (w_threads w)) 0 = Some p2) as NQ'.
      { destruct a; try exact NQ.
        change (nth_error (list_set tid k (w_threads w) ++ [PRefStart i]) 0 = Some p2) in NQ.
        rewrite nth_error_app1 in NQ; [exact NQ|]. rewrite list_set_length.
        pose proof (ro_len _ (reach_roles _ _ R)). lia. }
      destruct (Nat.eq_dec tid 0) as [->|NE].
      * rewrite (nth_list_set_same _ _ _ _ N) in NQ'. injection NQ' as <-.
        pose proof (IH _ N) as [H|(r & H & U)]; simpl in H.
        -- left. apply app_eq_nil in H. apply H.
        -- destruct a as [| |n ev| |i|o|]; simpl in H; try (right; exists r; split; [exact H|exact U]).
           destruct o; simpl in H; try (right; exists r; split; [exact H|exact U]).
           ++ exfalso. (* a chain never holds a request *)
              assert (Forall (fun p => forall a, In a (chain p) -> match a with AEmit (OClient _) => False | _ => True end) (w_threads w)) as F.
              { clear - R. revert w R. apply (reach_ind O).
                - intros. repeat constructor; intros a [].
                - intros w l w' R I I' A F S T. eapply tstep_chain_inv; try eassumption.
                  intros e p lk' p' os a C Ia. pose proof (csr_chain _ _ _ _ _ _ _ a C Ia) as X.
                  destruct a; try exact Logic.I. destruct o; try exact Logic.I. exact X. }
              rewrite Forall_forall in F. apply (F _ (nth_error_In _ _ N) (AEmit (OClient req)) (or_introl eq_refl)).
           ++ left. injection H as _ H. exact H.
      * rewrite nth_error_list_set_ne in NQ' by congruence.
        rewrite unanswered_quiet; [apply IH; exact NQ'|]. intros o IO.
        destruct o; try reflexivity; exfalso.
        -- assert (Forall (fun p => forall a, In a (chain p) -> match a with AEmit (OClient _) => False | _ => True end) (w_threads w)) as F.
           { clear - R. revert w R. apply (reach_ind O).
             - intros. repeat constructor; intros a [].
             - intros w l w' R I I' A F S T. eapply tstep_chain_inv; try eassumption.
               intros e p lk' p' os a C Ia. pose proof (csr_chain _ _ _ _ _ _ _ a C Ia) as X.
               destruct a; try exact Logic.I. destruct o; try exact Logic.I. exact X. }
           rewrite Forall_forall in F. specialize (F _ (nth_error_In _ _ N) a (or_introl eq_refl)).
           destruct a; simpl in IO; try destruct IO as [IO|[]]; try discriminate IO; try contradiction. subst o. exact F.
        -- apply NE. eapply chain_role_main; [exact R|exact N|]. simpl. left.
           destruct a; simpl in IO; try destruct IO as [IO|[]]; try discriminate IO; try contradiction. subst o. reflexivity.
    + intros q NQ. cbn [w_threads w_trace add_thread emit] in NQ |- *. rewrite unanswered_app. cbn [unanswered]. apply IH.
      rewrite nth_error_app1 in NQ; [exact NQ|]. pose proof (ro_len _ (reach_roles _ _ R)). lia.
Qed.

Lemma one_reply O w t1 req txt t2 :
  reachable O w -> w_trace w = t1 ++ OReply req txt :: t2 -> unanswered t1 None = Some req.
Proof.
  intros R E.
  destruct (reply_principle O (fun _ _ _ => True) ltac:(intros; exact Logic.I) ltac:(intros; exact Logic.I) w R t1 req txt t2 E)
    as (w1 & R1 & _ & <- & _ & N1).
  destruct (reach_answering _ _ R1 _ N1) as [H|(r & H & U)]; [discriminate H|].
  simpl in H. injection H as <-. exact U.
Qed.
