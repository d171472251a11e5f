(** Token events: queued, delivered, and the eventer's sleep. *)
From Verif Require Import Base BaseLemmas Time Utf8 Base64 Url Json Oracles Config Dump State Http
  Timers Server StateLemmas ConfigLemmas SpecServer Steps Inv Reach Own Trace SpecTimers Refresh Wake.

Lemma subseq_refl {A} (l : list A) : subseq l l.
Proof. induction l as [|x l IH]; [apply ss_nil|apply ss_take, IH]. Qed.

Lemma subseq_snoc {A} (a b : list A) x : subseq a b -> subseq (a ++ [x]) (b ++ [x]).
Proof.
  intros S. induction S as [l|y a b S IH|y a b S IH].
  - induction l as [|y l IH]; cbn; [apply ss_take, ss_nil|apply ss_skip, IH].
  - cbn. apply ss_skip, IH.
  - cbn. apply ss_take, IH.
Qed.

Lemma subseq_trans {A} (a b c : list A) : subseq a b -> subseq b c -> subseq a c.
Proof.
  intros S1 S2. revert a S1. induction S2 as [l|y b c S IH|y b c S IH]; intros a S1.
  - inversion S1; subst. apply ss_nil.
  - apply ss_skip, IH, S1.
  - inversion S1; subst; [apply ss_nil|apply ss_skip, IH; assumption|apply ss_take, IH; assumption].
Qed.

Lemma subseq_drop {A} (a b : list A) x c : subseq (a ++ x :: b) c -> subseq (a ++ b) c.
Proof.
  intros S. eapply subseq_trans; [|exact S]. clear. induction a as [|y a IH]; cbn.
  - apply ss_skip, subseq_refl.
  - apply ss_take, IH.
Qed.

Lemma subseq_prefix {A} (a b c : list A) : subseq (a ++ b) c -> subseq a c.
Proof.
  intros S. eapply subseq_trans; [|exact S]. clear. induction a as [|y a IH]; cbn; [apply ss_nil|apply ss_take, IH].
Qed.

(** The event the eventer has taken but not delivered yet. *)
Definition in_hand (p : pc) : list (str * token_event) :=
  match p with PEvCmd n ev | PEvRun _ n ev => [(n, ev)] | _ => [] end.

Definition busy (p : pc) : nat := match p with PEvRunning => 1 | _ => 0 end.

Lemma queued_app a b : queued (a ++ b) = queued a ++ queued b.
Proof. apply flat_map_app. Qed.
Lemma delivered_app a b : delivered (a ++ b) = delivered a ++ delivered b.
Proof. apply flat_map_app. Qed.
Lemma running_app a b n : running (a ++ b) n = running b (running a n).
Proof. revert n. induction a as [|o a IH]; intros n; [reflexivity|]. destruct o; cbn; apply IH. Qed.

(** Observations that have nothing to do with events. *)
Definition plain (o : obs) : bool :=
  match o with OEvent _ _ | OEventCmd _ _ _ | OEventCmdEnd => false | _ => true end.

Lemma plain_nothing os : (forall o, In o os -> plain o = true) ->
  queued os = [] /\ delivered os = [] /\ (forall n, running os n = n).
Proof.
  induction os as [|o os IH]; intros P; [auto|].
  destruct (IH (fun o' I => P o' (or_intror I))) as (A & B & C).
  pose proof (P o (or_introl eq_refl)) as PO. destruct o; try discriminate PO; cbn; auto.
Qed.

Lemma csr_plain O w e p lk' p' os :
  csr O w e p lk' p' os -> pc_role p <> RoEventer -> forall o, In o os -> plain o = true.
Proof.
  intros C NE o I. destruct C; cbn in NE; try congruence; cbn in I;
    repeat (destruct I as [I|I]; [subst o; reflexivity|]); destruct I.
Qed.

(** Only replies and notifications are sent off by chains of actions. *)
Lemma reach_chain_plain O w : reachable O w ->
  Forall (fun p => forall a, In a (chain p) -> forall o, a = AEmit o -> plain o = true) (w_threads w).
Proof.
  revert w. apply (reach_ind O (fun w =>
    Forall (fun p => forall a, In a (chain p) -> forall o, a = AEmit o -> plain o = true) (w_threads w))).
  - intros. repeat constructor; intros a [].
  - intros w l w' _ _ _ _ F _ T.
    apply (tstep_chain_inv (fun a => forall o, a = AEmit o -> plain o = true) O w l w'); [|exact F|exact T].
    intros e p lk' p' os a C I o ->. pose proof (csr_chain _ _ _ _ _ _ _ _ C I) as X. cbn in X.
    destruct o; try contradiction; reflexivity.
Qed.

(** The eventer's program counter. *)
Definition ev_pc (w : world) : pc := nth 1 (w_threads w) PEvTop.

Lemma ev_pc_nth O w : reachable O w -> nth_error (w_threads w) 1 = Some (ev_pc w).
Proof.
  intros R. destruct (reach_roles _ _ R) as [LEN _]. apply nth_error_nth'. lia.
Qed.

Record ev_inv (w : world) : Prop := mkEvInv {
  evi_order : subseq (delivered (w_trace w) ++ in_hand (ev_pc w) ++ w_evq w) (queued (w_trace w));
  evi_all : events_wanted (w_trace w) ->
            queued (w_trace w) = delivered (w_trace w) ++ in_hand (ev_pc w) ++ w_evq w;
  evi_busy : running (w_trace w) 0 = busy (ev_pc w);
  evi_one : forall t1 c n ev t2, w_trace w = t1 ++ OEventCmd c n ev :: t2 -> running t1 0 = 0;
  evi_end : forall t1 t2, w_trace w = t1 ++ OEventCmdEnd :: t2 -> running t1 0 = 1;
}.

Lemma wanted_app a b : events_wanted (a ++ b) -> events_wanted a.
Proof. intros W c I. apply W, in_or_app. left. exact I. Qed.

Lemma plain_not_cmd os t1 t2 t x :
  (forall o, In o os -> plain o = true) -> plain x = false -> t ++ os = t1 ++ x :: t2 ->
  exists t2', t = t1 ++ x :: t2'.
Proof.
  intros P PX. revert t2. induction os as [|o os IH] using rev_ind; intros t2 E.
  - rewrite app_nil_r in E. eauto.
  - rewrite app_assoc in E. apply app_cons_eq in E as [(_ & <- & _)|(t2' & _ & E)].
    + rewrite (P x) in PX; [discriminate PX|]. apply in_or_app. right. left. reflexivity.
    + eapply IH; [|exact E]. intros o' I. apply P, in_or_app. left. exact I.
Qed.

(** A step that keeps the eventer where it is, emitting only plain observations. *)
Lemma ev_inv_plain w w' os :
  ev_inv w -> ev_pc w' = ev_pc w -> w_evq w' = w_evq w -> w_trace w' = w_trace w ++ os ->
  (forall o, In o os -> plain o = true) -> ev_inv w'.
Proof.
  intros [A B C D E] EP EQ ET P. destruct (plain_nothing _ P) as (Q1 & Q2 & Q3).
  constructor; rewrite ET, ?EP, ?EQ, ?queued_app, ?delivered_app, ?running_app, ?Q1, ?Q2, ?Q3, ?app_nil_r.
  - exact A.
  - intros W. apply B. eapply wanted_app. exact W.
  - exact C.
  - intros t1 c n ev t2 X. apply plain_not_cmd in X as (t2' & X); [eapply D; exact X|exact P|reflexivity].
  - intros t1 t2 X. apply plain_not_cmd in X as (t2' & X); [eapply E; exact X|exact P|reflexivity].
Qed.

(** A move of the eventer that emits nothing. *)
Lemma ev_inv_move w w' :
  ev_inv w -> w_trace w' = w_trace w -> busy (ev_pc w') = busy (ev_pc w) ->
  (in_hand (ev_pc w') ++ w_evq w' = in_hand (ev_pc w) ++ w_evq w
   \/ (c_token_event_cmd (conf w) = None /\ config_at (w_trace w) = Some (conf w)
       /\ in_hand (ev_pc w') = [] /\ w_evq w' = w_evq w)) -> ev_inv w'.
Proof.
  intros [A B C D E] ET EB H. constructor; rewrite ?ET, ?EB; try assumption.
  - destruct H as [->|(_ & _ & -> & ->)]; [exact A|]. cbn.
    destruct (in_hand (ev_pc w)) as [|x [|y l]] eqn:IH; [exact A| |destruct (ev_pc w); discriminate IH].
    eapply subseq_drop. exact A.
  - intros W. destruct H as [->|(NC & CA & _ & _)]; [apply B; exact W|]. exfalso.
    assert (In (OConfig (conf w)) (w_trace w)) as I.
    { clear -CA. induction (w_trace w) as [|o t IH]; [discriminate CA|]. cbn in CA.
      destruct (config_at t) as [c|]; [right; apply IH; congruence|].
      destruct o; try discriminate CA. injection CA as ->. left. reflexivity. }
    apply (W _ I NC).
Qed.

Lemma ev_pc_set w tid p' ps q : ps = list_set tid p' (w_threads w) ->
  nth_error (w_threads w) 1 = Some q ->
  nth 1 ps PEvTop = if Nat.eqb tid 1 then p' else q.
Proof.
  intros -> N. destruct (Nat.eqb_spec tid 1) as [->|NE].
  - apply nth_error_nth. eapply nth_list_set_same. exact N.
  - apply nth_error_nth. rewrite nth_error_list_set_ne by exact NE. exact N.
Qed.

Lemma eventer_no_do k : inner k = false -> seq_top k -> pc_role k <> RoEventer.
Proof.
  induction k; intros IN SQ; cbn in *; try discriminate.
  destruct SQ as [IN' SQ]. apply IHk; assumption.
Qed.

Lemma do_not_eventer O w tid a k :
  reachable O w -> nth_error (w_threads w) tid = Some (PDo a k) -> tid <> 1.
Proof.
  intros R N ->. pose proof (reach_seq_top _ _ R) as F. rewrite Forall_forall in F.
  destruct (F _ (nth_error_In _ _ N)) as [IN SQ]. apply (eventer_no_do _ IN SQ).
  destruct (reach_roles _ _ R) as [_ RO]. apply (RO _ _ N).
Qed.

Lemma reach_ev_inv O w : reachable O w -> ev_inv w.
Proof.
  revert w. apply reach_ind.
  - intros e c hp hsp pk _ _. constructor; cbn.
    + apply ss_nil.
    + reflexivity.
    + reflexivity.
    + intros [|o [|o' t1]] c0 n ev t2 E; discriminate E.
    + intros [|o [|o' t1]] t2 E; discriminate E.
  - intros w0 l w' R I I' AL IH ST T. pose proof (ev_pc_nth _ _ R) as N1.
    destruct (reach_roles _ _ R) as [LEN RO].
    destruct T as [tid e p lk' p' os N C|tid e p w' N S|https bytes P].
    + assert (ev_pc (after_cs w0 tid lk' p' os) = if Nat.eqb tid 1 then p' else ev_pc w0) as EP
        by (eapply ev_pc_set; [reflexivity|exact N1]).
      destruct (Nat.eqb_spec tid 1) as [->|NE].
      * assert (ev_pc w0 = p) as XE by congruence. pose proof (RO _ _ N) as RL.
        destruct C; cbn in RL; try discriminate RL.
        -- (* v_pop_cmd *) eapply ev_inv_move; [exact IH| | |left]; rewrite ?EP, ?XE; cbn; rewrite ?app_nil_r; reflexivity.
        -- (* v_pop_nocmd *) eapply ev_inv_move; [exact IH| | |right]; rewrite ?EP, ?XE; cbn; rewrite ?app_nil_r; try reflexivity.
           repeat split; [assumption|]. apply (reach_config_at O). exact R.
        -- (* v_run *)
           destruct IH as [A B Cc D E]. rewrite XE in *. cbn in A, B, Cc.
           constructor; rewrite ?EP; cbn [after_cs emit set_thread set_lk w_trace w_evq in_hand busy app].
           ++ rewrite delivered_app, queued_app, app_nil_r. cbn. rewrite <- app_assoc. exact A.
           ++ intros W. rewrite delivered_app, queued_app, app_nil_r. cbn. rewrite <- app_assoc. apply B. eapply wanted_app. exact W.
           ++ rewrite running_app. cbn. rewrite Cc. reflexivity.
           ++ intros t1 c0 n0 ev0 t2 X. apply app_cons_eq in X as [(-> & _ & _)|(t2' & _ & X)]; [exact Cc|eapply D; exact X].
           ++ intros t1 t2 X. apply app_cons_eq in X as [(_ & X & _)|(t2' & _ & X)]; [discriminate X|eapply E; exact X].
        -- (* v_end *)
           destruct IH as [A B Cc D E]. rewrite XE in *. cbn in A, B, Cc.
           constructor; rewrite ?EP; cbn [after_cs emit set_thread set_lk w_trace w_evq in_hand busy app].
           ++ rewrite delivered_app, queued_app, !app_nil_r. exact A.
           ++ intros W. rewrite delivered_app, queued_app, !app_nil_r. apply B. eapply wanted_app. exact W.
           ++ rewrite running_app. cbn. rewrite Cc. reflexivity.
           ++ intros t1 c0 n0 ev0 t2 X. apply app_cons_eq in X as [(_ & X & _)|(t2' & _ & X)]; [discriminate X|eapply D; exact X].
           ++ intros t1 t2 X. apply app_cons_eq in X as [(-> & _ & _)|(t2' & _ & X)]; [exact Cc|eapply E; exact X].
      * eapply ev_inv_plain; [exact IH|exact EP|reflexivity|reflexivity|].
        eapply csr_plain; [exact C|]. rewrite (RO _ _ N). destruct tid as [|[|[|[|n]]]]; cbn; congruence.
    + assert (forall w2 k, w_threads w2 = list_set tid k (w_threads w0) ->
                ev_pc w2 = if Nat.eqb tid 1 then k else ev_pc w0) as EP
        by (intros w2 k TH; eapply ev_pc_set; [exact TH|exact N1]).
      assert (pc_role p = RoEventer -> tid = 1 /\ ev_pc w0 = p) as EV.
      { intros X. rewrite (RO _ _ N) in X. assert (tid = 1) as -> by (destruct tid as [|[|[|[|n]]]]; cbn in X; congruence).
        split; [reflexivity|congruence]. }
      assert (pc_role p <> RoEventer -> tid <> 1) as NEV
        by (intros X ->; apply X; apply (RO _ _ N)).
      destruct S as [a k|Pv|Pv|Pv|n0 ev q Q|Q|nw0 G|nw0 G|nw0 G|nw0 G|nw0 G|nw0 G].
      * (* an action *)
        pose proof (do_not_eventer _ _ _ _ _ R N) as NE.
        assert (ev_pc (do_action (set_thread w0 tid k) a) = ev_pc w0) as EA.
        { apply nth_error_nth. apply do_threads. rewrite nth_error_list_set_ne by exact NE. exact N1. }
        destruct a.
        1,2,4,5: (eapply (ev_inv_plain w0 _ []); [exact IH|exact EA|reflexivity|cbn; rewrite app_nil_r; reflexivity|intros o []]).
        -- (* APushEvent *)
           destruct IH as [A B Cc D E].
           constructor; rewrite ?EA; cbn [do_action emit set_evq set_thread w_trace w_evq].
           ++ rewrite delivered_app, queued_app. cbn. rewrite app_nil_r.
              rewrite !app_assoc. apply subseq_snoc. rewrite <- app_assoc. exact A.
           ++ intros W. rewrite delivered_app, queued_app. cbn. rewrite app_nil_r.
              rewrite !app_assoc. f_equal. rewrite <- app_assoc. apply B. eapply wanted_app. exact W.
           ++ rewrite running_app. cbn. exact Cc.
           ++ intros t1 c0 n0 ev0 t2 X. apply app_cons_eq in X as [(_ & X & _)|(t2' & _ & X)]; [discriminate X|eapply D; exact X].
           ++ intros t1 t2 X. apply app_cons_eq in X as [(_ & X & _)|(t2' & _ & X)]; [discriminate X|eapply E; exact X].
        -- (* AEmit *)
           eapply (ev_inv_plain w0 _ [o]); [exact IH|exact EA|reflexivity|reflexivity|].
           intros o' [<-|[]]. pose proof (reach_chain_plain _ _ R) as F. rewrite Forall_forall in F.
           apply (F _ (nth_error_In _ _ N) (AEmit o)); [left; reflexivity|reflexivity].
        -- (* AHalt *)
           eapply (ev_inv_plain w0 _ [OShutdown]); [exact IH|exact EA|reflexivity|reflexivity|].
           intros o' [<-|[]]. reflexivity.
      * destruct (EV eq_refl) as [-> XE]. eapply ev_inv_move; [exact IH|reflexivity| |left];
          (erewrite EP by reflexivity); rewrite XE; reflexivity.
      * destruct (EV eq_refl) as [-> XE]. eapply ev_inv_move; [exact IH|reflexivity| |left];
          (erewrite EP by reflexivity); rewrite XE; reflexivity.
      * destruct (EV eq_refl) as [-> XE]. eapply ev_inv_move; [exact IH|reflexivity| |left];
          (erewrite EP by reflexivity); rewrite XE; reflexivity.
      * destruct (EV eq_refl) as [-> XE]. eapply ev_inv_move; [exact IH|reflexivity| |left];
          (erewrite EP by reflexivity); rewrite XE; cbn; [reflexivity|]. symmetry. exact Q.
      * destruct (EV eq_refl) as [-> XE]. eapply ev_inv_move; [exact IH|reflexivity| |left];
          (erewrite EP by reflexivity); rewrite XE; reflexivity.
      * eapply (ev_inv_plain w0 _ []); [exact IH| |reflexivity|cbn; rewrite app_nil_r; reflexivity|intros o []].
        erewrite EP by reflexivity. destruct (Nat.eqb_spec tid 1) as [X|X]; [exfalso; apply NEV; [discriminate|exact X]|reflexivity].
      * eapply (ev_inv_plain w0 _ []); [exact IH| |reflexivity|cbn; rewrite app_nil_r; reflexivity|intros o []].
        erewrite EP by reflexivity. destruct (Nat.eqb_spec tid 1) as [X|X]; [exfalso; apply NEV; [discriminate|exact X]|reflexivity].
      * eapply (ev_inv_plain w0 _ []); [exact IH| |reflexivity|cbn; rewrite app_nil_r; reflexivity|intros o []].
        erewrite EP by reflexivity. destruct (Nat.eqb_spec tid 1) as [X|X]; [exfalso; apply NEV; [discriminate|exact X]|reflexivity].
      * eapply (ev_inv_plain w0 _ []); [exact IH| |reflexivity|cbn; rewrite app_nil_r; reflexivity|intros o []].
        erewrite EP by reflexivity. destruct (Nat.eqb_spec tid 1) as [X|X]; [exfalso; apply NEV; [discriminate|exact X]|reflexivity].
      * eapply (ev_inv_plain w0 _ []); [exact IH| |reflexivity|cbn; rewrite app_nil_r; reflexivity|intros o []].
        erewrite EP by reflexivity. destruct (Nat.eqb_spec tid 1) as [X|X]; [exfalso; apply NEV; [discriminate|exact X]|reflexivity].
      * eapply (ev_inv_plain w0 _ []); [exact IH| |reflexivity|cbn; rewrite app_nil_r; reflexivity|intros o []].
        erewrite EP by reflexivity. destruct (Nat.eqb_spec tid 1) as [X|X]; [exfalso; apply NEV; [discriminate|exact X]|reflexivity].
    + eapply ev_inv_plain; [exact IH| |reflexivity|reflexivity|intros o [<-|[]]; reflexivity].
      apply nth_error_nth. change (nth_error (w_threads w0 ++ [PHttpStart https bytes]) 1 = Some (ev_pc w0)).
      rewrite nth_error_app1 by lia. exact N1.
Qed.

(** What a chain of actions queues it also announces. *)
Fixpoint announces (l : list action) : Prop :=
  match l with
  | [] => True
  | APushEvent _ _ :: l' => In ASigEventer l' /\ announces l'
  | _ :: l' => announces l'
  end.

Lemma announces_emit_cmds l k : announces (chain k) -> announces (chain (emit_cmds l k)).
Proof. induction l as [|[[n c] u] l IH]; intros A; [exact A|apply IH, A]. Qed.
Lemma announces_spawn_all l k : announces (chain k) -> announces (chain (spawn_all l k)).
Proof. induction l as [|i l IH]; intros A; [exact A|apply IH, A]. Qed.

Lemma csr_announces O w e p lk' p' os : csr O w e p lk' p' os -> announces (chain p').
Proof.
  intros C. destruct C; simpl; auto.
  - unfold ref_post_next. destruct (e_post e); simpl; auto. destruct (is_transient k); simpl; auto.
  - unfold ref_body_next. destruct (o_json O body) as [v|m]; [|exact Logic.I].
    destruct (json_str $"error" v); [exact Logic.I|].
    destruct (json_str $"access_token" v); [|exact Logic.I].
    destruct (json_u64 $"expires_in" v); [|exact Logic.I].
    destruct (json_str $"token_type" v) as [ty|]; [|exact Logic.I].
    destruct (str_eqb ty $"Bearer"); exact Logic.I.
  - unfold http_post_next. destruct (e_post e); simpl; auto. destruct tries as [|[|n]]; simpl; auto.
  - destruct wa; simpl; auto.
  - destruct wa; simpl; auto.
  - apply announces_emit_cmds. exact Logic.I.
  - apply announces_spawn_all. exact Logic.I.
Qed.

Lemma reach_announces O w : reachable O w -> Forall (fun p => announces (chain p)) (w_threads w).
Proof.
  revert w. apply (reach_ind O (fun w => Forall (fun p => announces (chain p)) (w_threads w))).
  - intros. repeat constructor.
  - intros w l w' _ _ _ _ F _ T. destruct T as [tid e p lk' p' os N C|tid e p w' N S|https bytes P].
    + apply forall_list_set; [exact F|]. eapply csr_announces. exact C.
    + assert (announces (chain p)) as AN by (rewrite Forall_forall in F; apply F; eapply nth_error_In; exact N).
      assert (forall k, announces (chain k) -> Forall (fun p => announces (chain p)) (list_set tid k (w_threads w))) as F'
        by (intros k AK; apply forall_list_set; [exact F|exact AK]).
      destruct S; try (apply F'; exact Logic.I).
      assert (announces (chain k)) as AK by (destruct a; try exact AN; exact (proj2 AN)).
      destruct a; try (apply F'; exact AK).
      apply Forall_app. split; [apply F'; exact AK|repeat constructor].
    + apply Forall_app. split; [exact F|repeat constructor].
Qed.

(** The eventer goes to sleep, or is asleep, only if there is nothing to do or
    somebody is going to wake it. *)
Definition ev_awake (w : world) : Prop :=
  (ev_pc w = PEvTop \/ ev_pc w = PEvBlocked) ->
  events_wanted (w_trace w) ->
  w_evq w = [] \/ cv_pred (w_ev w) = true \/ under_way w ASigEventer.

Lemma reach_ev_awake O w : reachable O w -> ev_awake w.
Proof.
  revert w. apply reach_ind.
  - intros e c hp hsp pk _ _ _ _. left. reflexivity.
  - intros w0 l w' R I I' AL IH ST T. pose proof (ev_pc_nth _ _ R) as N1.
    destruct (reach_roles _ _ R) as [LEN RO].
    destruct T as [tid e p lk' p' os N C|tid e p w' N S|https bytes P]; intros PC W.
    + assert (ev_pc (after_cs w0 tid lk' p' os) = if Nat.eqb tid 1 then p' else ev_pc w0) as EP
        by (eapply ev_pc_set; [reflexivity|exact N1]).
      rewrite EP in PC. cbn in W. pose proof (wanted_app _ _ W) as W0.
      destruct (Nat.eqb_spec tid 1) as [->|NE].
      * assert (ev_pc w0 = p) as XE by congruence. pose proof (RO _ _ N) as RL.
        destruct C; cbn in RL; try discriminate RL; try (destruct PC; discriminate).
        exfalso. refine (W0 (conf w0) _ _); [|assumption].
        pose proof (reach_config_at _ _ R) as CA. clear -CA. unfold conf.
        induction (w_trace w0) as [|o t IHt]; [discriminate CA|]. cbn in CA.
        destruct (config_at t) as [c|]; [right; apply IHt; exact CA|].
        destruct o; try discriminate CA. left. congruence.
      * destruct (IH PC W0) as [Q|[P|U]]; [left; exact Q|right; left; exact P|right; right].
        eapply under_way_set; [exact N|eapply csr_no_chain; exact C|reflexivity|exact U].
    + assert (forall w2 k, w_threads w2 = list_set tid k (w_threads w0) ->
                ev_pc w2 = if Nat.eqb tid 1 then k else ev_pc w0) as EP
        by (intros w2 k TH; eapply ev_pc_set; [exact TH|exact N1]).
      assert (pc_role p = RoEventer -> tid = 1 /\ ev_pc w0 = p) as EV.
      { intros X. rewrite (RO _ _ N) in X. assert (tid = 1) as -> by (destruct tid as [|[|[|[|n]]]]; cbn in X; congruence).
        split; [reflexivity|congruence]. }
      assert (pc_role p <> RoEventer -> tid <> 1) as NEV
        by (intros X ->; apply X; apply (RO _ _ N)).
      assert (forall w2 k, pc_role p <> RoEventer -> chain p = [] -> w_threads w2 = list_set tid k (w_threads w0) ->
                w_evq w2 = w_evq w0 -> w_ev w2 = w_ev w0 -> w_trace w2 = w_trace w0 ->
                (ev_pc w2 = PEvTop \/ ev_pc w2 = PEvBlocked) -> events_wanted (w_trace w2) ->
                w_evq w2 = [] \/ cv_pred (w_ev w2) = true \/ under_way w2 ASigEventer) as OTHER.
      { intros w2 k NR CH TH Q2 E2 T2 PC2 W2. rewrite (EP _ _ TH) in PC2.
        destruct (Nat.eqb_spec tid 1) as [X|X]; [exfalso; exact (NEV NR X)|].
        rewrite T2 in W2. rewrite Q2, E2.
        destruct (IH PC2 W2) as [Q|[P|U]]; [left; exact Q|right; left; exact P|right; right].
        eapply under_way_set; [exact N|exact CH|exact TH|exact U]. }
      destruct S as [a k|Pv|Pv|Pv|n0 ev q Q|Q|nw0 G|nw0 G|nw0 G|nw0 G|nw0 G|nw0 G].
      * (* an action *)
        pose proof (do_not_eventer _ _ _ _ _ R N) as NE.
        assert (ev_pc (do_action (set_thread w0 tid k) a) = ev_pc w0) as EA.
        { apply nth_error_nth. apply do_threads. rewrite nth_error_list_set_ne by exact NE. exact N1. }
        rewrite EA in PC.
        assert (events_wanted (w_trace w0)) as W0 by (destruct a; try exact W; eapply wanted_app; exact W).
        assert (announces (chain (PDo a k))) as AN
          by (pose proof (reach_announces _ _ R) as F; rewrite Forall_forall in F; apply F; eapply nth_error_In; exact N).
        destruct (IH PC W0) as [Q|[P|U]].
        -- assert ((exists n ev, a = APushEvent n ev) \/ w_evq (do_action (set_thread w0 tid k) a) = w_evq w0) as [(n & ev & ->)|QE]
             by (destruct a; (left; eexists; eexists; reflexivity) || (right; reflexivity)).
           ++ right. right. exists tid, k. split.
              ** apply do_threads. eapply nth_list_set_same. exact N.
              ** rewrite will_do_chain. exact (proj1 AN).
           ++ left. rewrite QE. exact Q.
        -- right. left. destruct a; exact P || reflexivity.
        -- assert (a = ASigEventer \/ a <> ASigEventer) as [->|NA] by (destruct a; (left; reflexivity) || (right; discriminate)).
           ++ right. left. reflexivity.
           ++ right. right. apply under_way_do; assumption.
      * destruct (EV eq_refl) as [-> XE]. erewrite EP in PC by reflexivity. destruct PC; discriminate.
      * destruct (EV eq_refl) as [-> XE]. destruct (IH (or_introl XE) W) as [Q|[P|U]]; [left; exact Q|congruence|right; right].
        eapply under_way_set; [exact N|reflexivity|reflexivity|exact U].
      * destruct (EV eq_refl) as [-> XE]. destruct (IH (or_intror XE) W) as [Q|[P|U]]; [left; exact Q|right; left; exact P|right; right].
        eapply under_way_set; [exact N|reflexivity|reflexivity|exact U].
      * destruct (EV eq_refl) as [-> XE]. erewrite EP in PC by reflexivity. destruct PC; discriminate.
      * left. exact Q.
      * eapply OTHER; [discriminate|reflexivity|reflexivity|reflexivity|reflexivity|reflexivity|exact PC|exact W].
      * eapply OTHER; [discriminate|reflexivity|reflexivity|reflexivity|reflexivity|reflexivity|exact PC|exact W].
      * eapply OTHER; [discriminate|reflexivity|reflexivity|reflexivity|reflexivity|reflexivity|exact PC|exact W].
      * eapply OTHER; [discriminate|reflexivity|reflexivity|reflexivity|reflexivity|reflexivity|exact PC|exact W].
      * eapply OTHER; [discriminate|reflexivity|reflexivity|reflexivity|reflexivity|reflexivity|exact PC|exact W].
      * eapply OTHER; [discriminate|reflexivity|reflexivity|reflexivity|reflexivity|reflexivity|exact PC|exact W].
    + assert (ev_pc (emit (add_thread w0 (PHttpStart https bytes)) [OHttpIn https bytes]) = ev_pc w0) as EA.
      { apply nth_error_nth. change (nth_error (w_threads w0 ++ [PHttpStart https bytes]) 1 = Some (ev_pc w0)).
        rewrite nth_error_app1 by lia. exact N1. }
      rewrite EA in PC. destruct (IH PC (wanted_app _ _ W)) as [Q|[Pr|U]]; [left; exact Q|right; left; exact Pr|right; right].
      eapply under_way_add; [reflexivity|exact U].
Qed.

(** The statements for the properties. *)
Lemma events_in_order O w : reachable O w -> subseq (delivered (w_trace w)) (queued (w_trace w)).
Proof. intros R. eapply subseq_prefix. apply (evi_order _ (reach_ev_inv _ _ R)). Qed.

Lemma events_none_skipped O w :
  reachable O w -> events_wanted (w_trace w) -> exists rest, queued (w_trace w) = delivered (w_trace w) ++ rest.
Proof. intros R W. eexists. apply (evi_all _ (reach_ev_inv _ _ R) W). Qed.

Lemma events_one_at_a_time O w :
  reachable O w ->
  (forall t1 c n ev t2, w_trace w = t1 ++ OEventCmd c n ev :: t2 -> running t1 0 = 0)
  /\ (forall t1 t2, w_trace w = t1 ++ OEventCmdEnd :: t2 -> running t1 0 = 1).
Proof. intros R. pose proof (reach_ev_inv _ _ R) as I. split; [apply (evi_one _ I)|apply (evi_end _ I)]. Qed.

Lemma eventer_no_lost_wakeup O w :
  reachable O w -> events_wanted (w_trace w) -> eventer_sleeps w ->
  w_evq w = [] \/ under_way w ASigEventer.
Proof.
  intros R W [B S]. pose proof (ev_pc_nth _ _ R) as N1. assert (ev_pc w = PEvBlocked) as XE by congruence.
  destruct (reach_ev_awake _ _ R (or_intror XE) W) as [Q|[P|U]]; [left; exact Q| |right; exact U].
  destruct (reach_cv _ _ R) as (C & _ & _). rewrite (C S) in P. discriminate P.
Qed.

(** Asleep with nobody about to wake it, the eventer has handed over everything. *)
Lemma eventer_done O w :
  reachable O w -> events_wanted (w_trace w) -> eventer_sleeps w -> ~ under_way w ASigEventer ->
  delivered (w_trace w) = queued (w_trace w).
Proof.
  intros R W SL NU. destruct (eventer_no_lost_wakeup _ _ R W SL) as [Q|U]; [|contradiction].
  pose proof (evi_all _ (reach_ev_inv _ _ R) W) as E. rewrite Q in E.
  pose proof (ev_pc_nth _ _ R) as N1. destruct SL as [B _]. assert (ev_pc w = PEvBlocked) as XE by congruence.
  rewrite XE in E. cbn in E. rewrite app_nil_r in E. symmetry. exact E.
Qed.

(** Once signalled, the eventer hands over the whole queue, whatever the
    environment: here is how, with no help from other threads. *)
Lemma eventer_empties O e cmd : forall q w,
  w_alive w = true -> nth_error (w_threads w) 1 = Some PEvPop -> w_evq w = q ->
  c_token_event_cmd (conf w) = Some cmd ->
  exists k w', run O w (repeat (LTick 1 e) k) = Some (SNext w')
    /\ w_evq w' = [] /\ nth_error (w_threads w') 1 = Some PEvPop
    /\ w_trace w' = w_trace w ++ flat_map (fun x => [OEventCmd cmd (fst x) (snd x); OEventCmdEnd]) q.
Proof.
  induction q as [|[n ev] q IH]; intros w A N Q C.
  - exists 0, w. cbn. rewrite app_nil_r. auto.
  - set (w1 := set_evq (set_thread w 1 (PEvCmd n ev)) q).
    assert (nth_error (w_threads w1) 1 = Some (PEvCmd n ev)) as N1 by (eapply nth_list_set_same; exact N).
    assert (step O w (LTick 1 e) = SNext w1) as S1
      by (rewrite (step_at _ _ _ _ _ A N); cbn [step_thread]; rewrite Q; reflexivity).
    set (w2 := set_thread w1 1 (PEvRun cmd n ev)).
    assert (nth_error (w_threads w2) 1 = Some (PEvRun cmd n ev)) as N2 by (eapply nth_list_set_same; exact N1).
    assert (step O w1 (LTick 1 e) = SNext w2) as S2.
    { rewrite (step_at O w1 1 _ e A N1). cbn [step_thread]. change (lconfig (w_lk w1)) with (conf w). rewrite C. reflexivity. }
    set (w3 := emit (set_thread w2 1 PEvRunning) [OEventCmd cmd n ev]).
    assert (nth_error (w_threads w3) 1 = Some PEvRunning) as N3 by (eapply nth_list_set_same; exact N2).
    assert (step O w2 (LTick 1 e) = SNext w3) as S3 by (rewrite (step_at O w2 1 _ e A N2); reflexivity).
    set (w4 := emit (set_thread w3 1 PEvPop) [OEventCmdEnd]).
    assert (nth_error (w_threads w4) 1 = Some PEvPop) as N4 by (eapply nth_list_set_same; exact N3).
    assert (step O w3 (LTick 1 e) = SNext w4) as S4 by (rewrite (step_at O w3 1 _ e A N3); reflexivity).
    destruct (IH w4 A N4 eq_refl C) as (k & w' & RN & Q' & N' & T').
    exists (S (S (S (S k)))), w'. repeat split; [|exact Q'|exact N'|].
    + cbn [repeat run]. rewrite S1, S2, S3, S4. exact RN.
    + rewrite T'. change (w_trace w4) with ((w_trace w ++ [OEventCmd cmd n ev]) ++ [OEventCmdEnd]).
      rewrite <- !app_assoc. reflexivity.
Qed.

Lemma eventer_drains O w e cmd :
  reachable O w -> w_alive w = true -> cv_pred (w_ev w) = true ->
  nth_error (w_threads w) 1 = Some PEvTop \/ nth_error (w_threads w) 1 = Some PEvBlocked ->
  c_token_event_cmd (conf w) = Some cmd ->
  exists k w', run O w (repeat (LTick 1 e) k) = Some (SNext w')
    /\ w_evq w' = [] /\ delivered (w_trace w') = delivered (w_trace w) ++ w_evq w.
Proof.
  intros R A PR PC C.
  assert (forall w1, w_alive w1 = true -> cv_pred (w_ev w1) = true -> nth_error (w_threads w1) 1 = Some PEvTop ->
            c_token_event_cmd (conf w1) = Some cmd ->
            exists k w', run O w1 (repeat (LTick 1 e) k) = Some (SNext w')
              /\ w_evq w' = [] /\ delivered (w_trace w') = delivered (w_trace w1) ++ w_evq w1) as TOP.
  { clear. intros w A PR N C. set (w1 := set_ev (set_thread w 1 PEvPop) (mkCv false false)).
    assert (nth_error (w_threads w1) 1 = Some PEvPop) as N1 by (eapply nth_list_set_same; exact N).
    assert (step O w (LTick 1 e) = SNext w1) as S1
      by (rewrite (step_at _ _ _ _ _ A N); cbn [step_thread]; rewrite PR; reflexivity).
    destruct (eventer_empties O e cmd (w_evq w) w1 A N1 eq_refl C) as (k & w' & RN & Q & _ & T).
    exists (S k), w'. repeat split; [cbn [repeat run]; rewrite S1; exact RN|exact Q|].
    rewrite T, delivered_app. change (w_trace w1) with (w_trace w). f_equal.
    clear. induction (w_evq w) as [|[n ev] q IH]; [reflexivity|]. cbn. f_equal. exact IH. }
  destruct PC as [N|N]; [apply TOP; assumption|].
  destruct (reach_cv _ _ R) as (CV & _ & _).
  assert (cv_waiting (w_ev w) = false) as NW.
  { destruct (cv_waiting (w_ev w)) eqn:X; [|reflexivity]. rewrite (CV X) in PR. discriminate PR. }
  set (w1 := set_ev (set_thread w 1 PEvTop) (mkCv (cv_pred (w_ev w)) false)).
  assert (step O w (LTick 1 e) = SNext w1) as S1
    by (rewrite (step_at _ _ _ _ _ A N); cbn [step_thread]; rewrite NW; reflexivity).
  destruct (TOP w1) as (k & w' & RN & Q & T); [exact A|exact PR|eapply nth_list_set_same; exact N|exact C|].
  exists (S k), w'. repeat split; [cbn [repeat run]; rewrite S1; exact RN|exact Q|exact T].
Qed.
