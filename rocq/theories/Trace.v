(** Which thread can be where, and the trace as a record of what was configured
    when. *)
From Verif Require Import Base BaseLemmas Time Utf8 Base64 Url Json Oracles Config Dump State Http
  Timers Server StateLemmas ConfigLemmas SpecServer Steps Inv Reach Own.

(** * Roles *)

Inductive role := RoMain | RoEventer | RoNotifier | RoRefresher | RoWorker.

Fixpoint pc_role (p : pc) : role :=
  match p with
  | PDo _ k => pc_role k
  | PMain => RoMain
  | PEvTop | PEvBlocked | PEvPop | PEvCmd _ _ | PEvRun _ _ _ | PEvRunning => RoEventer
  | PNtTop | PNtCheck _ | PNtBlocked _ | PNtScan => RoNotifier
  | PRfTop | PRfCheck _ | PRfBlocked _ | PRfScan => RoRefresher
  | _ => RoWorker
  end.

Definition tid_role (tid : nat) : role :=
  match tid with
  | 0 => RoMain
  | 1 => RoEventer
  | 2 => RoNotifier
  | 3 => RoRefresher
  | _ => RoWorker
  end.

Record roles (w : world) : Prop := mkRoles {
  ro_len : 4 <= List.length (w_threads w);
  ro_pc : forall tid p, nth_error (w_threads w) tid = Some p -> pc_role p = tid_role tid;
}.

Lemma role_emit_cmds l k : pc_role (emit_cmds l k) = pc_role k.
Proof. induction l as [|[[n c] u] l IH]; simpl; auto. Qed.

Lemma role_spawn_all l k : pc_role (spawn_all l k) = pc_role k.
Proof. induction l as [|i l IH]; simpl; auto. Qed.

Lemma csr_role O w e p lk' p' os : csr O w e p lk' p' os -> pc_role p' = pc_role p.
Proof.
  intros C. destruct C; try reflexivity.
  - destruct (e_post e); try reflexivity. simpl. destruct (is_transient k); reflexivity.
  - unfold ref_body_next. destruct (o_json O body) as [v|m]; [|reflexivity].
    destruct (json_str $"error" v); [reflexivity|].
    destruct (json_str $"access_token" v); [|reflexivity].
    destruct (json_u64 $"expires_in" v); [|reflexivity].
    destruct (json_str $"token_type" v) as [ty|]; [|reflexivity].
    destruct (str_eqb ty $"Bearer"); reflexivity.
  - destruct (e_post e); try reflexivity. simpl. destruct tries as [|[|n]]; reflexivity.
  - destruct wa; reflexivity.
  - destruct wa; reflexivity.
  - rewrite role_emit_cmds. reflexivity.
  - rewrite role_spawn_all. reflexivity.
Qed.

Lemma roles_set w tid p p' :
  roles w -> nth_error (w_threads w) tid = Some p -> pc_role p' = pc_role p ->
  forall tid' q, nth_error (list_set tid p' (w_threads w)) tid' = Some q -> pc_role q = tid_role tid'.
Proof.
  intros [L R] N E tid' q N'. destruct (Nat.eq_dec tid' tid) as [->|NE].
  - rewrite (nth_list_set_same _ _ _ _ N) in N'. injection N' as <-. rewrite E. eapply R. exact N.
  - rewrite nth_error_list_set_ne in N' by congruence. eapply R. exact N'.
Qed.

Lemma roles_add (ps : list pc) p :
  4 <= List.length ps -> pc_role p = RoWorker ->
  (forall tid q, nth_error ps tid = Some q -> pc_role q = tid_role tid) ->
  forall tid q, nth_error (ps ++ [p]) tid = Some q -> pc_role q = tid_role tid.
Proof.
  intros L E H tid q N. destruct (Nat.lt_ge_cases tid (List.length ps)) as [LT|GE].
  - rewrite nth_error_app1 in N by exact LT. apply H. exact N.
  - rewrite nth_error_app2 in N by exact GE.
    destruct (tid - List.length ps) as [|k] eqn:D; simpl in N; [|destruct k; discriminate].
    injection N as <-. rewrite E. destruct tid as [|[|[|[|tid]]]]; try reflexivity; exfalso; lia.
Qed.

Lemma tstep_roles O w l w' : roles w -> tstep O w l w' -> roles w'.
Proof.
  intros RO T. pose proof (ro_len _ RO) as L.
  destruct T as [tid e p lk' p' os N C|tid e p w' N S|https bytes P].
  - constructor; simpl; [rewrite list_set_length; exact L|].
    eapply roles_set; try eassumption. eapply csr_role. exact C.
  - assert (forall k, pc_role k = pc_role p -> 4 <= List.length (list_set tid k (w_threads w))
              /\ forall tid' q, nth_error (list_set tid k (w_threads w)) tid' = Some q -> pc_role q = tid_role tid') as K.
    { intros k E. split; [rewrite list_set_length; exact L|]. eapply roles_set; eassumption. }
    destruct S;
      try (match goal with |- context [set_thread _ _ ?k] => destruct (K k eq_refl) as [K1 K2] end;
           constructor; simpl; assumption).
    destruct (K k eq_refl) as [K1 K2].
    destruct a; try (constructor; simpl; assumption).
    constructor; simpl; [rewrite app_length; simpl; lia|]. apply roles_add; auto.
  - constructor; simpl; [rewrite app_length; simpl; lia|]. apply roles_add; auto. apply RO.
Qed.

Lemma reach_roles O w : reachable O w -> roles w.
Proof.
  revert w. apply (reach_ind O roles).
  - intros. constructor; simpl; [lia|]. intros [|[|[|[|tid]]]] p; simpl; try (intros [= <-]; reflexivity).
    destruct tid; discriminate.
  - intros w0 l w' R I I' A IH S T. eapply tstep_roles; eassumption.
Qed.

(** * The trace *)

Lemma config_at_app a b :
  config_at (a ++ b) = match config_at b with Some c => Some c | None => config_at a end.
Proof.
  induction a as [|o a IH]; simpl; [destruct (config_at b); reflexivity|].
  rewrite IH. destruct (config_at b); [reflexivity|]. reflexivity.
Qed.

Definition is_config (o : obs) : bool := match o with OConfig _ => true | _ => false end.

Lemma config_at_none t : (forall o, In o t -> is_config o = false) -> config_at t = None.
Proof.
  induction t as [|o t IH]; simpl; intros H; [reflexivity|].
  rewrite IH by (intros x Hx; apply H; right; exact Hx).
  specialize (H o (or_introl eq_refl)). destruct o; try reflexivity. discriminate.
Qed.

(** How the configuration and the trace change together. *)
Lemma csr_config O w e p lk' p' os :
  csr O w e p lk' p' os ->
  (lconfig lk' = lconfig (w_lk w) /\ forall o, In o os -> is_config o = false)
  \/ exists req c, p = PMain /\ os = [OClient req; OConfig c] /\ lconfig lk' = c
                   /\ update_conf (w_lk w) c = Val lk' /\ conf_ok O c /\ e_client e = Some req
                   /\ req = $"reload:" /\ config_from_path O e = Val c.
Proof.
  intros C.
  destruct C; try (left; split; [reflexivity|]; simpl; intros o [<-|[]]; reflexivity);
    try (left; split; [reflexivity|]; simpl; intros o []; fail);
    try (left; split; [assumption|]; simpl; intros o [<-|[]]; reflexivity);
    try (left; split; [assumption|]; simpl; intros o []; fail).
  - left. split; [reflexivity|]. simpl. intros o [<-|[<-|[]]]; reflexivity.
  - right. exists req, c. split; [reflexivity|]. split; [reflexivity|].
    match goal with U : update_conf _ _ = _ |- _ => pose proof U as U' end.
    split; [|tauto].
    unfold update_conf in U'.
    destruct (update_details (w_lk w) c (keys (c_accounts c)) (account_count (w_lk w))) as [[ds n]| |];
      simpl in U'; try discriminate; injection U' as <-. reflexivity.
Qed.

(** Actions emit no configuration. *)
Definition action_obs (a : action) : list obs :=
  match a with
  | APushEvent n ev => [OEvent n ev]
  | AEmit o => [o]
  | AHalt => [OShutdown]
  | _ => []
  end.

Lemma do_action_trace w a : w_trace (do_action w a) = w_trace w ++ action_obs a.
Proof. destruct a; simpl; rewrite ?app_nil_r; reflexivity. Qed.

(** What [PDo] chains emit. *)
Fixpoint chain (p : pc) : list action :=
  match p with
  | PDo a k => a :: chain k
  | _ => []
  end.

Definition emits_config (a : action) : bool :=
  match a with AEmit (OConfig _) => true | _ => false end.

Lemma chain_emit_cmds l k a :
  In a (chain (emit_cmds l k)) ->
  (exists n c u, In (n, c, u) l /\ a = AEmit (OAuthCmd c n (url_to_str u))) \/ In a (chain k).
Proof.
  induction l as [|[[n c] u] l IH]; simpl; [auto|].
  intros [<-|H]; [left; exists n, c, u; auto|]. destruct (IH H) as [(n' & c' & u' & I & E)|K]; [left|auto].
  exists n', c', u'. auto.
Qed.

Lemma chain_spawn_all l k a :
  In a (chain (spawn_all l k)) -> (exists i, In i l /\ a = ASpawnRefresh i) \/ In a (chain k).
Proof.
  induction l as [|i l IH]; simpl; [auto|].
  intros [<-|H]; [left; exists i; auto|]. destruct (IH H) as [(i' & I & E)|K]; [left|auto].
  exists i'. auto.
Qed.

Lemma chain_ref_post_next i n r pr : chain (ref_post_next i n r pr) = [].
Proof. destruct pr as [b|m|c b|k m]; simpl; try reflexivity. destruct (is_transient k); reflexivity. Qed.

Lemma chain_ref_body_next O e i n r b : chain (ref_body_next O e i n r b) = [].
Proof.
  unfold ref_body_next. destruct (o_json O b) as [v|m]; [|reflexivity].
  destruct (json_str $"error" v); [reflexivity|].
  destruct (json_str $"access_token" v); [|reflexivity].
  destruct (json_u64 $"expires_in" v); [|reflexivity].
  destruct (json_str $"token_type" v) as [ty|]; [|reflexivity].
  destruct (str_eqb ty $"Bearer"); reflexivity.
Qed.

Lemma chain_http_post_next i u ps t pr : chain (http_post_next i u ps t pr) = [].
Proof. destruct pr as [b|m|c b|k m]; simpl; try reflexivity. destruct t as [|[|n]]; reflexivity. Qed.

(** Every action a critical section leaves to its thread. *)
Lemma csr_chain O w e p lk' p' os a :
  csr O w e p lk' p' os -> In a (chain p') ->
  match a with
  | AEmit (OReply req _) => p = PMain /\ e_client e = Some req
  | AEmit (OHttpResp _) => exists https bytes, p = PHttpStart https bytes
  | AEmit (OAuthCmd cmd n u) =>
      p = PNtScan /\ exists e0 u0, has (w_lk w) e0 /\ d_name e0 = n /\ pending_url (d_ts e0) = Some u0
        /\ u = url_to_str u0 /\ c_auth_notify_cmd (lconfig (w_lk w)) = Some cmd
        /\ notify_due (w_lk w) (env_now e) e0 = true
  | AEmit _ => False
  | _ => True
  end.
Proof.
  intros C I.
  destruct C; simpl in I; rewrite ?chain_ref_post_next, ?chain_ref_body_next, ?chain_http_post_next in I;
    try (destruct wa; simpl in I);
    try (repeat match goal with H : _ \/ _ |- _ => destruct H as [<-|H] end;
         try (destruct I; fail); try exact Logic.I; eauto; fail).
  - apply chain_emit_cmds in I as [(n & c & u & In1 & ->)|[]]. split; [reflexivity|].
    apply in_flat_map in In1 as (e0 & He & Hn). unfold notify_cmds in Hn.
    destruct (notify_due (w_lk w) (env_now e) e0) eqn:ND; [|destruct Hn].
    destruct (c_auth_notify_cmd (lconfig (w_lk w))) as [cmd|] eqn:CM; [|destruct Hn].
    destruct (pending_url (d_ts e0)) as [u0|] eqn:PU; [|destruct Hn]. simpl in Hn.
    destruct Hn as [[= <- <- <-]|[]]. exists e0, u0. repeat split; auto.
  - apply chain_spawn_all in I as [(i & _ & ->)|[]]. exact Logic.I.
Qed.

(** Actions waiting in some thread were put there by a critical section. *)
Definition no_config_chain (p : pc) : Prop := forall a, In a (chain p) -> emits_config a = false.

Lemma tstep_chain_inv (Q : action -> Prop) O w l w' :
  (forall e p lk' p' os a, csr O w e p lk' p' os -> In a (chain p') -> Q a) ->
  Forall (fun p => forall a, In a (chain p) -> Q a) (w_threads w) ->
  tstep O w l w' -> Forall (fun p => forall a, In a (chain p) -> Q a) (w_threads w').
Proof.
  intros H F T.
  destruct T as [tid e p lk' p' os N C|tid e p w' N S|https bytes P]; simpl.
  - apply forall_list_set; [exact F|]. intros a I. eapply H; eassumption.
  - assert (forall a, In a (chain p) -> Q a) as SO
      by (rewrite Forall_forall in F; apply F; eapply nth_error_In; exact N).
    destruct S; simpl; try (apply forall_list_set; [exact F|intros a []]).
    assert (Forall (fun p => forall a, In a (chain p) -> Q a) (list_set tid k (w_threads w))) as F'.
    { apply forall_list_set; [exact F|]. intros b Ib. apply SO. right. exact Ib. }
    destruct a; simpl; try exact F'. apply Forall_app. split; [exact F'|].
    constructor; [intros a []|constructor].
  - apply Forall_app. split; [exact F|]. constructor; [intros a []|constructor].
Qed.

Lemma reach_no_config_chain O w : reachable O w -> Forall no_config_chain (w_threads w).
Proof.
  revert w. apply (reach_ind O (fun w => Forall no_config_chain (w_threads w))).
  - intros. repeat constructor; intros a [].
  - intros w0 l w' R I I' A IH S T. unfold no_config_chain in *.
    eapply (tstep_chain_inv (fun a => emits_config a = false)); try eassumption.
    intros e p lk' p' os a C Ia. pose proof (csr_chain _ _ _ _ _ _ _ a C Ia) as X.
    destruct a; try reflexivity. destruct o; try reflexivity. destruct X.
Qed.

Lemma reach_config_at O w : reachable O w -> config_at (w_trace w) = Some (lconfig (w_lk w)).
Proof.
  revert w. apply (reach_ind O (fun w => config_at (w_trace w) = Some (lconfig (w_lk w)))).
  - intros. reflexivity.
  - intros w0 l w' R I I' A IH S T.
    destruct T as [tid e p lk' p' os N C|tid e p w' N SY|https bytes P]; simpl.
    + rewrite config_at_app. destruct (csr_config _ _ _ _ _ _ _ C) as [[LC NO]|(req & c & _ & -> & LC & _)].
      * rewrite (config_at_none _ NO), LC. exact IH.
      * simpl. rewrite LC. reflexivity.
    + destruct SY; simpl; try exact IH.
      assert (In (PDo a k) (w_threads w0)) as IT by (eapply nth_error_In; exact N).
      pose proof (reach_no_config_chain _ _ R) as NC. rewrite Forall_forall in NC.
      specialize (NC _ IT a (or_introl eq_refl)).
      assert (w_lk (do_action (set_thread w0 tid k) a) = w_lk w0) as E by (destruct a; reflexivity).
      rewrite E, do_action_trace, config_at_app. simpl.
      rewrite config_at_none; [exact IH|]. intros o Io.
      destruct a; simpl in *; try destruct Io as [<-|[]]; try reflexivity; try contradiction.
      destruct o0; try reflexivity. discriminate.
    + rewrite config_at_app. simpl. exact IH.
Qed.

(** * Statements about every position of the trace *)

Definition trace_all (P : list obs -> obs -> Prop) (t : list obs) : Prop :=
  forall t1 o t2, t = t1 ++ o :: t2 -> P t1 o.

Lemma trace_all_nil P : trace_all P [].
Proof. intros [|x t1] o t2 E; discriminate. Qed.

Lemma app_cons_eq {A} (a : list A) x (t1 : list A) o t2 :
  a ++ [x] = t1 ++ o :: t2 -> (t1 = a /\ o = x /\ t2 = []) \/ exists t2', t2 = t2' ++ [x] /\ a = t1 ++ o :: t2'.
Proof.
  intros E. destruct (exists_last (l := o :: t2)) as (l & y & EL); [discriminate|].
  rewrite EL, app_assoc in E. apply app_inj_tail in E as [E ->].
  destruct l as [|z l]; simpl in EL.
  - injection EL as -> ->. left. rewrite app_nil_r in E. auto.
  - injection EL as <- ->. right. exists l. auto.
Qed.

Lemma trace_all_snoc P t x : trace_all P t -> P t x -> trace_all P (t ++ [x]).
Proof.
  intros H Px t1 o t2 E. apply app_cons_eq in E as [(-> & -> & ->)|(t2' & -> & ->)]; [exact Px|].
  eapply H. reflexivity.
Qed.

Lemma trace_all_app P t os :
  trace_all P t -> (forall a x b, os = a ++ x :: b -> P (t ++ a) x) -> trace_all P (t ++ os).
Proof.
  revert t. induction os as [|x os IH]; intros t H K; [rewrite app_nil_r; exact H|].
  replace (t ++ x :: os) with ((t ++ [x]) ++ os) by (rewrite <- app_assoc; reflexivity).
  apply IH.
  - apply trace_all_snoc; [exact H|]. specialize (K [] x os eq_refl). rewrite app_nil_r in K. exact K.
  - intros a y b E. rewrite <- app_assoc. apply (K (x :: a) y b). simpl. rewrite E. reflexivity.
Qed.
