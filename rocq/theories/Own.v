(** Refreshes in flight: at most one per token, and every mark has its owner. *)
From Verif Require Import Base BaseLemmas Time Utf8 Base64 Url Json Oracles Config Dump State Http
  Timers Server StateLemmas ConfigLemmas SpecServer Steps Inv Reach.

Definition opt_list {A} (o : option A) : list A := match o with Some x => [x] | None => [] end.

Definition ref_ids (ps : list pc) : list account_id := flat_map (fun p => opt_list (ref_id p)) ps.

Record own_inv (w : world) : Prop := mkOwn {
  own_nodup : NoDup (ref_ids (w_threads w));
  own_marks : forall e a, has (w_lk w) e -> d_ts e = TSActive a -> ongoing a = true ->
              In (d_id e) (ref_ids (w_threads w));
}.

Lemma list_set_split {A} tid (x : A) l y :
  nth_error l tid = Some y ->
  exists l1 l2, l = l1 ++ y :: l2 /\ List.length l1 = tid /\ list_set tid x l = l1 ++ x :: l2.
Proof.
  revert tid. induction l as [|z l IH]; intros [|tid] N; simpl in N; try discriminate.
  - injection N as ->. exists [], l. auto.
  - destruct (IH tid N) as (l1 & l2 & -> & L & E). exists (z :: l1), l2. simpl. rewrite E. auto.
Qed.

Lemma ref_ids_set tid p p' ps :
  nth_error ps tid = Some p ->
  exists rest, Permutation (ref_ids ps) (opt_list (ref_id p) ++ rest)
               /\ Permutation (ref_ids (list_set tid p' ps)) (opt_list (ref_id p') ++ rest).
Proof.
  intros N. destruct (list_set_split tid p' ps p N) as (l1 & l2 & -> & _ & E).
  exists (ref_ids l1 ++ ref_ids l2). rewrite E. unfold ref_ids. rewrite !flat_map_app. simpl.
  split; rewrite !app_assoc; apply Permutation_app_tail, Permutation_app_comm.
Qed.

Lemma ref_id_emit_cmds l k : ref_id k = None -> ref_id (emit_cmds l k) = None.
Proof. destruct l as [|[[n c] u] l]; simpl; auto. Qed.

Lemma ref_id_spawn_all l k : ref_id k = None -> ref_id (spawn_all l k) = None.
Proof. destruct l; simpl; auto. Qed.

Lemma ref_id_bound lk p i : pc_ok lk p -> ref_id p = Some i -> (i < account_count lk)%N.
Proof.
  destruct p; simpl; intros PO E; try discriminate; injection E as <-.
  - destruct PO as (act & _ & _ & _ & OW). exact (proj1 OW).
  - destruct PO as (act & _ & OW). exact (proj1 OW).
  - destruct PO as (act & _ & OW). exact (proj1 OW).
  - destruct PO as (act & _ & OW). exact (proj1 OW).
  - destruct PO as (act & _ & OW). exact (proj1 OW).
  - destruct PO as (act & _ & OW). exact (proj1 OW).
  - destruct PO as (act & _ & OW). exact (proj1 OW).
Qed.

Lemma ref_ids_bound lk ps i : Forall (pc_ok lk) ps -> In i (ref_ids ps) -> (i < account_count lk)%N.
Proof.
  intros F I. apply in_flat_map in I as (p & Ip & Hi). rewrite Forall_forall in F.
  apply (ref_id_bound lk p); [apply F; exact Ip|].
  destruct (ref_id p); simpl in Hi; [destruct Hi as [->|[]]; reflexivity|destruct Hi].
Qed.

Lemma ref_id_post_next i n r pr : ref_id (ref_post_next i n r pr) = Some i.
Proof. destruct pr as [b|m|c b|k m]; simpl; try reflexivity. destruct (is_transient k); reflexivity. Qed.

Lemma ref_id_body_next O e i n r b : ref_id (ref_body_next O e i n r b) = Some i.
Proof.
  unfold ref_body_next. destruct (o_json O b) as [v|m]; [|reflexivity].
  destruct (json_str $"error" v); [reflexivity|].
  destruct (json_str $"access_token" v); [|reflexivity].
  destruct (json_u64 $"expires_in" v); [|reflexivity].
  destruct (json_str $"token_type" v) as [ty|]; [|reflexivity].
  destruct (str_eqb ty $"Bearer"); reflexivity.
Qed.

Lemma ref_id_http_post_next i u ps t pr : ref_id (http_post_next i u ps t pr) = None.
Proof. destruct pr as [b|m|c b|k m]; simpl; try reflexivity. destruct t as [|[|n]]; reflexivity. Qed.

(** How one critical section affects the marks and their owner. *)
Definition marks_ok (lk lk' : locked) (p p' : pc) : Prop :=
  (ref_id p' = ref_id p \/ ref_id p' = None \/ exists j, ref_id p' = Some j /\ (account_count lk <= j)%N)
  /\ forall e a, has lk' e -> d_ts e = TSActive a -> ongoing a = true ->
     ref_id p' = Some (d_id e) \/ (has lk e /\ ref_id p <> Some (d_id e)).

Lemma csr_marks O w e p lk' p' os :
  inv O w -> pc_ok (w_lk w) p -> csr O w e p lk' p' os -> marks_ok (w_lk w) lk' p p'.
Proof.
  intros I PO C. pose proof (inv_wf _ _ I) as W.
  assert (forall q q', ref_id q' = ref_id q -> marks_ok (w_lk w) (w_lk w) q q') as SAME.
  { intros q q' E. split; [left; exact E|]. intros e0 a H T Og.
    destruct (ref_id q) as [j|] eqn:R; [|right; split; [exact H|discriminate]].
    destruct (N.eq_dec j (d_id e0)) as [->|N]; [left; congruence|].
    right. split; [exact H|congruence]. }
  assert (forall q q' k i ts, (ref_id q = None \/ ref_id q = Some i) ->
            (ref_id q' = None \/ ref_id q' = Some (account_count (w_lk w) + k)%N) ->
            (forall a, ts = TSActive a -> ongoing a = true -> ref_id q' = Some (account_count (w_lk w) + k)%N) ->
            marks_ok (w_lk w) (bump k (w_lk w) i ts) q q') as BUMP.
  { intros q q' k i ts Q Q' TS. split.
    - right. destruct Q' as [Q'|Q']; [left; exact Q'|right]. exists (account_count (w_lk w) + k)%N.
      split; [exact Q'|lia].
    - intros e0 a H T Og. apply bump_in in H as [(e1 & H1 & E1 & ->)|[H1 N1]].
      + left. simpl in *. eapply TS; eassumption.
      + right. split; [exact H1|]. destruct Q as [Q|Q]; rewrite Q; congruence. }
  assert (forall q q' i, (ref_id q = None \/ ref_id q = Some i) -> stale (w_lk w) i -> ref_id q' = None ->
            marks_ok (w_lk w) (w_lk w) q q') as STALE.
  { intros q q' i Q ST Q'. split; [right; left; exact Q'|]. intros e0 a H T Og. right.
    split; [exact H|]. destruct Q as [Q|Q]; rewrite Q; [discriminate|].
    intros [= E]. exact (valid_false _ _ ST _ H (eq_sym E)). }
  destruct C; try (apply SAME; reflexivity);
    try (apply BUMP; simpl; rewrite ?N.add_0_r; auto; discriminate);
    try (eapply STALE; simpl; eauto; fail).
  - (* reload *)
    match goal with U : update_conf _ _ = _ |- _ =>
      destruct (update_conf_spec _ _ _ W (co_wf _ _ ltac:(eassumption)) U) as (W' & EV & LC & SP) end.
    split; [left; reflexivity|]. intros e0 a Hh T Og. right. split; [|discriminate].
    destruct (SP e0 Hh) as (a' & A' & M). destruct (account_of (w_lk w) (d_name e0)) as [a0|].
    + destruct (secure_eq a' a0); [exact M|]. destruct M as [_ M]. congruence.
    + destruct M as [_ M]. congruence.
  - (* restore *)
    match goal with F : Forall2 _ _ _ |- _ => rename F into F2 end.
    split; [left; reflexivity|]. intros e0 a Hh T Og. right. split; [|discriminate].
    destruct (Forall2_in_r _ _ _ _ F2 Hh) as (e1 & X1 & N1 & [->|[L (NA & a0 & ad & td & i & _ & _ & _ & TS & _)]]); [exact X1|].
    exfalso. rewrite T in TS. destruct td; simpl in TS; [discriminate|]. injection TS as ->. discriminate.
  - (* r_post *) apply SAME. apply ref_id_post_next.
  - (* r_body *) apply SAME. apply ref_id_body_next.
  - (* r_got *) apply BUMP; simpl; auto. intros a [= <-]. discriminate.
  - (* r_trans *) apply BUMP; simpl; auto. intros a' [= <-]. discriminate.
  - (* r_cmd_ok *) apply BUMP; simpl; auto. intros a' [= <-]. discriminate.
  - (* h_post *) apply SAME. apply ref_id_http_post_next.
  - (* h_body_ok *) apply BUMP; simpl; auto. intros a' [= <-]. discriminate.
  - (* h_notify_cmd *) apply SAME. destruct wa; reflexivity.
  - (* h_notify_log *) apply SAME. destruct wa; reflexivity.
  - (* n_scan *)
    match goal with F : Forall2 _ _ _ |- _ => rename F into F2 end.
    split; [right; left; apply ref_id_emit_cmds; reflexivity|].
    intros e0 a Hh T Og. right. split; [|discriminate].
    destruct (Forall2_in_r _ _ _ _ F2 Hh) as (e1 & X1 & P). cbv beta in P.
    destruct (notify_due (w_lk w) (env_now e) e1) eqn:ND; [|subst e1; exact X1].
    exfalso. destruct P as (_ & _ & P). unfold notify_due in ND. rewrite T in P.
    destruct (d_ts e1); simpl in P; discriminate.
  - (* f_scan *) apply SAME. apply ref_id_spawn_all. reflexivity.
Qed.

Lemma in_perm {A} (x : A) l l' : Permutation l l' -> In x l <-> In x l'.
Proof. intros P. split; apply Permutation_in; [exact P|symmetry; exact P]. Qed.

Lemma ref_ids_app a b : ref_ids (a ++ b) = ref_ids a ++ ref_ids b.
Proof. apply flat_map_app. Qed.

Lemma ref_ids_set_none tid p p' ps :
  nth_error ps tid = Some p -> ref_id p = None -> ref_id p' = None ->
  ref_ids (list_set tid p' ps) = ref_ids ps.
Proof.
  intros N E E'. destruct (list_set_split tid p' ps p N) as (l1 & l2 & -> & _ & ->).
  rewrite !ref_ids_app. unfold ref_ids. simpl. rewrite E, E'. reflexivity.
Qed.

(** A thread about to perform an action is not in the middle of a refresh. *)
Fixpoint seq_ok (p : pc) : Prop :=
  match p with
  | PDo _ k => ref_id k = None /\ seq_ok k
  | _ => True
  end.

Lemma seq_ok_emit_cmds l k : ref_id k = None -> seq_ok k -> seq_ok (emit_cmds l k).
Proof.
  intros E K. induction l as [|[[n c] u] l IH]; simpl; [exact K|]. split; [|exact IH].
  apply ref_id_emit_cmds. exact E.
Qed.

Lemma seq_ok_spawn_all l k : ref_id k = None -> seq_ok k -> seq_ok (spawn_all l k).
Proof.
  intros E K. induction l as [|i l IH]; simpl; [exact K|]. split; [|exact IH].
  apply ref_id_spawn_all. exact E.
Qed.

Lemma csr_seq_ok O w e p lk' p' os : csr O w e p lk' p' os -> seq_ok p'.
Proof.
  intros C. destruct C; simpl; auto.
  - unfold ref_post_next. destruct (e_post e); simpl; auto. destruct (is_transient k); simpl; auto.
  - unfold ref_body_next. destruct (o_json O body) as [v|m]; [|exact Logic.I].
    destruct (json_str $"error" v); [exact Logic.I|].
    destruct (json_str $"access_token" v); [|exact Logic.I].
    destruct (json_u64 $"expires_in" v); [|exact Logic.I].
    destruct (json_str $"token_type" v) as [ty|]; [|exact Logic.I].
    destruct (str_eqb ty $"Bearer"); exact Logic.I.
  - unfold http_post_next. destruct (e_post e); simpl; auto. destruct tries as [|[|n]]; simpl; auto.
  - destruct wa; simpl; auto.
  - destruct wa; simpl; auto.
  - apply seq_ok_emit_cmds; [reflexivity|exact Logic.I].
  - apply seq_ok_spawn_all; [reflexivity|exact Logic.I].
Qed.

Lemma tstep_seq_ok O w l w' :
  Forall seq_ok (w_threads w) -> tstep O w l w' -> Forall seq_ok (w_threads w').
Proof.
  intros F T. destruct T as [tid e p lk' p' os N C|tid e p w' N S|https bytes P]; simpl.
  - apply forall_list_set; [exact F|]. eapply csr_seq_ok. exact C.
  - assert (seq_ok p) as SO by (rewrite Forall_forall in F; apply F; eapply nth_error_In; exact N).
    destruct S; simpl; try (apply forall_list_set; [exact F|exact Logic.I]).
    assert (Forall seq_ok (list_set tid k (w_threads w))) as F'
      by (apply forall_list_set; [exact F|apply SO]).
    destruct a; simpl; try exact F'. apply Forall_app. split; [exact F'|]. repeat constructor.
  - apply Forall_app. split; [exact F|]. repeat constructor.
Qed.

Lemma reach_seq_ok O w : reachable O w -> Forall seq_ok (w_threads w).
Proof.
  revert w. apply (reach_ind O (fun w => Forall seq_ok (w_threads w))).
  - intros. repeat constructor.
  - intros. eapply tstep_seq_ok; eassumption.
Qed.

Lemma tstep_own O w l w' :
  inv O w -> Forall seq_ok (w_threads w) -> own_inv w -> tstep O w l w' -> own_inv w'.
Proof.
  intros I SQ [ND OM] T. destruct T as [tid e p lk' p' os N C|tid e p w' N S|https bytes P].
  - pose proof (inv_threads _ _ I) as TH.
    assert (pc_ok (w_lk w) p) as PO by (rewrite Forall_forall in TH; apply TH; eapply nth_error_In; exact N).
    destruct (csr_marks _ _ _ _ _ _ _ I PO C) as [M1 M2].
    destruct (ref_ids_set tid p p' _ N) as (rest & P1 & P2).
    assert (NoDup (opt_list (ref_id p) ++ rest)) as ND1 by (eapply Permutation_NoDup; eassumption).
    constructor; simpl.
    + eapply Permutation_NoDup; [symmetry; exact P2|].
      assert (NoDup rest) as NR.
      { destruct (ref_id p); simpl in ND1; [inversion ND1; assumption|exact ND1]. }
      destruct M1 as [M1|[M1|(j & M1 & L)]]; rewrite M1; [exact ND1|exact NR|].
      simpl. constructor; [|exact NR]. intros Ij.
      assert (In j (ref_ids (w_threads w))) as Ij'
        by (apply (in_perm _ _ _ P1); apply in_or_app; right; exact Ij).
      pose proof (ref_ids_bound _ _ _ TH Ij'). lia.
    + intros e0 a H TS Og. apply (in_perm _ _ _ P2). apply in_or_app.
      destruct (M2 e0 a H TS Og) as [E|[H' NE]].
      * left. rewrite E. left. reflexivity.
      * right. specialize (OM e0 a H' TS Og). apply (in_perm _ _ _ P1) in OM.
        apply in_app_or in OM as [OM|OM]; [|exact OM]. exfalso.
        destruct (ref_id p) as [j|]; simpl in OM; [|destruct OM]. destruct OM as [->|[]]. congruence.
  - assert (forall k, ref_id p = None -> ref_id k = None ->
              ref_ids (list_set tid k (w_threads w)) = ref_ids (w_threads w)) as E
      by (intros k E1 E2; eapply ref_ids_set_none; eassumption).
    assert (seq_ok p) as SO by (rewrite Forall_forall in SQ; apply SQ; eapply nth_error_In; exact N).
    destruct S; try (constructor; simpl; rewrite E by reflexivity; assumption).
    destruct SO as [K _]. specialize (E k eq_refl K).
    destruct a; constructor; simpl; rewrite ?ref_ids_app, E; simpl; rewrite ?app_nil_r; assumption.
  - constructor; simpl; rewrite ref_ids_app; simpl; rewrite app_nil_r; assumption.
Qed.

Lemma reach_own O w : reachable O w -> own_inv w.
Proof.
  revert w. apply (reach_ind O own_inv).
  - intros e c hp hsp pk _ _. constructor; simpl; [constructor|].
    intros e0 a H T Og. apply locked_new_empty in H. congruence.
  - intros w0 l w' R I I' A IH S T. apply (tstep_own O w0 l w'); try assumption. eapply reach_seq_ok. exact R.
Qed.

(** Two threads never refresh the same token version. *)
Lemma ref_ids_nth ps tid p i :
  nth_error ps tid = Some p -> ref_id p = Some i ->
  forall tid' p', tid' <> tid -> nth_error ps tid' = Some p' -> ref_id p' = Some i ->
  ~ NoDup (ref_ids ps).
Proof.
  intros N R tid' p' NE N' R' ND.
  destruct (list_set_split tid PDone ps p N) as (l1 & l2 & E & L & E').
  assert (In p' (l1 ++ l2)) as Ip.
  { rewrite <- (nth_error_list_set_ne tid tid' PDone ps) in N' by congruence.
    rewrite E' in N'. apply nth_error_In in N'. apply in_app_or in N' as [X|[X|X]].
    - apply in_or_app. left. exact X.
    - subst p'. discriminate.
    - apply in_or_app. right. exact X. }
  rewrite E, ref_ids_app in ND. unfold ref_ids in ND. simpl in ND. rewrite R in ND. simpl in ND.
  apply NoDup_remove_2 in ND. apply ND. rewrite <- flat_map_app. apply in_flat_map.
  exists p'. split; [exact Ip|]. rewrite R'. left. reflexivity.
Qed.

Lemma one_refresh_per_version O w tid tid' p p' i :
  reachable O w ->
  nth_error (w_threads w) tid = Some p -> nth_error (w_threads w) tid' = Some p' ->
  ref_id p = Some i -> ref_id p' = Some i -> tid = tid'.
Proof.
  intros R N N' E E'. destruct (Nat.eq_dec tid' tid) as [->|NE]; [reflexivity|]. exfalso.
  exact (ref_ids_nth _ _ _ _ N E _ _ NE N' E' (own_nodup _ (reach_own _ _ R))).
Qed.

Lemma mark_has_owner O w e a :
  reachable O w -> has (w_lk w) e -> d_ts e = TSActive a -> ongoing a = true ->
  exists tid p, nth_error (w_threads w) tid = Some p /\ ref_id p = Some (d_id e).
Proof.
  intros R H T Og. pose proof (own_marks _ (reach_own _ _ R) e a H T Og) as I.
  apply in_flat_map in I as (p & Ip & Hi). apply In_nth_error in Ip as [tid N].
  exists tid, p. split; [exact N|].
  destruct (ref_id p); simpl in Hi; [destruct Hi as [->|[]]; reflexivity|destruct Hi].
Qed.

(** * Refreshes end *)

Definition ref_rank (p : pc) : nat :=
  match p with
  | PRefPost _ _ _ _ _ => 4
  | PRefTransient _ _ _ => 3
  | PRefBody _ _ _ _ | PRefCmd _ _ _ => 2
  | PRefGot _ _ _ _ _ _ | PRefPerm _ _ _ | PRefCmdDone _ _ _ => 1
  | _ => 0
  end.

Lemma ref_rank_id p : ref_rank p = 0 <-> ref_id p = None.
Proof. destruct p; simpl; split; intros H; try reflexivity; try discriminate. Qed.

(** Only what the thread itself does changes its program counter. *)
Lemma tstep_other O w l w' tid p :
  tstep O w l w' -> (forall e, l <> LTick tid e) ->
  nth_error (w_threads w) tid = Some p -> nth_error (w_threads w') tid = Some p.
Proof.
  intros T NL N.
  assert (forall x, nth_error (w_threads w ++ [x]) tid = Some p) as AP.
  { intros x. rewrite nth_error_app1; [exact N|]. apply nth_error_Some. congruence. }
  destruct T as [tid' e q lk' p' os N' C|tid' e q w' N' S|https bytes P]; simpl.
  - rewrite nth_error_list_set_ne; [exact N|]. intros ->. eapply NL. reflexivity.
  - assert (tid' <> tid) as NE by (intros ->; eapply NL; reflexivity).
    assert (forall x, nth_error (list_set tid' x (w_threads w)) tid = Some p) as LS
      by (intros x; rewrite nth_error_list_set_ne; assumption).
    destruct S; simpl; try apply LS.
    destruct a; simpl; try apply LS. rewrite nth_error_app1; [apply LS|].
    apply nth_error_Some. rewrite LS. discriminate.
  - apply AP.
Qed.

Lemma nth_list_set_same {A} tid (x y : A) l :
  nth_error l tid = Some y -> nth_error (list_set tid x l) tid = Some x.
Proof. intros N. apply nth_error_list_set_eq. apply nth_error_Some. congruence. Qed.

Lemma csr_rank O w e p lk' p' os :
  csr O w e p lk' p' os -> ref_id p <> None -> ref_rank p' < ref_rank p.
Proof.
  intros C R. destruct C; simpl in *; try congruence; try lia.
  - destruct (e_post e); simpl; try lia. destruct (is_transient k); simpl; lia.
  - unfold ref_body_next. destruct (o_json O body) as [v|m]; [|simpl; lia].
    destruct (json_str $"error" v); [simpl; lia|].
    destruct (json_str $"access_token" v); [|simpl; lia].
    destruct (json_u64 $"expires_in" v); [|simpl; lia].
    destruct (json_str $"token_type" v) as [ty|]; [|simpl; lia].
    destruct (str_eqb ty $"Bearer"); simpl; lia.
Qed.

(** A refreshing thread can always take its next step (it never blocks), and
    comes closer to its end with it. *)
Lemma ref_progress O w tid p e :
  reachable O w -> w_alive w = true ->
  nth_error (w_threads w) tid = Some p -> ref_id p <> None ->
  exists w' p', step O w (LTick tid e) = SNext w' /\ nth_error (w_threads w') tid = Some p'
                /\ ref_rank p' < ref_rank p.
Proof.
  intros R A N RI.
  pose proof (reach_inv _ _ R) as I.
  destruct (step O w (LTick tid e)) as [| |w'] eqn:S.
  - exfalso. unfold step in S. rewrite A, N in S. simpl in S. destruct p; simpl in *; try congruence;
      match type of S with run_cs _ _ _ ?c = _ => destruct c as [[[x y] z]|m|]; discriminate S end.
  - exfalso. refine (never_panics _ _ _ R (main_only _ _ _ _ _ N _) S). intros ->. exact (RI eq_refl).
  - destruct (step_ok _ _ _ _ I S) as (_ & _ & T & _). inversion T; subst.
    + match goal with X : nth_error _ _ = Some ?q |- _ => assert (q = p) by congruence; subst q end.
      exists (after_cs w tid lk' p' os), p'. split; [reflexivity|]. split.
      * simpl. eapply nth_list_set_same. exact N.
      * eapply csr_rank; eassumption.
    + match goal with X : nth_error _ _ = Some ?q, Y : syn _ _ _ ?q _ |- _ =>
        assert (q = p) by congruence; subst q; inversion Y; subst; simpl in RI; congruence end.
Qed.

(** When a thread leaves its refresh, the account whose token it was refreshing
    is no longer marked. *)
Lemma ref_end_clears O w w' tid p e p' e0 e1 a :
  reachable O w -> nth_error (w_threads w) tid = Some p ->
  has (w_lk w) e0 -> ref_id p = Some (d_id e0) ->
  step O w (LTick tid e) = SNext w' -> nth_error (w_threads w') tid = Some p' -> ref_id p' = None ->
  has (w_lk w') e1 -> d_name e1 = d_name e0 -> d_ts e1 = TSActive a -> ongoing a = false.
Proof.
  intros R N H0 RI S N' RI' H E T. destruct (ongoing a) eqn:Og; [|reflexivity]. exfalso.
  assert (reachable O w') as R' by (eapply reach_step; eassumption).
  destruct (mark_has_owner _ _ _ _ R' H T Og) as (tid2 & p2 & N2 & RI2).
  destruct (Nat.eq_dec tid2 tid) as [->|NE]; [congruence|].
  pose proof (reach_inv _ _ R) as I.
  destruct (step_ok _ _ _ _ I S) as (I' & EV & TS & _).
  assert (nth_error (w_threads w) tid2 = Some p2) as N2w.
  { inversion TS; subst.
    - simpl in N2. rewrite nth_error_list_set_ne in N2 by congruence. exact N2.
    - match goal with X : nth_error _ _ = Some ?q, Y : syn _ _ _ ?q _ |- _ =>
        assert (q = p) by congruence; subst q; inversion Y; subst; simpl in RI; discriminate end. }
  assert (pc_ok (w_lk w) p2) as PO2.
  { pose proof (inv_threads _ _ I) as TH. rewrite Forall_forall in TH. apply TH. eapply nth_error_In. exact N2w. }
  pose proof (ref_id_bound _ _ _ PO2 RI2) as LT.
  destruct EV as [_ EV]. destruct (EV e1 H LT) as [H1 _].
  assert (e1 = e0) by (apply (wf_name_inj (w_lk w)); auto; apply I). subst e1.
  pose proof (one_refresh_per_version _ _ _ _ _ _ _ R N N2w RI RI2). congruence.
Qed.

(** ** Own steps along a run *)

Lemma ref_ends_run O ls : forall w tid p w',
  reachable O w -> nth_error (w_threads w) tid = Some p -> ref_id p <> None ->
  run O w ls = Some (SNext w') -> ref_rank p <= own_steps tid ls ->
  exists l1 l2 w1 p1,
    ls = l1 ++ l2 /\ run O w l1 = Some (SNext w1) /\ own_steps tid l1 <= ref_rank p
    /\ nth_error (w_threads w1) tid = Some p1 /\ ref_id p1 = None.
Proof.
  induction ls as [|l ls IH]; intros w tid p w' R N RI E K.
  - exfalso. unfold own_steps in K. simpl in K. assert (ref_rank p = 0) as Z by lia.
    apply ref_rank_id in Z. contradiction.
  - simpl in E. destruct (step O w l) as [| |w1] eqn:S; try discriminate.
    assert (reachable O w1) as R1 by (eapply reach_step; eassumption).
    destruct (is_tick tid l) eqn:TK.
    + destruct l as [t e|]; [|discriminate]. simpl in TK. apply Nat.eqb_eq in TK. subst t.
      assert (w_alive w = true) as A by (eapply step_ok; [apply reach_inv; exact R|exact S]).
      destruct (ref_progress O w tid p e R A N RI) as (w1' & p1 & S1 & N1 & RK).
      rewrite S in S1. injection S1 as <-.
      destruct (ref_id p1) as [j|] eqn:RI1.
      * assert (ref_rank p1 <= own_steps tid ls) as K1.
        { unfold own_steps in *. simpl in K. rewrite Nat.eqb_refl in K. simpl in K. lia. }
        destruct (IH w1 tid p1 w' R1 N1 ltac:(congruence) E K1) as (l1 & l2 & w2 & p2 & -> & E2 & K2 & N2 & RI2).
        exists (LTick tid e :: l1), l2, w2, p2. split; [reflexivity|]. split; [simpl; rewrite S; exact E2|].
        split; [|auto]. unfold own_steps in *. simpl. rewrite Nat.eqb_refl. simpl. lia.
      * exists [LTick tid e], ls, w1, p1. split; [reflexivity|]. split; [simpl; rewrite S; reflexivity|].
        split; [|auto]. unfold own_steps. simpl. rewrite Nat.eqb_refl. simpl. lia.
    + assert (nth_error (w_threads w1) tid = Some p) as N1.
      { destruct (step_ok _ _ _ _ (reach_inv _ _ R) S) as (_ & _ & T & _).
        eapply tstep_other; try eassumption. intros e ->. simpl in TK. rewrite Nat.eqb_refl in TK. discriminate. }
      assert (own_steps tid (l :: ls) = own_steps tid ls) as OS by (unfold own_steps; simpl; rewrite TK; reflexivity).
      rewrite OS in K.
      destruct (IH w1 tid p w' R1 N1 RI E K) as (l1 & l2 & w2 & p2 & -> & E2 & K2 & N2 & RI2).
      exists (l :: l1), l2, w2, p2. split; [reflexivity|]. split; [simpl; rewrite S; exact E2|].
      split; [|auto]. unfold own_steps in *. simpl. rewrite TK. exact K2.
Qed.

Lemma mark_owner_unique O w e a :
  reachable O w -> In e (details (w_lk w)) -> d_ts e = TSActive a -> ongoing a = true ->
  exists tid, forall tid', (exists p, nth_error (w_threads w) tid' = Some p /\ ref_id p = Some (d_id e)) <-> tid' = tid.
Proof.
  intros R H T OG. destruct (mark_has_owner _ _ _ _ R H T OG) as (tid & p & N & RI). exists tid. intros tid'. split.
  - intros (p' & N' & RI'). eapply one_refresh_per_version; eassumption.
  - intros ->. eauto.
Qed.

Lemma ref_rank_max p : ref_rank p <= 4.
Proof. destruct p; simpl; lia. Qed.

Lemma ref_ends O w tid p ls w' :
  reachable O w -> nth_error (w_threads w) tid = Some p -> ref_id p <> None ->
  run O w ls = Some (SNext w') -> 4 <= own_steps tid ls ->
  exists l1 l2 w1 p1,
    ls = l1 ++ l2 /\ run O w l1 = Some (SNext w1) /\ own_steps tid l1 <= 4
    /\ nth_error (w_threads w1) tid = Some p1 /\ ref_id p1 = None.
Proof.
  intros R N RI E K. pose proof (ref_rank_max p) as M.
  destruct (ref_ends_run O ls w tid p w' R N RI E) as (l1 & l2 & w1 & p1 & H1 & H2 & H3 & H4); [lia|].
  exists l1, l2, w1, p1. repeat (split; [assumption || lia|]). exact H4.
Qed.

Lemma ref_never_blocks O w tid p e :
  reachable O w -> w_alive w = true -> nth_error (w_threads w) tid = Some p -> ref_id p <> None ->
  exists w', step O w (LTick tid e) = SNext w'.
Proof.
  intros R A N RI. destruct (ref_progress O w tid p e R A N RI) as (w' & p' & H & _). eauto.
Qed.

(** * Settings *)

Lemma max_age_is act c : act_refresh_at_least act c = max_age act c.
Proof.
  unfold act_refresh_at_least, max_age, opt_default, opt_or, first_of.
  destruct (a_refresh_at_least act); [reflexivity|]. destruct (c_refresh_at_least c); reflexivity.
Qed.
