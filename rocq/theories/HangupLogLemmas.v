(** The log of a server whose clients and browsers may go away. *)
From Coq Require Import Permutation.
From Verif Require Import Base BaseLemmas Time Utf8 Base64 Url Json Oracles Config Dump State Http Timers Server
  StateLemmas ConfigLemmas SpecServer Steps Inv Reach Own Trace Reply SpecTimers Startup Log SpecLog LogLemmas
  Hangup SpecHangup HangupLog SpecHangupLog HangupLemmas Life.

(** ** With and without those who go *)

Lemma hlog_retrace O w t l x : hlog_of O (retrace w t) l x = hlog_of O w l x.
Proof.
  destruct l as [[tid e|https bytes]|tid]; [|reflexivity|reflexivity].
  cbn [hlog_of]. change (w_threads (retrace w t)) with (w_threads w).
  destruct (nth_error (w_threads w) tid) as [p|]; [|reflexivity]. destruct p; reflexivity.
Qed.

Lemma warned_same a ms l l0 : warned ms l l0 -> warned ms (a ++ l) (a ++ l0).
Proof. intros W. induction a as [|x a IH]; [exact W|constructor; exact IH]. Qed.

Lemma replies_app a b : replies (a ++ b) = replies a + replies b.
Proof. unfold replies. rewrite filter_app, app_length. reflexivity. Qed.

Lemma same_lost w w0 tid k os : same_state w w0 -> same_state (set_thread w tid k) (emit (set_thread w0 tid k) os).
Proof. destruct w, w0. intros [A B C D E F G H I J]. cbn in *. subst. split; reflexivity. Qed.

Lemma hlog_sim O e ls : forall w w0 w',
  reachable O w0 -> same_state w w0 ->
  hrun O w (map fst ls) = Some (SNext w') ->
  exists w0' ms, run O w0 (map (stays e) (map fst ls)) = Some (SNext w0') /\ same_state w' w0'
    /\ subseq ms (reasons ls) /\ warned ms (hrun_log O w ls) (hrun_log O w0 (map (stays_here e) ls))
    /\ replies (w_trace w0') + replies (w_trace w) = replies (w_trace w') + replies (w_trace w0) + List.length ms.
Proof.
  induction ls as [|[l x] ls IH]; intros w w0 w' R SS H.
  - injection H as <-. exists w0, []. repeat split; try apply SS; [constructor|constructor|cbn; lia].
  - cbn [map fst hrun] in H. destruct (hstep O w l) as [| |w1] eqn:S; try discriminate H.
    pose proof (same_retrace _ _ SS) as E0. destruct l as [l|tid].
    + cbn [hstep] in S. pose proof (step_retrace O w (w_trace w0) l) as G. rewrite S in G.
      destruct G as (os & T & G). rewrite <- E0 in G.
      assert (same_state w1 (retrace w1 (w_trace w0 ++ os))) as SS1 by apply retrace_same.
      destruct (IH _ _ _ (reach_step _ _ _ _ R G) SS1 H) as (w0' & ms & R' & SS' & SQ & W & C).
      exists w0', ms. split; [cbn [map fst stays run]; rewrite G; exact R'|]. split; [exact SS'|]. split; [exact SQ|]. split.
      * cbn [map stays_here fst snd hrun_log stays hstep]. rewrite S, G.
        rewrite E0 at 1. rewrite hlog_retrace. apply warned_same. exact W.
      * rewrite T in C. cbn [w_trace retrace] in C. rewrite !replies_app in C. lia.
    + cbn [hstep] in S. destruct (w_alive w) eqn:A; [|discriminate S]. unfold write_fails in S.
      destruct (nth_error (w_threads w) tid) as [p|] eqn:N; [|discriminate S].
      destruct p; try discriminate S. rename p into k.
      assert (w_alive w0 = true) as A0 by (rewrite <- (ss_alive _ _ SS); exact A).
      assert (nth_error (w_threads w0) tid = Some (PDo a k)) as N0 by (rewrite <- (ss_threads _ _ SS); exact N).
      destruct a as [| |nm ev| |i|o|]; try discriminate S.
      assert (step O w0 (LTick tid e) = SNext (emit (set_thread w0 tid k) [o])) as S0 by exact (answer_step _ _ _ _ _ _ A0 N0).
      destruct o as [c|req|req txt| | |bytes| | | | | | | | |]; try discriminate S; injection S as <-.
      * destruct (reply_last _ _ _ _ _ _ R N0) as [-> ->].
        destruct (IH (set_thread w 0 PMain) _ w' (reach_step _ _ _ _ R S0)) as (w0' & ms & R' & SS' & SQ & W & C); [|exact H|].
        { apply same_lost. exact SS. }
        exists w0', (x_why x :: ms). split; [cbn [map fst stays run]; rewrite S0; exact R'|]. split; [exact SS'|]. split; [constructor; exact SQ|]. split.
        -- cbn [map stays_here fst snd hrun_log stays hstep]. rewrite A, S0. unfold write_fails. rewrite N.
           cbn [hlog_of]. unfold lost_log. rewrite N, N0. unfold replied_log.
           destruct (split_first ":"%char req) as [[cmd rest]|]; [destruct (unknown_command cmd rest)|]; cbn [app];
             constructor; exact W.
        -- cbn [w_trace emit set_thread] in C. rewrite replies_app in C. cbn in C |- *. lia.
      * destruct (IH (set_thread w tid k) _ w' (reach_step _ _ _ _ R S0)) as (w0' & ms & R' & SS' & SQ & W & C); [|exact H|].
        { apply same_lost. exact SS. }
        exists w0', ms. split; [cbn [map fst stays run]; rewrite S0; exact R'|]. split; [exact SS'|]. split; [constructor; exact SQ|]. split.
        -- cbn [map stays_here fst snd hrun_log stays hstep]. rewrite A, S0. unfold write_fails. rewrite N.
           cbn [hlog_of]. unfold lost_log. rewrite N, N0. exact W.
        -- cbn [w_trace emit set_thread] in C. rewrite replies_app in C. cbn in C |- *. lia.
Qed.

Lemma gone_logged O e w ls w' :
  reachable O w -> hrun O w (map fst ls) = Some (SNext w') ->
  exists w0 ms, run O w (map (stays e) (map fst ls)) = Some (SNext w0) /\ same_state w' w0
    /\ subseq ms (reasons ls) /\ warned ms (hrun_log O w ls) (hrun_log O w (map (stays_here e) ls))
    /\ replies (w_trace w0) = replies (w_trace w') + List.length ms.
Proof.
  intros R H. destruct (hlog_sim O e ls w w w' R ltac:(split; reflexivity) H) as (w0 & ms & A & B & Q & C & D).
  exists w0, ms. repeat split; try apply B; try assumption. lia.
Qed.

(** ** If nobody goes the log is the one of Log.v *)

Definition owed (p : pc) : list log_line :=
  flat_map (fun a => match a with AEmit (OReply r _) => replied_log r | _ => [] end) (chain p).
Definition owed_by (w : world) : list log_line :=
  match nth_error (w_threads w) 0 with Some p => owed p | None => [] end.

Lemma owed_for req p : (forall r t, In (AEmit (OReply r t)) (chain p) -> r = req) -> replied_log req = [] -> owed p = [].
Proof.
  intros H E. unfold owed. induction (chain p) as [|a l IH]; [reflexivity|]. cbn [flat_map].
  rewrite IH by (intros r t I; apply (H r t); right; exact I). rewrite app_nil_r.
  destruct a as [| |n ev| |i|o|]; try reflexivity. destruct o; try reflexivity.
  rewrite (H _ _ (or_introl eq_refl)). exact E.
Qed.

Lemma main_points O w p : reachable O w -> nth_error (w_threads w) 0 = Some p -> p = PMain \/ exists a k, p = PDo a k.
Proof.
  intros R N. pose proof (ro_pc _ (reach_roles _ _ R) _ _ N) as RO.
  destruct p; try discriminate RO; [right; do 2 eexists|left]; reflexivity.
Qed.

Lemma request_owes O e w req lk' p' os :
  inv O w -> e_client e = Some req -> request O e w req = Val (lk', p', os) -> owed p' = replied_log req.
Proof.
  intros I EC RQ.
  destruct (request_ok O w e I req EC) as [C|[C _]]; [|rewrite RQ in C; discriminate C].
  rewrite RQ in C. cbn [cs_ok] in C.
  unfold replied_log. unfold request in RQ.
  destruct (split_first ":"%char req) as [[cmd rest]|] eqn:SP; [|discriminate RQ].
  destruct (unknown_command cmd rest) eqn:U.
  - unfold from_utf8 in RQ. destruct (utf8_valid cmd); [|discriminate RQ]. cbn [bind] in RQ.
    rewrite (unknown_dispatch _ _ _ _ _ _ U) in RQ. injection RQ as <- <- <-.
    unfold owed, replied_log. cbn [chain reply flat_map app]. rewrite SP, U. reflexivity.
  - apply (owed_for req).
    + intros r t IN. pose proof (csr_chain _ _ _ _ _ _ _ _ C IN) as [_ E]. congruence.
    + unfold replied_log. rewrite SP, U. reflexivity.
Qed.

Lemma perm_step O w l w' x :
  reachable O w -> step O w l = SNext w' ->
  Permutation (hlog_of O w (HStep l) x ++ owed_by w') (owed_by w ++ log_of O w l x).
Proof.
  intros R S. destruct (step_ok _ _ _ _ (reach_inv _ _ R) S) as (_ & _ & T & A).
  assert (exists p0, nth_error (w_threads w) 0 = Some p0) as (p0 & N0).
  { destruct (nth_error (w_threads w) 0) as [p0|] eqn:E; [exists p0; reflexivity|exfalso].
    pose proof (ro_len _ (reach_roles _ _ R)) as LN. apply nth_error_None in E. lia. }
  assert ((exists e, l = LTick 0 e) \/ forall e, l <> LTick 0 e) as [(e & ->)|NZ].
  { destruct l as [[|tid] e|]; [left; eexists; reflexivity|right; discriminate|right; discriminate]. }
  - cbn [hlog_of log_of]. rewrite N0. unfold owed_by. rewrite N0.
    unfold step in S. rewrite A, N0 in S.
    destruct (main_points _ _ _ R N0) as [->|(a & k & ->)].
    + cbn [step_thread thread_log] in *. destruct (e_client e) as [req|] eqn:EC; [|discriminate S].
      unfold client_log, read_log. unfold owed at 2. cbn [chain flat_map app].
      destruct (request O e w req) as [[[lk' p'] os]|m|] eqn:RQ; cbn [run_cs] in S; [| |discriminate S].
      * injection S as <-. cbn [app w_threads emit set_thread set_lk].
        rewrite (nth_list_set_same _ _ _ _ N0). fold (replied_log req).
        assert (owed p' = replied_log req) as ->; [|reflexivity].
        exact (request_owes _ _ _ _ _ _ _ (reach_inv _ _ R) EC RQ).
      * injection S as <-. cbn [app w_threads emit set_thread]. rewrite (nth_list_set_same _ _ _ _ N0). reflexivity.
    + cbn [step_thread] in S. injection S as <-.
      assert (nth_error (w_threads (do_action (set_thread w 0 k) a)) 0 = Some k) as ->.
      { destruct a; cbn; destruct (w_threads w); try discriminate N0; reflexivity. }
      unfold owed at 2. cbn [chain flat_map]. fold (owed k).
      destruct a as [| |n ev| |i|o|]; cbn [thread_log app]; try (rewrite app_nil_r; reflexivity).
      destruct o; cbn [app]; try (rewrite app_nil_r; reflexivity). apply Permutation_app_comm.
  - assert (owed_by w' = owed_by w) as ->.
    { unfold owed_by. rewrite N0, (tstep_other _ _ _ _ _ _ T NZ N0). reflexivity. }
    assert (hlog_of O w (HStep l) x = log_of O w l x) as ->; [|apply Permutation_app_comm].
    destruct l as [tid e|]; [|reflexivity]. cbn [hlog_of log_of].
    destruct (nth_error (w_threads w) tid) as [p|] eqn:N; [|reflexivity].
    assert (tid <> 0) as NE by (intros ->; exact (NZ e eq_refl)).
    destruct p; try reflexivity; [|destruct (NE (main_tid _ _ _ R N))].
    destruct a; try reflexivity. destruct o; try reflexivity. destruct (reply_last _ _ _ _ _ _ R N) as [Z _]. contradiction.
Qed.

Lemma perm_run O ls : forall w w',
  reachable O w -> run O w (map fst ls) = Some (SNext w') ->
  Permutation (hrun_log O w (map (fun lx => (HStep (fst lx), snd lx)) ls) ++ owed_by w') (owed_by w ++ run_log O w ls).
Proof.
  induction ls as [|[l x] ls IH]; intros w w' R H.
  - injection H as <-. cbn. rewrite app_nil_r. reflexivity.
  - cbn [map fst snd run] in H. cbn [map fst snd hrun_log run_log hstep]. destruct (step O w l) as [| |w1] eqn:S; try discriminate H.
    pose proof (IH _ _ (reach_step _ _ _ _ R S) H) as P. pose proof (perm_step _ _ _ _ x R S) as Q.
    rewrite <- app_assoc, P, !app_assoc, Q. reflexivity.
Qed.

Lemma nobody_goes O w ls w' :
  reachable O w -> run O w (map fst ls) = Some (SNext w') -> main_idle w -> main_idle w' ->
  Permutation (hrun_log O w (map (fun lx => (HStep (fst lx), snd lx)) ls)) (run_log O w ls).
Proof.
  intros R H I I'. pose proof (perm_run O ls w w' R H) as P. unfold owed_by, main_idle in *. rewrite I, I' in P.
  cbn [owed chain flat_map app] in P. rewrite app_nil_r in P. exact P.
Qed.

(** ** Nothing else is said *)

Lemma warned_rest ms l l0 : warned ms l l0 ->
  filter (fun x => match fst x with LWarn => false | _ => true end) l
  = filter (fun x => match fst x with LWarn => false | _ => true end) l0.
Proof. induction 1 as [|ms x l l0 W IH|ms m l l0 W IH|ms m l l0 W IH]; cbn; [reflexivity| |exact IH|exact IH]. rewrite IH. reflexivity. Qed.

Lemma warned_in ms l l0 x : warned ms l l0 -> In x l -> In x l0 \/ exists m, x = (LWarn, m) /\ In m ms.
Proof.
  induction 1 as [|ms y l l0 W IH|ms m l l0 W IH|ms m l l0 W IH]; intros IN.
  - destruct IN.
  - destruct IN as [->|IN]; [left; left; reflexivity|]. destruct (IH IN) as [H|H]; [left; right; exact H|right; exact H].
  - destruct IN as [<-|IN]; [right; exists m; split; [reflexivity|left; reflexivity]|].
    destruct (IH IN) as [H|(m' & E & H)]; [left; exact H|right; exists m'; split; [exact E|right; exact H]].
  - destruct IN as [<-|IN]; [right; exists m; split; [reflexivity|left; reflexivity]|].
    destruct (IH IN) as [H|(m' & E & H)]; [left; right; exact H|right; exists m'; split; [exact E|right; exact H]].
Qed.

Lemma subseq_in {A} (a b : list A) x : subseq a b -> In x a -> In x b.
Proof.
  induction 1 as [l|y l1 l2 S IH|y l1 l2 S IH]; intros IN; [destruct IN|right; exact (IH IN)|].
  destruct IN as [->|IN]; [left; reflexivity|right; exact (IH IN)].
Qed.

Lemma nothing_else O e w ls w' x :
  reachable O w -> hrun O w (map fst ls) = Some (SNext w') -> main_idle w ->
  In x (hrun_log O w ls) ->
  In x (run_log O w (map (fun lx => (stays e (fst lx), snd lx)) ls)) \/ exists m, x = (LWarn, m) /\ In m (reasons ls).
Proof.
  intros R H I IN. destruct (gone_logged O e w ls w' R H) as (w0 & ms & H0 & _ & SQ & W & _).
  destruct (warned_in _ _ _ _ W IN) as [IN0|(m & E & M)].
  - left. set (ls0 := map (fun lx => (stays e (fst lx), snd lx)) ls).
    assert (map fst ls0 = map (stays e) (map fst ls)) as E1 by (unfold ls0; rewrite !map_map; reflexivity).
    assert (map (fun lx => (HStep (fst lx), snd lx)) ls0 = map (stays_here e) ls) as E2
      by (unfold ls0; rewrite map_map; reflexivity).
    rewrite <- E1 in H0. rewrite <- E2 in IN0. pose proof (perm_run O ls0 w w0 R H0) as P.
    unfold owed_by at 2 in P. unfold main_idle in I. rewrite I in P. cbn [owed chain flat_map app] in P.
    apply (Permutation_in _ P). apply in_or_app. left. exact IN0.
  - right. exists m. split; [exact E|exact (subseq_in _ _ _ SQ M)].
Qed.
