(** C01-C10: what a token is good for, and the life of account versions.  Each
    theorem is followed by the assumptions it rests on and by a concrete case
    meeting its hypotheses. *)
From Verif Require Import Base Time Utf8 Base64 Url Json Oracles Config Dump State Http Timers Server
  SpecServer Reach Own Trace Shown Revoke Basic Decide Scenario Runs Cases.

(** * C01 *)

Theorem C01_shown_token_is_current O w t1 rest tok t2 :
  reachable O w ->
  w_trace w = t1 ++ OReply ($"showtoken:" ++ rest) ($"access_token:" ++ tok) :: t2 ->
  exists wu n c act,
    rest = wu ++ $" " ++ n /\ ~ In " "%char wu
    /\ config_at t1 = Some c /\ lookup n (c_accounts c) = Some act
    /\ since (delivers O tok) t1 n act.
Proof. exact (shown_delivered O w t1 rest tok t2). Qed.
Print Assumptions C01_shown_token_is_current.

Example C01_case :
  reachable toy w_shown
  /\ w_trace w_shown = firstn 9 (w_trace w_shown)
       ++ OReply ($"showtoken:" ++ $"withurl a") ($"access_token:" ++ $"tok") :: skipn 10 (w_trace w_shown).
Proof. split; [unfold w_shown, w_auth; reach_after|]. apply split_at. vm_compute. reflexivity. Qed.

(** * C02 *)

Theorem C02_reload_keeps_unchanged O w e c :
  reachable O w -> w_alive w = true -> nth_error (w_threads w) 0 = Some PMain ->
  e_client e = Some $"reload:" -> config_from_path O e = Val c ->
  exists lk',
    step O w (LTick 0 e) =
      SNext (emit (set_thread (set_lk w lk') 0
                     (do_all [ASigNotifier; ASigRefresher; AEmit (OReply $"reload:" $"ok:")] PMain))
               [OClient $"reload:"; OConfig c])
    /\ lconfig lk' = c
    /\ (forall n ts, holds (set_lk w lk') n ts <->
         exists a', lookup n (c_accounts c) = Some a' /\
           ((exists a, configured w n a /\ same_security a a' /\ holds w n ts)
            \/ ((forall a, configured w n a -> ~ same_security a a') /\ ts = TSEmpty)))
    /\ (forall n i ts a a', In (mkEntry n i ts) (details (w_lk w)) -> configured w n a ->
         lookup n (c_accounts c) = Some a' -> same_security a a' -> In (mkEntry n i ts) (details lk')).
Proof. exact (reload_ok O w e c). Qed.
Print Assumptions C02_reload_keeps_unchanged.

(** Account "a" holds a token and is unchanged, "b" has changed. *)
Example C02_case :
  let w := w_auth in let e := reload_env conf2 1100 in let c := conf_of conf2 in
  reachable toy w /\ w_alive w = true /\ nth_error (w_threads w) 0 = Some PMain
  /\ e_client e = Some $"reload:" /\ config_from_path toy e = Val c
  /\ (exists a, holds w $"a" (TSActive a))
  /\ (exists a a', configured w $"a" a /\ lookup $"a" (c_accounts c) = Some a' /\ same_security a a' /\ a <> a')
  /\ (exists a a', configured w $"b" a /\ lookup $"b" (c_accounts c) = Some a' /\ ~ same_security a a').
Proof.
  cbv zeta. split; [apply w_auth_reachable|].
  repeat (split; [vm_compute; reflexivity|]). split; [|split].
  - eexists. eexists (mkEntry _ _ _). vm_compute. split; [left; reflexivity|]. split; reflexivity.
  - eexists. eexists. split; [vm_compute; reflexivity|]. split; [vm_compute; reflexivity|].
    split; [vm_compute; repeat split|]. discriminate.
  - eexists. eexists. split; [vm_compute; reflexivity|]. split; [vm_compute; reflexivity|].
    intros (_ & _ & _ & _ & _ & X & _). vm_compute in X. discriminate X.
Qed.

(** * C03 *)

Theorem C03_failed_reload_changes_nothing O w e m :
  reachable O w -> w_alive w = true -> nth_error (w_threads w) 0 = Some PMain ->
  e_client e = Some $"reload:" -> config_from_path O e = Err m ->
  step O w (LTick 0 e) =
    SNext (emit (set_thread w 0 (PDo (AEmit (OReply $"reload:" ($"error:" ++ m))) PMain)) [OClient $"reload:"]).
Proof. exact (reload_failed O w e m). Qed.
Print Assumptions C03_failed_reload_changes_nothing.

(** Without the last brace. *)
Example C03_case :
  let w := w_auth in let e := reload_env (removelast conf2) 1100 in
  reachable toy w /\ w_alive w = true /\ nth_error (w_threads w) 0 = Some PMain
  /\ e_client e = Some $"reload:" /\ exists m, config_from_path toy e = Err m.
Proof.
  cbv zeta. split; [apply w_auth_reachable|]. repeat (split; [vm_compute; reflexivity|]).
  eexists. vm_compute. reflexivity.
Qed.

(** * C04 *)

Theorem C04_revocation_is_final O w t1 n tm wu tok t2 :
  reachable O w ->
  w_trace w = t1 ++ OReply ($"revoke:" ++ n) $"ok:" :: tm
                 ++ OReply ($"showtoken:" ++ wu ++ $" " ++ n) ($"access_token:" ++ tok) :: t2 ->
  ~ In " "%char wu ->
  reauthorised O n tm.
Proof. exact (revoke_final O w t1 n tm wu tok t2). Qed.
Print Assumptions C04_revocation_is_final.

Theorem C04_revoke_discards O w e n ts :
  reachable O w -> w_alive w = true -> nth_error (w_threads w) 0 = Some PMain ->
  utf8_valid n = true -> e_client e = Some ($"revoke:" ++ n) -> holds w n ts ->
  exists lk',
    step O w (LTick 0 e)
      = SNext (emit (set_thread (set_lk w lk') 0
                 (do_all [APushEvent n EvRevoked; ASigEventer; AEmit (OReply ($"revoke:" ++ n) $"ok:")] PMain))
                 [OClient ($"revoke:" ++ n)])
    /\ becomes w lk' n TSEmpty.
Proof. exact (revoke_known O w e n ts). Qed.
Print Assumptions C04_revoke_discards.

Theorem C04_revoke_unknown O w e n :
  reachable O w -> w_alive w = true -> nth_error (w_threads w) 0 = Some PMain ->
  utf8_valid n = true -> e_client e = Some ($"revoke:" ++ n) -> (forall ts, ~ holds w n ts) ->
  step O w (LTick 0 e)
    = SNext (emit (set_thread w 0
               (do_all [AEmit (OReply ($"revoke:" ++ n) ($"error:No account '" ++ n ++ $"'"))] PMain))
               [OClient ($"revoke:" ++ n)]).
Proof. exact (revoke_unknown O w e n). Qed.
Print Assumptions C04_revoke_unknown.

(** Revoked, authorised again, shown. *)
Example C04_case :
  reachable toy w_again
  /\ exists t1 tm t2, w_trace w_again = t1 ++ OReply ($"revoke:" ++ $"a") $"ok:" :: tm
       ++ OReply ($"showtoken:" ++ $"withurl" ++ $" " ++ $"a") ($"access_token:" ++ $"tok2") :: t2.
Proof.
  split; [unfold w_again, w_auth; reach_after|].
  exists (firstn 10 (w_trace w_again)), (firstn 8 (skipn 11 (w_trace w_again))), [].
  vm_compute. reflexivity.
Qed.

Example C04_case2 :
  let w := w_auth in let e := client $"revoke:a" (tick 0) in
  reachable toy w /\ w_alive w = true /\ nth_error (w_threads w) 0 = Some PMain
  /\ utf8_valid $"a" = true /\ e_client e = Some ($"revoke:" ++ $"a")
  /\ (exists ts, holds w $"a" ts) /\ (forall ts, ~ holds w $"c" ts).
Proof.
  cbv zeta. split; [apply w_auth_reachable|]. repeat (split; [vm_compute; reflexivity|]). split.
  - eexists. eexists (mkEntry _ _ _). vm_compute. split; [left; reflexivity|]. split; reflexivity.
  - intros ts (e0 & H & E & _). vm_compute in H. destruct H as [<-|[<-|[]]]; discriminate E.
Qed.

(** * C05 *)

Theorem C05_outdated_work_has_no_effect O w0 wm w1 w2 w3 tid p1 i n ts0 act e :
  reachable O w0 -> steps O w0 wm -> steps O wm w1 -> steps O w1 w2 ->
  In (mkEntry n i ts0) (details (w_lk w0)) -> configured w0 n act ->
  (holds wm n ts0 -> forall act', configured wm n act' -> ~ same_security act' act) ->
  nth_error (w_threads w1) tid = Some p1 -> work_id p1 = Some i ->
  step O w2 (LTick tid e) = SNext w3 -> w_lk w3 = w_lk w2.
Proof. exact (outdated_no_effect O w0 wm w1 w2 w3 tid p1 i n ts0 act e). Qed.
Print Assumptions C05_outdated_work_has_no_effect.

(** The exchange was in flight when the account was revoked. *)
Example C05_case :
  exists i ts0 act p1 w3,
    let w0 := w_exch in let w1 := w_exch_revoked in
    reachable toy w0 /\ steps toy w0 w1
    /\ In (mkEntry $"a" i ts0) (details (w_lk w0)) /\ configured w0 $"a" act
    /\ ~ holds w1 $"a" ts0
    /\ nth_error (w_threads w1) 4 = Some p1 /\ work_id p1 = Some i
    /\ step toy w1 (LTick 4 (tick (sec 1010))) = SNext w3.
Proof.
  do 5 eexists. cbv zeta. split; [unfold w_exch; reach_after|].
  split; [apply after_steps; vm_compute; reflexivity|].
  split; [vm_compute; left; reflexivity|]. split; [vm_compute; reflexivity|].
  split; [|compute_all].
  intros (e0 & H & E & T). vm_compute in H. destruct H as [<-|[<-|[]]]; [discriminate T|discriminate E].
Qed.

(** * C06 *)

Theorem C06_version_identifies_state O w1 w2 w3 e1 e3 :
  reachable O w1 -> steps O w1 w2 -> steps O w2 w3 ->
  In e1 (details (w_lk w1)) -> In e3 (details (w_lk w3)) -> d_id e1 = d_id e3 ->
  e1 = e3 /\ In e1 (details (w_lk w2)).
Proof. exact (id_identifies O w1 w2 w3 e1 e3). Qed.
Print Assumptions C06_version_identifies_state.

Theorem C06_versions_distinct O w : reachable O w -> NoDup (act_ids (w_lk w)).
Proof. exact (ids_distinct O w). Qed.
Print Assumptions C06_versions_distinct.

(** Account "b" keeps its version throughout, "a" does not. *)
Example C06_case :
  reachable toy w_exch /\ steps toy w_exch w_exch_revoked
  /\ (exists e, In e (details (w_lk w_exch)) /\ In e (details (w_lk w_exch_revoked)))
  /\ (exists e, In e (details (w_lk w_exch)) /\ ~ In (d_id e) (act_ids (w_lk w_exch_revoked))).
Proof.
  split; [unfold w_exch; reach_after|]. split; [apply after_steps; vm_compute; reflexivity|]. split.
  - eexists. split; vm_compute; right; left; reflexivity.
  - eexists. split; [vm_compute; left; reflexivity|]. vm_compute. intros [H|[H|[]]]; discriminate H.
Qed.

(** * C07 *)

(** It can: an account's token lasts longer than dates do, and a client asks
    for the status. *)
Theorem C07_never_panics_refuted : exists O w l, reachable O w /\ step O w l = SPanic.
Proof.
  exists toy, w_far, (main (client $"status:" (tick (sec 1010)))). split; [unfold w_far; reach_after|].
  vm_compute. reflexivity.
Qed.
Print Assumptions C07_never_panics_refuted.

(** There is no other way. *)
Theorem C07_only_status_panics_partial O w l :
  reachable O w -> (step O w l = SPanic <-> breaks_down O w l).
Proof. exact (fun R => conj (panics_only O w l R) (breaks_down_panics O w l R)). Qed.
Print Assumptions C07_only_status_panics_partial.

(** If all times have dates, there is none. *)
Theorem C07_never_panics_partial O w l :
  reachable O w -> (forall t, o_fmt_time O t <> None) -> step O w l <> SPanic.
Proof. exact (dates_for_all O w l). Qed.
Print Assumptions C07_never_panics_partial.

Example C07_case :
  reachable toy w_again /\ breaks_down toy w_far (main (client $"status:" (tick (sec 1010)))).
Proof.
  split; [unfold w_again, w_auth; reach_after|]. apply panics_only; [unfold w_far; reach_after|].
  vm_compute. reflexivity.
Qed.

(** * C08 *)

Theorem C08_accounts_known O w :
  reachable O w ->
  exists c, config_at (w_trace w) = Some c
    /\ map d_name (details (w_lk w)) = keys (c_accounts c) /\ NoDup (keys (c_accounts c)) /\ c_accounts c <> [].
Proof. exact (accounts_known O w). Qed.
Print Assumptions C08_accounts_known.

Theorem C08_status_lists_all O w e :
  reachable O w -> w_alive w = true -> nth_error (w_threads w) 0 = Some PMain ->
  e_client e = Some $"status:" -> ~ breaks_down O w (LTick 0 e) ->
  exists txts lines,
    step O w (LTick 0 e)
      = SNext (emit (set_thread w 0 (PDo (AEmit (OReply $"status:" ($"ok:" ++ join [nl] lines))) PMain))
                 [OClient $"status:"])
    /\ List.length txts = List.length (details (w_lk w))
    /\ Permutation lines (map (fun p => d_name (fst p) ++ $": " ++ snd p) (combine (details (w_lk w)) txts))
    /\ Sorted.LocallySorted str_le lines
    /\ (forall k e0 txt, nth_error (details (w_lk w)) k = Some e0 -> nth_error txts k = Some txt ->
          status_ok O (e_clk e (3 * k)) (e_clk e (3 * k + 1)) (e_clk e (3 * k + 2)) (d_ts e0) txt).
Proof. exact (status_lists O w e). Qed.
Print Assumptions C08_status_lists_all.

Example C08_case :
  let w := w_auth in let e := client $"status:" (tick (sec 1010)) in
  reachable toy w /\ w_alive w = true /\ nth_error (w_threads w) 0 = Some PMain
  /\ e_client e = Some $"status:" /\ List.length (details (w_lk w)) = 2
  /\ ~ breaks_down toy w (LTick 0 e).
Proof.
  cbv zeta. split; [apply w_auth_reachable|]. do 4 (split; [vm_compute; reflexivity|]).
  apply answered_not_broken; [apply w_auth_reachable|]. vm_compute. discriminate.
Qed.

(** * C09 *)

Theorem C09_one_refresh_per_version O w tid tid' p p' i :
  reachable O w ->
  nth_error (w_threads w) tid = Some p -> nth_error (w_threads w) tid' = Some p' ->
  ref_id p = Some i -> ref_id p' = Some i -> tid = tid'.
Proof. exact (one_refresh_per_version O w tid tid' p p' i). Qed.
Print Assumptions C09_one_refresh_per_version.

Theorem C09_asking_again_starts_nothing O w t1 p tid i e :
  reachable O w -> w_alive w = true ->
  nth_error (w_threads w) t1 = Some p -> ref_id p = Some i ->
  nth_error (w_threads w) tid = Some (PRefStart i) ->
  step O w (LTick tid e) = SNext (set_thread w tid PDone).
Proof. exact (asking_again O w t1 p tid i e). Qed.
Print Assumptions C09_asking_again_starts_nothing.

Example C09_case :
  exists p i, let w := w_refreshing2 in
    reachable toy w /\ w_alive w = true
    /\ nth_error (w_threads w) 5 = Some p /\ ref_id p = Some i /\ nth_error (w_threads w) 6 = Some (PRefStart i).
Proof.
  do 2 eexists. cbv zeta. split; [unfold w_refreshing2, w_refreshing, w_auth; reach_after|].
  compute_all.
Qed.

(** * C10 *)

Theorem C10_mark_has_unique_owner O w e a :
  reachable O w -> In e (details (w_lk w)) -> d_ts e = TSActive a -> ongoing a = true ->
  exists tid, forall tid',
    (exists p, nth_error (w_threads w) tid' = Some p /\ ref_id p = Some (d_id e)) <-> tid' = tid.
Proof. exact (mark_owner_unique O w e a). Qed.
Print Assumptions C10_mark_has_unique_owner.

Theorem C10_refresh_never_blocks O w tid p e :
  reachable O w -> w_alive w = true -> nth_error (w_threads w) tid = Some p -> ref_id p <> None ->
  exists w', step O w (LTick tid e) = SNext w'.
Proof. exact (ref_never_blocks O w tid p e). Qed.
Print Assumptions C10_refresh_never_blocks.

Theorem C10_refresh_ends O w tid p ls w' :
  reachable O w -> nth_error (w_threads w) tid = Some p -> ref_id p <> None ->
  run O w ls = Some (SNext w') -> 4 <= own_steps tid ls ->
  exists l1 l2 w1 p1,
    ls = l1 ++ l2 /\ run O w l1 = Some (SNext w1) /\ own_steps tid l1 <= 4
    /\ nth_error (w_threads w1) tid = Some p1 /\ ref_id p1 = None.
Proof. exact (ref_ends O w tid p ls w'). Qed.
Print Assumptions C10_refresh_ends.

Theorem C10_end_clears_mark O w w' tid p e p' e0 e1 a :
  reachable O w -> nth_error (w_threads w) tid = Some p ->
  In e0 (details (w_lk w)) -> ref_id p = Some (d_id e0) ->
  step O w (LTick tid e) = SNext w' -> nth_error (w_threads w') tid = Some p' -> ref_id p' = None ->
  In e1 (details (w_lk w')) -> d_name e1 = d_name e0 -> d_ts e1 = TSActive a -> ongoing a = false.
Proof. exact (ref_end_clears O w w' tid p e p' e0 e1 a). Qed.
Print Assumptions C10_end_clears_mark.

(** A refresh in flight that ends in a network failure. *)
Example C10_case :
  exists p i a, let w := w_refreshing in
    let ls := LTick 5 (Scenario.posted (PRTransport TrDns $"no") (tick (sec 1022))) :: many 2 5 (tick (sec 1023)) in
    reachable toy w /\ w_alive w = true /\ In (mkEntry $"a" i (TSActive a)) (details (w_lk w)) /\ ongoing a = true
    /\ nth_error (w_threads w) 5 = Some p /\ ref_id p = Some i /\ runs w ls = true.
Proof.
  do 3 eexists. cbv zeta. split; [unfold w_refreshing, w_auth; reach_after|].
  split; [vm_compute; reflexivity|]. split; [vm_compute; left; reflexivity|].
  compute_all.
Qed.
