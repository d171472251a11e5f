(** Two servers that agree on one account, whatever their other accounts
    (C100): what it means for them to agree, for two threads to do the same work
    for the account, and for two executions to go alike as far as the account is
    concerned. *)
From Verif Require Import Base Url Oracles Config Dump State Http Server SpecServer SpecRestore.

(** A configuration's settings outside its accounts. *)
Definition settings (c : config) : config :=
  mkConfig [] (c_auth_notify_cmd c) (c_auth_notify_interval c) (c_error_notify_cmd c)
    (c_http_listen c) (c_https_listen c) (c_transient_error_if_cmd c) (c_refresh_at_least c)
    (c_refresh_before_expiry c) (c_refresh_retry c) (c_token_event_cmd c).

(** The two servers have the same state and the same configuration for account
    [n], and the same settings.  The versions [i1], [i2] may differ. *)
Record agree (n : str) (lk1 lk2 : locked) : Prop := mkAgree {
  ag_state : exists i1 i2 ts, In (mkEntry n i1 ts) (details lk1) /\ In (mkEntry n i2 ts) (details lk2);
  ag_account : lookup n (c_accounts (lconfig lk1)) = lookup n (c_accounts (lconfig lk2));
  ag_settings : settings (lconfig lk1) = settings (lconfig lk2);
}.

(** [i] is the version of [n]'s state now ... *)
Definition current (n : str) (lk : locked) (i : account_id) : Prop :=
  exists ts, In (mkEntry n i ts) (details lk).

(** ... or no account's any more. *)
Definition outdated (lk : locked) (i : account_id) : Prop :=
  (i < account_count lk)%N /\ forall e, In e (details lk) -> d_id e <> i.

Definition versions (n : str) (lk1 lk2 : locked) (i1 i2 : account_id) : Prop :=
  (current n lk1 i1 /\ current n lk2 i2) \/ (outdated lk1 i1 /\ outdated lk2 i2).

(** Two threads about to do the same: their programs differ at most in the
    versions of [n]'s state they refer to, and those are both current or both
    outdated. *)
Inductive alike (n : str) (lk1 lk2 : locked) : pc -> pc -> Prop :=
| al_done : alike n lk1 lk2 PDone PDone
| al_main : alike n lk1 lk2 PMain PMain
| al_spawn i1 i2 k1 k2 : versions n lk1 lk2 i1 i2 -> alike n lk1 lk2 k1 k2 ->
    alike n lk1 lk2 (PDo (ASpawnRefresh i1) k1) (PDo (ASpawnRefresh i2) k2)
| al_do a k1 k2 : (forall i, a <> ASpawnRefresh i) -> alike n lk1 lk2 k1 k2 ->
    alike n lk1 lk2 (PDo a k1) (PDo a k2)
| al_ref_start i1 i2 : versions n lk1 lk2 i1 i2 -> alike n lk1 lk2 (PRefStart i1) (PRefStart i2)
| al_ref_post i1 i2 m r u q : versions n lk1 lk2 i1 i2 ->
    alike n lk1 lk2 (PRefPost i1 m r u q) (PRefPost i2 m r u q)
| al_ref_body i1 i2 m r b : versions n lk1 lk2 i1 i2 ->
    alike n lk1 lk2 (PRefBody i1 m r b) (PRefBody i2 m r b)
| al_ref_got i1 i2 m t x r now : versions n lk1 lk2 i1 i2 ->
    alike n lk1 lk2 (PRefGot i1 m t x r now) (PRefGot i2 m t x r now)
| al_ref_perm i1 i2 m x : versions n lk1 lk2 i1 i2 ->
    alike n lk1 lk2 (PRefPerm i1 m x) (PRefPerm i2 m x)
| al_ref_transient i1 i2 m x : versions n lk1 lk2 i1 i2 ->
    alike n lk1 lk2 (PRefTransient i1 m x) (PRefTransient i2 m x)
| al_ref_cmd i1 i2 m c : versions n lk1 lk2 i1 i2 ->
    alike n lk1 lk2 (PRefCmd i1 m c) (PRefCmd i2 m c)
| al_ref_cmd_done i1 i2 m ok : versions n lk1 lk2 i1 i2 ->
    alike n lk1 lk2 (PRefCmdDone i1 m ok) (PRefCmdDone i2 m ok)
| al_http_start s b : alike n lk1 lk2 (PHttpStart s b) (PHttpStart s b)
| al_http_post i1 i2 u q t : versions n lk1 lk2 i1 i2 ->
    alike n lk1 lk2 (PHttpPost i1 u q t) (PHttpPost i2 u q t)
| al_http_body i1 i2 b : versions n lk1 lk2 i1 i2 -> alike n lk1 lk2 (PHttpBody i1 b) (PHttpBody i2 b)
| al_http_fail i1 i2 x : versions n lk1 lk2 i1 i2 -> alike n lk1 lk2 (PHttpFail i1 x) (PHttpFail i2 x)
| al_http_notify m x a : alike n lk1 lk2 (PHttpNotify m x a) (PHttpNotify m x a).

(** Two servers that agree on [n], with pairs [ps] of threads (one of the first
    server and one of the second) that are about to do the same. *)
Record twins (O : oracles) (n : str) (w1 w2 : world) (ps : list (nat * nat)) : Prop := mkTwins {
  tw_reach1 : reachable O w1;
  tw_reach2 : reachable O w2;
  tw_agree : agree n (w_lk w1) (w_lk w2);
  tw_http : w_http w1 = w_http w2;
  tw_https : w_https w1 = w_https w2;
  tw_fst : NoDup (map fst ps);
  tw_snd : NoDup (map snd ps);
  tw_pairs : forall t1 t2, In (t1, t2) ps ->
    exists p1 p2, nth_error (w_threads w1) t1 = Some p1 /\ nth_error (w_threads w2) t2 = Some p2
                  /\ alike n (w_lk w1) (w_lk w2) p1 p2;
}.

(** The step a thread at [p] is going to take is about [n] alone: a client asks
    for [n]; a browser shows a state that no other account is waiting for; any
    work that has begun. *)
Definition about (O : oracles) (n : str) (w1 w2 : world) (p : pc) (e : env) : Prop :=
  match p with
  | PMain =>
      exists wu req, e_client e = Some req /\ ~ In " "%char wu
        /\ (req = $"showtoken:" ++ wu ++ $" " ++ n \/ req = $"refresh:" ++ wu ++ $" " ++ n
            \/ req = $"revoke:" ++ n)
  | PHttpStart https bytes =>
      forall uri st m, parse_get O https bytes = Some uri -> lookup $"state" (query_pairs uri) = Some st ->
        awaits w1 m st \/ awaits w2 m st -> m = n
  | _ => True
  end.

(** Whatever step this is, it is not for [n], nor for all accounts. *)
Definition elsewhere (O : oracles) (n : str) (w : world) (l : label) : Prop :=
  ~ concerns O w n l /\ ~ global_step w l.

Definition not_by (ts : list nat) (l : label) : Prop :=
  forall tid e, l = LTick tid e -> ~ In tid ts.

(** [together O n w1 w2 ps os1 os2 v1 v2 qs]: the two servers go from [w1], [w2]
    to [v1], [v2], each at its own pace and doing whatever it likes for its other
    accounts; what is done for [n] is done in both, with the same input.  [os1],
    [os2] is what could be seen of that at the first and the second server. *)
Inductive together (O : oracles) (n : str) (w1 w2 : world) (ps : list (nat * nat))
  : list obs -> list obs -> world -> world -> list (nat * nat) -> Prop :=
| to_start : together O n w1 w2 ps [] [] w1 w2 ps
| to_both os1 os2 v1 v2 qs t1 t2 p e v1' v2' new1 new2 :
    together O n w1 w2 ps os1 os2 v1 v2 qs -> In (t1, t2) qs ->
    nth_error (w_threads v1) t1 = Some p -> about O n v1 v2 p e ->
    step O v1 (LTick t1 e) = SNext v1' -> step O v2 (LTick t2 e) = SNext v2' ->
    w_trace v1' = w_trace v1 ++ new1 -> w_trace v2' = w_trace v2 ++ new2 ->
    together O n w1 w2 ps (os1 ++ new1) (os2 ++ new2) v1' v2' qs
| to_first os1 os2 v1 v2 qs l v1' :
    together O n w1 w2 ps os1 os2 v1 v2 qs -> not_by (map fst qs) l -> elsewhere O n v1 l ->
    step O v1 l = SNext v1' -> together O n w1 w2 ps os1 os2 v1' v2 qs
| to_second os1 os2 v1 v2 qs l v2' :
    together O n w1 w2 ps os1 os2 v1 v2 qs -> not_by (map snd qs) l -> elsewhere O n v2 l ->
    step O v2 l = SNext v2' -> together O n w1 w2 ps os1 os2 v1 v2' qs
(* both look whom to remind, at the same time *)
| to_remind os1 os2 v1 v2 qs e1 e2 v1' v2' :
    together O n w1 w2 ps os1 os2 v1 v2 qs -> env_now e1 = env_now e2 ->
    nth_error (w_threads v1) 2 = Some PNtScan -> nth_error (w_threads v2) 2 = Some PNtScan ->
    step O v1 (LTick 2 e1) = SNext v1' -> step O v2 (LTick 2 e2) = SNext v2' ->
    together O n w1 w2 ps os1 os2 v1' v2' qs
(* both read a new configuration, each its own, with the same in it for [n] *)
| to_reload os1 os2 v1 v2 qs e1 e2 c1 c2 act v1' v2' :
    together O n w1 w2 ps os1 os2 v1 v2 qs -> not_by (map fst qs) (LTick 0 e1) -> not_by (map snd qs) (LTick 0 e2) ->
    nth_error (w_threads v1) 0 = Some PMain -> nth_error (w_threads v2) 0 = Some PMain ->
    e_client e1 = Some $"reload:" -> e_client e2 = Some $"reload:" ->
    config_from_path O e1 = Val c1 -> config_from_path O e2 = Val c2 ->
    lookup n (c_accounts c1) = Some act -> lookup n (c_accounts c2) = Some act -> settings c1 = settings c2 ->
    step O v1 (LTick 0 e1) = SNext v1' -> step O v2 (LTick 0 e2) = SNext v2' ->
    together O n w1 w2 ps os1 os2 v1' v2' qs
(* both read a dump, each its own, with the same in it for [n], at the same time *)
| to_restore os1 os2 v1 v2 qs e1 e2 bytes1 bytes2 d1 d2 r v1' v2' :
    together O n w1 w2 ps os1 os2 v1 v2 qs -> not_by (map fst qs) (LTick 0 e1) -> not_by (map snd qs) (LTick 0 e2) ->
    nth_error (w_threads v1) 0 = Some PMain -> nth_error (w_threads v2) 0 = Some PMain ->
    e_client e1 = Some ($"restore:" ++ bytes1) -> e_client e2 = Some ($"restore:" ++ bytes2) ->
    carries O bytes1 d1 -> carries O bytes2 d2 -> lookup n (d_accounts d1) = lookup n (d_accounts d2) ->
    (forall j, e_clk e1 j = r) -> (forall j, e_clk e2 j = r) ->
    step O v1 (LTick 0 e1) = SNext v1' -> step O v2 (LTick 0 e2) = SNext v2' ->
    together O n w1 w2 ps os1 os2 v1' v2' qs
(* threads that are about to do the same may be looked at together from now on *)
| to_pair os1 os2 v1 v2 qs t1 t2 p1 p2 :
    together O n w1 w2 ps os1 os2 v1 v2 qs -> ~ In t1 (map fst qs) -> ~ In t2 (map snd qs) ->
    nth_error (w_threads v1) t1 = Some p1 -> nth_error (w_threads v2) t2 = Some p2 ->
    alike n (w_lk v1) (w_lk v2) p1 p2 ->
    together O n w1 w2 ps os1 os2 v1 v2 ((t1, t2) :: qs)
(* ... and no longer, for instance when a client has been answered *)
| to_part os1 os2 v1 v2 qs rs t1 t2 :
    together O n w1 w2 ps os1 os2 v1 v2 (qs ++ (t1, t2) :: rs) ->
    together O n w1 w2 ps os1 os2 v1 v2 (qs ++ rs).

(** The reminders for account [n] among the actions. *)
Definition reminders_of (n : str) (acts : list action) : list action :=
  filter (fun a => match a with AEmit (OAuthCmd _ m _) => str_eqb m n | _ => false end) acts.

(** All clock readings of the step give the same time. *)
Definition steady_now (e : env) : Prop := forall j, ri1 (e_clk e j) = env_now e.
