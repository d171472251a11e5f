(** C62-C66: what the user of each sub-command gets. *)
From Verif Require Import Base BaseLemmas Time Utf8 Base64 Url Json Oracles Config Dump State Http Timers Server
  Client SpecServer SpecDump SpecRestore Reach SpecText SpecUser Basic User Scenario Runs Cases Props2 Props4 Props8.
From Coq Require Sorting.Sorted.

(** * C62 *)

Theorem C62_exactly_one_result O w e c :
  ready O w -> asked w e (client_request c) -> (forall n, names c = Some n -> utf8 n) ->
  ~ breaks_down O w (LTick 0 e) ->
  (exists lk' acts r, gives O w e c lk' acts r)
  /\ forall lk1 acts1 r1 lk2 acts2 r2, gives O w e c lk1 acts1 r1 -> gives O w e c lk2 acts2 r2 ->
       lk1 = lk2 /\ acts1 = acts2 /\ r1 = r2.
Proof.
  exact (fun RD AS U NB => conj (every_command_served O w e c (proj1 (proj2 (proj2 RD))) AS U (proj1 (proj2 RD)) (proj1 RD) (proj2 (proj2 (proj2 RD))) NB)
    (fun lk1 acts1 r1 lk2 acts2 r2 G1 G2 => gives_unique O w e c lk1 acts1 r1 lk2 acts2 r2 AS G1 G2)).
Qed.
Print Assumptions C62_exactly_one_result.

Theorem C62_show O w e nu n lk' acts r :
  ready O w -> asked w e (client_request (CShow nu n)) -> utf8 n -> gives O w e (CShow nu n) lk' acts r ->
  (succeeded r <-> usable w n (env_now e))
  /\ (forall a, holds w n (TSActive a) -> (env_now e < expiry a)%Z -> r_stdout r = access_token a ++ [nl])
  /\ (~ usable w n (env_now e) -> exists m, m <> [] /\ fails_saying r m)
  /\ ((forall ts, ~ holds w n ts) -> fails_saying r ($"No account '" ++ n ++ $"'"))
  /\ (forall ts, holds w n ts -> (forall a, ts <> TSActive a) -> exists u, awaiting w lk' n u /\ fails_saying r (told nu u))
  /\ (forall i a, In (mkEntry n i (TSActive a)) (details (w_lk w)) -> (expiry a <= env_now e)%Z ->
        ongoing a = true \/ In (ASpawnRefresh i) acts)
  /\ (holds w n TSEmpty \/ lk' = w_lk w).
Proof. exact (show_result O w e nu n lk' acts r). Qed.
Print Assumptions C62_show.

Theorem C62_refresh O w e nu n lk' acts r :
  ready O w -> asked w e (client_request (CRefresh nu n)) -> utf8 n -> gives O w e (CRefresh nu n) lk' acts r ->
  (succeeded r <-> has_token w n)
  /\ r_stdout r = []
  /\ ((forall ts, ~ holds w n ts) -> lk' = w_lk w /\ fails_saying r ($"No account '" ++ n ++ $"'"))
  /\ (forall ts, holds w n ts -> (forall a, ts <> TSActive a) -> exists u, awaiting w lk' n u /\ fails_saying r (told nu u))
  /\ (forall i a, In (mkEntry n i (TSActive a)) (details (w_lk w)) -> lk' = w_lk w /\ In (ASpawnRefresh i) acts).
Proof. exact (refresh_result O w e nu n lk' acts r). Qed.
Print Assumptions C62_refresh.

Theorem C62_revoke O w e n lk' acts r :
  ready O w -> asked w e (client_request (CRevoke n)) -> utf8 n -> gives O w e (CRevoke n) lk' acts r ->
  (succeeded r <-> exists ts, holds w n ts)
  /\ r_stdout r = []
  /\ (succeeded r -> becomes w lk' n TSEmpty)
  /\ (~ succeeded r -> lk' = w_lk w /\ fails_saying r ($"No account '" ++ n ++ $"'")).
Proof. exact (revoke_result O w e n lk' acts r). Qed.
Print Assumptions C62_revoke.

Theorem C62_reload O w e lk' acts r :
  ready O w -> asked w e (client_request CReload) -> gives O w e CReload lk' acts r ->
  (succeeded r <-> exists c, config_from_path O e = Val c)
  /\ r_stdout r = []
  /\ (forall c, config_from_path O e = Val c -> lconfig lk' = c)
  /\ (forall m, config_from_path O e = Err m -> lk' = w_lk w /\ fails_saying r m).
Proof. exact (reload_result O w e lk' acts r). Qed.
Print Assumptions C62_reload.

Theorem C62_restore O w e bytes lk' acts r :
  ready O w -> asked w e (client_request (CRestore bytes)) -> gives O w e (CRestore bytes) lk' acts r ->
  (succeeded r <-> (12 <= List.length bytes)%nat /\ exists plain, o_decrypt O (firstn 12 bytes) (skipn 12 bytes) = Some plain)
  /\ r_stdout r = []
  /\ (succeeded r -> restores_to O w e (client_request (CRestore bytes)) lk')
  /\ (~ succeeded r -> lk' = w_lk w /\ exists m, m <> [] /\ fails_saying r m).
Proof. exact (restore_result O w e bytes lk' acts r). Qed.
Print Assumptions C62_restore.

Theorem C62_status O w e lk' acts r :
  ready O w -> asked w e (client_request CStatus) -> gives O w e CStatus lk' acts r ->
  lk' = w_lk w /\ exists lines, says_all O w e lines /\ r = mkResult (join [nl] lines ++ [nl]) None.
Proof. exact (status_result O w e lk' acts r). Qed.
Print Assumptions C62_status.

Theorem C62_shutdown O w e lk' acts r :
  reachable O w -> asked w e (client_request CShutdown) -> gives O w e CShutdown lk' acts r ->
  acts = [AHalt] /\ r = mkResult [] None.
Proof. exact (shutdown_result O w e lk' acts r). Qed.
Print Assumptions C62_shutdown.

(** An account that has been authorised, one that has not. *)
Definition w_half : world := w_said.
Definition asking (c : client_cmd) (t : Z) : env := client (client_request c) (tick (sec t)).

Lemma half_ready : ready toy w_half.
Proof.
  destruct C61_case as (TL & R & PO & _). split; [exact TL|]. split; [exact toy_laws|]. split; [exact R|exact PO].
Qed.

(** The state and the actions that a request leads to, read off. *)
Definition left_lk (w : world) (e : env) : locked := w_lk (after w [LTick 0 e]).
Definition left_acts (w : world) (e : env) : list action :=
  match nth_error (w_threads (after w [LTick 0 e])) 0 with Some p => will_do p | None => [] end.
Definition result (w : world) (e : env) (c : client_cmd) : client_result :=
  client_run c (Replied (flat_map written (left_acts w e))).

Lemma reads_off w e c r :
  match step toy w (LTick 0 e) with
  | SNext w' => w' = emit (set_thread (set_lk w (left_lk w e)) 0 (do_all (left_acts w e) PMain))
                       (skipn (List.length (w_trace w)) (w_trace w'))
                /\ hd_error (skipn (List.length (w_trace w)) (w_trace w')) = Some (OClient (client_request c))
  | _ => False
  end ->
  Forall (fun a => match a with AEmit (OReply q _) => q = client_request c | _ => True end) (left_acts w e) ->
  r = result w e c -> gives toy w e c (left_lk w e) (left_acts w e) r.
Proof.
  intros S F ->. split; [|split; [|reflexivity]].
  - destruct (step toy w (LTick 0 e)) as [| |w']; try contradiction. destruct S as [S1 S2].
    destruct (skipn (List.length (w_trace w)) (w_trace w')) as [|o os]; [discriminate S2|]. injection S2 as ->.
    exists os. rewrite S1. reflexivity.
  - intros q s I. rewrite Forall_forall in F. exact (F _ I).
Qed.

Ltac served := apply reads_off; [vm_compute; split; reflexivity|vm_compute; repeat constructor|vm_compute; reflexivity].

Example C62_case :
  ready toy w_half
  /\ (let e := asking (CShow false $"a") 1100 in
      gives toy w_half e (CShow false $"a") (left_lk w_half e) (left_acts w_half e) (result w_half e (CShow false $"a"))
      /\ usable w_half $"a" (env_now e) /\ result w_half e (CShow false $"a") = mkResult ($"tok" ++ [nl]) None)
  /\ (let e := asking (CShow false $"b") 1100 in
      gives toy w_half e (CShow false $"b") (left_lk w_half e) (left_acts w_half e) (result w_half e (CShow false $"b"))
      /\ holds w_half $"b" TSEmpty /\ r_error (result w_half e (CShow false $"b")) <> None)
  /\ (let e := asking (CShow true $"c") 1100 in
      gives toy w_half e (CShow true $"c") (left_lk w_half e) (left_acts w_half e) (fail_with $"No account 'c'"))
  /\ (let e := asking (CRefresh true $"a") 1100 in
      gives toy w_half e (CRefresh true $"a") (left_lk w_half e) (left_acts w_half e) (ok_with [])
      /\ has_token w_half $"a")
  /\ (let e := asking (CRevoke $"a") 1100 in
      gives toy w_half e (CRevoke $"a") (left_lk w_half e) (left_acts w_half e) (ok_with []))
  /\ (let e := file conf2 (asking CReload 1100) in
      gives toy w_half e CReload (left_lk w_half e) (left_acts w_half e) (ok_with []))
  /\ (let e := asking (CRestore $"short") 1100 in
      gives toy w_half e (CRestore $"short") (left_lk w_half e) (left_acts w_half e) (fail_with $"Input too short"))
  /\ (let e := asking CStatus 1100 in
      gives toy w_half e CStatus (left_lk w_half e) (left_acts w_half e) (result w_half e CStatus)
      /\ ~ breaks_down toy w_half (LTick 0 e))
  /\ (let e := asking CShutdown 1100 in
      gives toy w_half e CShutdown (left_lk w_half e) [AHalt] (ok_with [])).
Proof.
  split; [exact half_ready|]. cbv zeta.
  split. { split; [served|]. split; [|vm_compute; reflexivity].
           eexists. split; [eexists; split; [vm_compute; left; reflexivity|]; split; vm_compute; reflexivity|vm_compute; reflexivity]. }
  split. { split; [served|]. split; [|vm_compute; discriminate].
           eexists. split; [vm_compute; right; left; reflexivity|]. split; vm_compute; reflexivity. }
  split; [served|].
  split. { split; [served|]. do 2 eexists. split; [vm_compute; left; reflexivity|]. split; vm_compute; reflexivity. }
  split; [served|]. split; [served|]. split; [served|].
  split. { split; [served|]. apply answered_not_broken; [exact (proj1 (proj2 (proj2 half_ready)))|]. vm_compute. discriminate. }
  exact (reads_off w_half (asking CShutdown 1100) CShutdown (ok_with []) ltac:(vm_compute; split; reflexivity)
           ltac:(vm_compute; repeat constructor) ltac:(vm_compute; reflexivity)).
Qed.

Theorem C62_without_server c :
  fails_saying (client_run c Refused) $"pizauth authenticator not running or not responding"
  /\ ~ succeeded (client_run c Refused).
Proof. exact (finish_refused c). Qed.
Print Assumptions C62_without_server.

(** * C63 *)

(** Missing for the full property: an expired token that came without refresh
    token; see below. *)
Theorem C63_without_token_partial O w e nu n ts c lk' acts r :
  ready O w -> asked w e (client_request c) -> utf8 n -> c = CShow nu n \/ c = CRefresh nu n ->
  gives O w e c lk' acts r -> holds w n ts -> (forall a, ts <> TSActive a) ->
  exists u, awaiting w lk' n u /\ fails_saying r (told nu u).
Proof. exact (sent_to_provider O w e nu n ts c lk' acts r). Qed.
Print Assumptions C63_without_token_partial.

Example C63_case :
  ready toy w_half /\ asked w_half (asking (CShow false $"b") 1100) (client_request (CShow false $"b")) /\ utf8 $"b"
  /\ (exists lk' acts r, gives toy w_half (asking (CShow false $"b") 1100) (CShow false $"b") lk' acts r)
  /\ holds w_half $"b" TSEmpty.
Proof.
  split; [exact half_ready|]. split; [unfold asked; compute_all|]. split; [reflexivity|].
  split; [do 3 eexists; served|]. eexists. split; [vm_compute; right; left; reflexivity|]. split; vm_compute; reflexivity.
Qed.

(** Account "a" has a token without refresh token. *)
Definition w_plain : world := after (start conf1) (authorise $"Ttok").

Lemma plain_ready : ready toy w_plain.
Proof.
  split; [exact toy_text_laws|]. split; [exact toy_laws|]. split; [unfold w_plain; reach_after|].
  intros uri ps r I. vm_compute in I. repeat (destruct I as [I|I]; [try discriminate I|]); [|destruct I].
  injection I as _ _ <-. vm_compute. reflexivity.
Qed.

(** The token has expired: [show] promises a refresh that cannot be, and no
    authorisation is begun. *)
Theorem C63_show_refuted :
  exists O w e n lk' acts r,
    ready O w /\ asked w e (client_request (CShow false n)) /\ gives O w e (CShow false n) lk' acts r
    /\ needs_authorising w n (env_now e)
    /\ fails_saying r $"Access token has expired. Refreshing initiated"
    /\ (forall u, ~ awaiting w lk' n u) /\ (forall m u, ~ In (OAuthUrl m u) (skipn (List.length (w_trace w)) (w_trace (after w [LTick 0 e])))).
Proof.
  exists toy, w_plain, (asking (CShow false $"a") 5000), $"a". do 3 eexists.
  split; [exact plain_ready|]. split; [unfold asked; compute_all|]. split; [served|].
  split. { eexists. split; [eexists; split; [vm_compute; left; reflexivity|]; split; vm_compute; reflexivity|].
           vm_compute. split; [discriminate|reflexivity]. }
  split; [split; vm_compute; reflexivity|].
  split. { intros u (cvr & ln & st & e0 & I & _ & T). vm_compute in I. destruct I as [<-|[<-|[]]]; discriminate T. }
  intros m u I. vm_compute in I. repeat (destruct I as [I|I]; [discriminate I|]). destruct I.
Qed.
Print Assumptions C63_show_refuted.

(** ... and [refresh] claims success. *)
Theorem C63_refresh_refuted :
  exists O w e n lk' acts r,
    ready O w /\ asked w e (client_request (CRefresh false n)) /\ gives O w e (CRefresh false n) lk' acts r
    /\ needs_authorising w n (env_now e) /\ succeeded r /\ (forall u, ~ awaiting w lk' n u).
Proof.
  exists toy, w_plain, (asking (CRefresh false $"a") 5000), $"a". do 3 eexists.
  split; [exact plain_ready|]. split; [unfold asked; compute_all|]. split; [served|].
  split. { eexists. split; [eexists; split; [vm_compute; left; reflexivity|]; split; vm_compute; reflexivity|].
           vm_compute. split; [discriminate|reflexivity]. }
  split; [vm_compute; reflexivity|].
  intros u (cvr & ln & st & e0 & I & _ & T). vm_compute in I. destruct I as [<-|[<-|[]]]; discriminate T.
Qed.
Print Assumptions C63_refresh_refuted.

(** * C64 *)

(** Missing for the full property: tokens without refresh token; see below. *)
Theorem C64_refreshable_tokens_partial O w tid e w' n a :
  reachable O w -> step O w (LTick tid e) = SNext w' -> tid <> 0 -> holds w n (TSActive a) ->
  refresh_token a <> None -> (forall a', ~ holds w' n (TSActive a')) ->
  exists rt r, refresh_token a = Some rt /\ refreshed_with (w_trace w) rt r.
Proof. exact (lost_means_asked O w tid e w' n a). Qed.
Print Assumptions C64_refreshable_tokens_partial.

Example C64_case :
  exists n a w w',
    let e := Scenario.posted (PRStatus 400 (Some $"no")) (tick (sec 1022)) in
    reachable toy w /\ step toy w (LTick 5 e) = SNext w' /\ holds w n (TSActive a) /\ refresh_token a <> None
    /\ (forall a', ~ holds w' n (TSActive a'))
    /\ exists rt r, refresh_token a = Some rt /\ refreshed_with (w_trace w) rt r.
Proof.
  destruct C22_case as (n & a & w & w' & H). cbv zeta in H. destruct H as (_ & _ & R & S & H1 & H2 & H3).
  exists n, a, w, w'. cbv zeta. split; [exact R|]. split; [exact S|]. split; [exact H1|]. split; [exact H2|].
  split; [exact H3|]. eapply C64_refreshable_tokens_partial; try eassumption. discriminate.
Qed.

(** The user asks for a token to be refreshed that is good for almost an hour; at
    the same moment it is gone, and nobody has been asked. *)
Theorem C64_refresh_discards_refuted :
  exists O w e n lk' acts r ls w',
    ready O w /\ asked w e (client_request (CRefresh false n)) /\ gives O w e (CRefresh false n) lk' acts r
    /\ usable w n (env_now e) /\ succeeded r
    /\ run O w (LTick 0 e :: ls) = Some (SNext w') /\ Forall (fun l => exists tid, l = LTick tid (tick (env_now e))) ls
    /\ (forall a, ~ holds w' n (TSActive a))
    /\ skipn (List.length (w_trace w)) (w_trace w') = [OClient (client_request (CRefresh false n)); OReply (client_request (CRefresh false n)) $"scheduled:"]
    /\ w_evq w' = w_evq w.
Proof.
  exists toy, w_plain, (asking (CRefresh false $"a") 1010), $"a". do 3 eexists.
  exists (many 2 0 (tick (sec 1010)) ++ [LTick 5 (tick (sec 1010))]). eexists.
  split; [exact plain_ready|]. split; [unfold asked; compute_all|]. split; [served|].
  split. { eexists. split; [eexists; split; [vm_compute; left; reflexivity|]; split; vm_compute; reflexivity|vm_compute; reflexivity]. }
  split; [vm_compute; reflexivity|]. split; [vm_compute; reflexivity|].
  split; [repeat constructor; eexists; reflexivity|].
  split. { intros a (e0 & I & _ & T). vm_compute in I. destruct I as [<-|[<-|[]]]; discriminate T. }
  split; vm_compute; reflexivity.
Qed.
Print Assumptions C64_refresh_discards_refuted.

(** * C65 *)

(** Missing for the full property: an empty output; see below. *)
Theorem C65_dumps_restore_partial O w e lk' acts r :
  text_laws O -> utf8_posts (w_trace w) -> fits w -> cipher_law O -> List.length (e_nonce e) = 12%nat -> wall_ok e ->
  reachable O w -> asked w e (client_request CDump) -> gives O w e CDump lk' acts r -> r_stdout r <> [] ->
  (exists d, carries O (r_stdout r) d)
  /\ forall w2 e2 lk2 acts2 r2, ready O w2 -> asked w2 e2 (client_request (CRestore (r_stdout r))) ->
       gives O w2 e2 (CRestore (r_stdout r)) lk2 acts2 r2 -> succeeded r2.
Proof. exact (dump_output O w e lk' acts r). Qed.
Print Assumptions C65_dumps_restore_partial.

Theorem C65_dump_changes_nothing O w e lk' acts r :
  reachable O w -> asked w e (client_request CDump) -> gives O w e CDump lk' acts r ->
  lk' = w_lk w /\ succeeded r /\ (r_stdout r <> [] -> just_answers O w e $"dump:" (r_stdout r)).
Proof. exact (dump_result O w e lk' acts r). Qed.
Print Assumptions C65_dump_changes_nothing.

Example C65_case :
  text_laws toy /\ utf8_posts (w_trace w_auth) /\ fits w_auth /\ cipher_law toy
  /\ List.length (e_nonce (asking CDump 1100)) = 12%nat /\ wall_ok (asking CDump 1100)
  /\ reachable toy w_auth /\ asked w_auth (asking CDump 1100) (client_request CDump)
  /\ (exists lk' acts r, gives toy w_auth (asking CDump 1100) CDump lk' acts r /\ r_stdout r <> []).
Proof.
  split; [exact toy_text_laws|]. split; [exact (proj1 (proj2 C33_strings_case))|]. split; [exact (proj2 (proj2 C33_strings_case))|].
  split; [intros n p c H; injection H as ->; reflexivity|]. split; [reflexivity|]. split; [intros k; split; vm_compute; discriminate|].
  split; [apply w_auth_reachable|]. split; [unfold asked; compute_all|]. do 3 eexists. split; [served|]. vm_compute. discriminate.
Qed.

(** The clock stands before 1970, as on a machine without battery. *)
Definition early : env :=
  mkEnv (fun _ => mkReads (sec 1100) (sec 1100) (- sec 1100)%Z (- sec 1100)%Z) $"statebytes" $"verifier bytes" $"noncenonceno"
    (Some $"dump:") None (fun _ => 0%N) (fun n => n) (PRTransport TrOther []) true false.

Theorem C65_failed_dump_refuted :
  exists O w e lk' acts r w2 e2 lk2 acts2 r2,
    reachable O w /\ asked w e (client_request CDump) /\ gives O w e CDump lk' acts r
    /\ has_token w $"a" /\ succeeded r /\ r_stdout r = []
    /\ ready O w2 /\ asked w2 e2 (client_request (CRestore (r_stdout r)))
    /\ gives O w2 e2 (CRestore (r_stdout r)) lk2 acts2 r2 /\ ~ succeeded r2.
Proof.
  exists toy, w_auth, early. do 2 eexists. exists (ok_with []). exists w_half, (asking (CRestore []) 1100). do 3 eexists.
  split; [apply w_auth_reachable|]. split; [unfold asked; compute_all|]. split; [served|].
  split. { do 2 eexists. split; [vm_compute; left; reflexivity|]. split; vm_compute; reflexivity. }
  split; [reflexivity|]. split; [reflexivity|]. split; [exact half_ready|]. split; [unfold asked; compute_all|].
  split; [served|]. vm_compute. discriminate.
Qed.
Print Assumptions C65_failed_dump_refuted.

(** * C66 *)

Theorem C66_running O w e a :
  json_law O -> reachable O w -> asked w e (client_request CInfo) ->
  exists txt h s,
    just_answers O w e (client_request CInfo) txt
    /\ port_shown (w_http w) h /\ port_shown (w_https w) s
    /\ info_text O a (Replied txt)
       = Val (lines (about (ia_prog a) (ia_version a) (ia_cache a) (ia_config a)
              ++ [$"server running:"; $"  HTTP port: " ++ h; $"  HTTPS port: " ++ s]
              ++ match w_pubkey w with Some k => [$"  HTTPS public key: " ++ k] | None => [] end))
    /\ exists v, json_get $"server_running" (info_json O a (Replied txt)) = Some (JBool true)
                 /\ json_get $"server_info" (info_json O a (Replied txt)) = Some v
                 /\ json_str $"http_port" v = Some h /\ json_str $"https_port" v = Some s
                 /\ json_str $"https_pub_key" v = w_pubkey w.
Proof. exact (info_shows O w e a). Qed.
Print Assumptions C66_running.

Theorem C66_not_running O a :
  info_text O a Refused = Val (lines (about (ia_prog a) (ia_version a) (ia_cache a) (ia_config a) ++ [$"server not running"]))
  /\ json_get $"server_running" (info_json O a Refused) = Some (JBool false)
  /\ json_get $"server_info" (info_json O a Refused) = None.
Proof. exact (info_alone O a Refused eq_refl). Qed.
Print Assumptions C66_not_running.

(** Whether or not a server runs. *)
Theorem C66_itself O a v :
  let j := info_json O a v in
  json_get $"executed_as" j = Some (JStr (ia_prog a)) /\ json_get $"pizauth_version" j = Some (JStr (ia_version a))
  /\ json_get $"cache_directory" j = Some (JStr (ia_cache a)) /\ json_get $"config_file" j = Some (JStr (ia_config a))
  /\ json_get $"info_format_version" j = Some (JNum 2).
Proof. exact (info_itself O a v). Qed.
Print Assumptions C66_itself.

(** A reader of objects of plain strings. *)
Fixpoint split_all (c : ascii) (s : str) : list str :=
  match s with
  | [] => [[]]
  | x :: s' =>
      match split_all c s' with
      | p :: ps => if Ascii.eqb x c then [] :: p :: ps else (x :: p) :: ps
      | [] => []
      end
  end.
Fixpoint toy_members (ps : list str) : list (str * json) :=
  match ps with
  | k :: _ :: v :: _ :: rest => (k, JStr v) :: toy_members rest
  | _ => []
  end.
Definition toy_object (s : str) : json + str :=
  match s with
  | c :: t => if Ascii.eqb c "{"%char then inl (JObj (toy_members (tl (split_all dquote t)))) else inr $"not JSON"
  | [] => inr $"not JSON"
  end.
Definition toy_objects : oracles :=
  mkOracles toy_url (fun s => s) (fun n p => Some p) (fun n c => Some c) toy_object toy_date.

Lemma split_plain p s : plain p -> split_all dquote (p ++ dquote :: s) = p :: split_all dquote s.
Proof.
  intros P. assert (exists q qs, split_all dquote s = q :: qs) as (q & qs & E).
  { clear. induction s as [|x s (q & qs & E)]; [do 2 eexists; reflexivity|]. cbn [split_all]. rewrite E.
    destruct (Ascii.eqb x dquote); do 2 eexists; reflexivity. }
  induction p as [|x p IH].
  - cbn [app split_all]. rewrite E. rewrite Ascii.eqb_refl. reflexivity.
  - unfold plain in P. cbn [forallb] in P. apply andb_true_iff in P as [PX P]. specialize (IH P).
    cbn [app split_all]. rewrite IH. assert (Ascii.eqb x dquote = false) as ->; [|reflexivity].
    unfold plain_char in PX. apply andb_true_iff in PX as [PX _]. apply andb_true_iff in PX as [_ PX].
    apply negb_true_iff in PX. exact PX.
Qed.

Lemma split_one (x : ascii) s : Ascii.eqb x dquote = false ->
  split_all dquote (x :: dquote :: s) = [x] :: split_all dquote s.
Proof.
  intros N. cbn [split_all]. destruct (split_all dquote s) as [|q qs] eqn:E.
  - exfalso. clear N. revert E. induction s as [|y s IH]; cbn [split_all]; [discriminate|].
    destruct (split_all dquote s) as [|q qs]; [intros _; apply IH; reflexivity|]. destruct (Ascii.eqb y dquote); discriminate.
  - rewrite Ascii.eqb_refl, N. reflexivity.
Qed.

Lemma toy_json_law : json_law toy_objects.
Proof.
  intros m F. unfold object_text. cbn [toy_objects o_json].
  assert (forall m, Forall (fun kv : str * str => plain (fst kv) /\ plain (snd kv)) m ->
    toy_members (tl (split_all dquote (join $"," (map (fun kv => in_quotes (fst kv) ++ $":" ++ in_quotes (snd kv)) m) ++ $"}")))
    = map (fun kv => (fst kv, JStr (snd kv))) m) as K.
  { clear. induction m as [|[k v] m IH]; intros F; [reflexivity|]. inversion F as [|? ? [PK PV] F']. subst. cbn [fst snd] in *. specialize (IH F').
    assert (forall rest, split_all dquote ((in_quotes k ++ $":" ++ in_quotes v) ++ rest) = [] :: k :: $":" :: v :: split_all dquote rest) as S.
    { intros rest. unfold in_quotes. repeat rewrite <- app_assoc. cbn [app].
      etransitivity; [exact (split_plain [] _ eq_refl)|]. f_equal. rewrite <- ?app_assoc; cbn [app]. rewrite (split_plain k _ PK). f_equal.
      rewrite <- ?app_assoc; cbn [app]. rewrite <- ?app_assoc; cbn [app].
      etransitivity; [exact (split_one ":"%char (v ++ dquote :: rest) eq_refl)|]. f_equal. exact (split_plain v rest PV). }
    cbn [map fst snd]. destruct m as [|kv m].
    - cbn [map join]. rewrite S. reflexivity.
    - cbn [map join] in IH |- *. rewrite <- app_assoc. rewrite S. cbn [tl toy_members]. f_equal.
      rewrite <- app_assoc.
      match goal with |- context [split_all dquote ($"," ++ ?r)] => remember r as rr end. clear - IH.
      assert (exists q qs, split_all dquote rr = q :: qs) as (q & qs & E).
      { clear. induction rr as [|x s (q & qs & E)]; [do 2 eexists; reflexivity|]. cbn [split_all]. rewrite E.
        destruct (Ascii.eqb x dquote); do 2 eexists; reflexivity. }
      rewrite E in IH. change ($",") with [","%char]. cbn [app split_all]. rewrite E. cbn [tl] in IH. change (Ascii.eqb "," dquote) with false. cbv iota. f_equal. exact IH. }
  change ($"{") with ["{"%char]. cbn [toy_object app]. rewrite Ascii.eqb_refl. f_equal. f_equal. apply K, F.
Qed.

Example C66_case :
  json_law toy_objects /\ reachable toy_objects (start conf1)
  /\ asked (start conf1) (asking CInfo 1000) (client_request CInfo).
Proof.
  split; [exact toy_json_law|]. split; [|unfold asked; compute_all].
  unfold start. apply (reach_init toy_objects (env_file conf1)). vm_compute. reflexivity.
Qed.
