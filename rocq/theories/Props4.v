(** C33-C41: dumps, restores, and the command line client. *)
From Verif Require Import Base BaseLemmas Time Utf8 Base64 Url UrlLemmas Json Oracles Config Dump State Http Timers Server Client
  SpecServer SpecDump Codec Reach Own Trace Basic Dialog Decide SpecRestore DumpLemmas ClientLemmas Scenario Runs Cases.

(** * C33 *)

Theorem C33_dump_then_restore O w1 e1 txt w2 e2 :
  cipher_law O -> List.length (e_nonce e1) = 12%nat -> texts w1 -> wall_ok e1 ->
  reachable O w1 -> asked w1 e1 $"dump:" -> just_answers O w1 e1 $"dump:" txt ->
  reachable O w2 -> asked w2 e2 ($"restore:" ++ txt) ->
  exists lk',
    restores_to O w2 e2 ($"restore:" ++ txt) lk'
    /\ lconfig lk' = lconfig (w_lk w2)
    /\ (forall n a act1 act2,
          holds w1 n (TSActive a) -> configured w1 n act1 -> configured w2 n act2 -> same_security act1 act2 ->
          ~ has_token w2 n -> exists b, holds (set_lk w2 lk') n (TSActive b) /\ same_token a b)
    /\ (forall e0, In e0 (details (w_lk w2)) ->
          has_token w2 (d_name e0) \/ ~ has_token w1 (d_name e0)
          \/ (forall act1 act2, configured w1 (d_name e0) act1 -> configured w2 (d_name e0) act2 -> ~ same_security act1 act2) ->
          In e0 (details lk')).
Proof. exact (dump_then_restore O w1 e1 txt w2 e2). Qed.
Print Assumptions C33_dump_then_restore.

(** A dump is answered, unless a token's times lie before 1970. *)
Theorem C33_dump_answered O w e m off eps :
  reachable O w -> asked w e $"dump:" ->
  (forall n p, exists c, o_encrypt O n p = Some c) ->
  readings e m off eps -> (0 <= eps)%Z ->
  (forall n a, holds w n (TSActive a) ->
     eps <= obtained a + off <= time_max - eps /\ eps <= expiry a + off <= time_max - eps)%Z ->
  exists txt, just_answers O w e $"dump:" txt.
Proof. exact (dump_answered_in_time O w e m off eps). Qed.
Print Assumptions C33_dump_answered.

Definition dump_env : env := client $"dump:" (tick (sec 1100)).
Definition dump_text : str :=
  match auth_dump toy (w_lk w_auth) (e_clk dump_env) (e_hash dump_env) (e_nonce dump_env) with Val t => t | _ => [] end.
Definition restore_env (bytes : str) : env := client ($"restore:" ++ bytes) (tick (sec 1200)).

Example w_auth_texts : texts w_auth.
Proof.
  constructor.
  - vm_compute. reflexivity.
  - intros n ts (e0 & I & <- & _). vm_compute in I.
    destruct I as [<-|[<-|[]]]; (split; vm_compute; reflexivity).
  - intros n act C. unfold configured in C. apply lookup_in in C. vm_compute in C.
    assert (text $"" /\ opt_all text (Some $"secret") /\ text $"s1" /\ text $"s2") as (_ & OS & S1 & S2).
    { split; [split; vm_compute; reflexivity|]. split; [intros x [= <-]; split; vm_compute; reflexivity|].
      split; split; vm_compute; reflexivity. }
    destruct C as [C|[C|[]]]; injection C as _ <-; cbn [a_auth_uri a_auth_uri_fields a_client_id a_client_secret
      a_redirect_uri a_scopes a_token_uri];
      (split; [split; vm_compute; reflexivity|]); (split; [constructor|]); (split; [vm_compute; reflexivity|]);
      (split; [split; vm_compute; reflexivity|]); (split; [exact OS|]); (split; [split; vm_compute; reflexivity|]);
      (split; [constructor; [exact S1|constructor; [exact S2|constructor]]|]); (split; [vm_compute; reflexivity|]);
      split; vm_compute; reflexivity.
  - intros n a (e0 & I & <- & T). vm_compute in I. destruct I as [<-|[<-|[]]]; cbn [d_ts] in T; [|discriminate T].
    injection T as <-. split; [split; vm_compute; reflexivity|]. intros x [= <-]. split; vm_compute; reflexivity.
Qed.

(** Account "a" has a token, "b" has none; the dump goes into a server that has
    just been started. *)
Example C33_case :
  cipher_law toy /\ List.length (e_nonce dump_env) = 12%nat /\ texts w_auth /\ wall_ok dump_env
  /\ reachable toy w_auth /\ asked w_auth dump_env $"dump:" /\ just_answers toy w_auth dump_env $"dump:" dump_text
  /\ reachable toy (start conf1) /\ asked (start conf1) (restore_env dump_text) ($"restore:" ++ dump_text)
  /\ has_token w_auth $"a" /\ ~ has_token w_auth $"b" /\ ~ has_token (start conf1) $"a"
  /\ (exists act1 act2, configured w_auth $"a" act1 /\ configured (start conf1) $"a" act2 /\ same_security act1 act2)
  /\ readings dump_env (sec 1100) 0 0
  /\ (forall n a, holds w_auth n (TSActive a) ->
        0 <= obtained a + 0 <= time_max - 0 /\ 0 <= expiry a + 0 <= time_max - 0)%Z.
Proof.
  split; [intros n p c H; injection H as ->; reflexivity|]. split; [vm_compute; reflexivity|].
  split; [exact w_auth_texts|]. split; [intros k; split; vm_compute; discriminate|].
  split; [apply w_auth_reachable|]. split; [unfold asked; compute_all|].
  split. { apply (asked_dump toy w_auth dump_env); [apply w_auth_reachable|unfold asked; compute_all|vm_compute; reflexivity]. }
  split; [reach_start|]. split; [unfold asked; compute_all|].
  split; [do 2 eexists; split; [vm_compute; left; reflexivity|]; split; vm_compute; reflexivity|].
  split. { intros (a & e0 & I & N & T). vm_compute in I. destruct I as [<-|[<-|[]]]; [discriminate N|discriminate T]. }
  split. { intros (a & e0 & I & N & T). vm_compute in I. destruct I as [<-|[<-|[]]]; discriminate T. }
  split; [do 2 eexists; split; [vm_compute; reflexivity|]; split; [vm_compute; reflexivity|]; unfold same_security; compute_all|].
  split; [intros k; vm_compute; repeat split; discriminate|].
  intros n a (e0 & I & N & T). vm_compute in I. destruct I as [<-|[<-|[]]]; [|discriminate T].
  cbn [d_ts] in T. injection T as <-. cbn [obtained expiry]. vm_compute. repeat split; discriminate.
Qed.

(** * C34 *)

Theorem C34_restore_only_upgrades O w e bytes :
  reachable O w -> asked w e ($"restore:" ++ bytes) ->
  (exists m, just_answers O w e ($"restore:" ++ bytes) ($"error:" ++ m))
  \/ exists lk',
    restores_to O w e ($"restore:" ++ bytes) lk'
    /\ lconfig lk' = lconfig (w_lk w)
    /\ map d_name (details lk') = map d_name (details (w_lk w))
    /\ forall e0, In e0 (details (w_lk w)) ->
       In e0 (details lk')
       \/ ~ has_token w (d_name e0)
          /\ exists d act b i,
               carries O bytes d /\ configured w (d_name e0) act /\ offers d (d_name e0) act b
               /\ ongoing b = false
               /\ In (mkEntry (d_name e0) i (TSActive b)) (details lk').
Proof. exact (restore_upgrades O w e bytes). Qed.
Print Assumptions C34_restore_only_upgrades.

Theorem C34_restore_twice O w e bytes lk' w3 e3 :
  reachable O w -> asked w e ($"restore:" ++ bytes) -> restores_to O w e ($"restore:" ++ bytes) lk' ->
  reachable O w3 -> asked w3 e3 ($"restore:" ++ bytes) -> w_lk w3 = lk' ->
  restores_to O w3 e3 ($"restore:" ++ bytes) lk'.
Proof. exact (restore_idempotent O w e bytes lk' w3 e3). Qed.
Print Assumptions C34_restore_twice.

(** The dump above restored, then restored again a little later. *)
Definition w_restored : world :=
  after (start conf1) (main (restore_env dump_text) :: many 3 0 (tick (sec 1200))).

Example C34_case :
  reachable toy (start conf1) /\ asked (start conf1) (restore_env dump_text) ($"restore:" ++ dump_text)
  /\ restores_to toy (start conf1) (restore_env dump_text) ($"restore:" ++ dump_text) (w_lk w_restored)
  /\ w_lk w_restored <> w_lk (start conf1)
  /\ reachable toy w_restored
  /\ asked w_restored (client ($"restore:" ++ dump_text) (tick (sec 1250))) ($"restore:" ++ dump_text).
Proof.
  split; [reach_start|]. split; [unfold asked; compute_all|]. split; [vm_compute; reflexivity|].
  split; [vm_compute; discriminate|]. split; [unfold w_restored; reach_after|]. unfold asked; compute_all.
Qed.

(** * C35 *)

Theorem C35_unauthentic_dumps_rejected_partial O w e bytes :
  reachable O w -> asked w e ($"restore:" ++ bytes) ->
  (List.length bytes < 12)%nat \/ o_decrypt O (firstn 12 bytes) (skipn 12 bytes) = None ->
  exists m, just_answers O w e ($"restore:" ++ bytes) ($"error:" ++ m).
Proof. exact (restore_unauthentic O w e bytes). Qed.
Print Assumptions C35_unauthentic_dumps_rejected_partial.

(** Authentic but undecodable dumps change nothing either, but the answer is ok. *)
Theorem C35_unreadable_dumps_change_nothing_partial O w e bytes plain :
  reachable O w -> asked w e ($"restore:" ++ bytes) ->
  (12 <= List.length bytes)%nat -> o_decrypt O (firstn 12 bytes) (skipn 12 bytes) = Some plain ->
  (forall d, deserialize plain = Some d -> d_version d <> dump_version) ->
  restores_to O w e ($"restore:" ++ bytes) (w_lk w).
Proof. exact (restore_unreadable O w e bytes plain). Qed.
Print Assumptions C35_unreadable_dumps_change_nothing_partial.

Definition garbage : str := $"noncenoncenogarbage".
(** A dump of version 2. *)
Definition newer : str := $"noncenonceno" ++ le_bytes 8 2 ++ le_bytes 8 0.

Example C35_case :
  reachable toy (start conf1)
  /\ asked (start conf1) (restore_env $"short") ($"restore:" ++ $"short") /\ (List.length $"short" < 12)%nat
  /\ asked (start conf1) (restore_env garbage) ($"restore:" ++ garbage) /\ (12 <= List.length garbage)%nat
  /\ o_decrypt toy (firstn 12 garbage) (skipn 12 garbage) = Some $"garbage" /\ deserialize $"garbage" = None
  /\ exists d, deserialize (skipn 12 newer) = Some d /\ d_version d <> dump_version.
Proof.
  split; [reach_start|]. split; [unfold asked; compute_all|]. split; [vm_compute; lia|].
  split; [unfold asked; compute_all|]. split; [vm_compute; lia|]. split; [vm_compute; reflexivity|].
  split; [vm_compute; reflexivity|]. eexists. split; [vm_compute; reflexivity|]. vm_compute. discriminate.
Qed.

(** The input cannot be decoded, and yet the answer is ok. *)
Theorem C35_unreadable_dumps_rejected_refuted :
  exists O w e bytes w',
    reachable O w /\ asked w e ($"restore:" ++ bytes)
    /\ (forall n plain, o_decrypt O n (skipn 12 bytes) = Some plain -> deserialize plain = None)
    /\ run O w [LTick 0 e; LTick 0 e; LTick 0 e; LTick 0 e] = Some (SNext w')
    /\ In (OReply ($"restore:" ++ bytes) $"ok:") (w_trace w')
    /\ Client.client_finish (CRestore bytes) $"ok:" = ok_with [].
Proof.
  exists toy, (start conf1), (restore_env garbage), garbage,
    (after (start conf1) (many 4 0 (restore_env garbage))).
  split; [reach_start|]. split; [unfold asked; compute_all|].
  split; [intros n plain H; injection H as <-; vm_compute; reflexivity|].
  split; [apply after_run; vm_compute; reflexivity|]. split; [vm_compute; tauto|]. vm_compute. reflexivity.
Qed.
Print Assumptions C35_unreadable_dumps_rejected_refuted.

(** * C36 *)

Theorem C36_restored_times O w1 e1 m1 off1 eps1 txt w2 e2 m2 off2 eps2 lk' n a b act1 act2 :
  cipher_law O -> List.length (e_nonce e1) = 12%nat -> texts w1 -> wall_ok e1 ->
  reachable O w1 -> asked w1 e1 $"dump:" -> just_answers O w1 e1 $"dump:" txt ->
  reachable O w2 -> asked w2 e2 ($"restore:" ++ txt) -> restores_to O w2 e2 ($"restore:" ++ txt) lk' ->
  holds w1 n (TSActive a) -> configured w1 n act1 -> configured w2 n act2 -> same_security act1 act2 ->
  ~ has_token w2 n -> holds (set_lk w2 lk') n (TSActive b) ->
  readings e1 m1 off1 eps1 -> readings e2 m2 off2 eps2 -> (0 <= eps1)%Z -> (0 <= eps2)%Z ->
  (representable off1 off2 (eps1 + eps2) (expiry a) ->
   near (expiry b + off2) (expiry a + off1) (eps1 + eps2))
  /\ (representable off1 off2 (eps1 + eps2) (obtained a) ->
      near (obtained b + off2) (obtained a + off1) (eps1 + eps2)).
Proof. exact (restored_times O w1 e1 m1 off1 eps1 txt w2 e2 m2 off2 eps2 lk' n a b act1 act2). Qed.
Print Assumptions C36_restored_times.

(** The second server's monotonic clock runs 150 s ahead of the wall clock, the
    first one's agrees with it: same expiry by the wall clock. *)
Definition skewed_env : env :=
  mkEnv (fun _ => mkReads (sec 1350) (sec 1350) (sec 1200) (sec 1200)) [] [] [] (Some ($"restore:" ++ dump_text)) None
    (fun _ => 0%N) (fun n => n) (PRTransport TrOther []) true false.
Definition w_skewed : world := after (start conf1) [main skewed_env].

Example C36_case :
  readings dump_env (sec 1100) 0 0 /\ readings skewed_env (sec 1350) (sec (-150)) 0
  /\ asked (start conf1) skewed_env ($"restore:" ++ dump_text)
  /\ restores_to toy (start conf1) skewed_env ($"restore:" ++ dump_text) (w_lk w_skewed)
  /\ exists a b, holds w_auth $"a" (TSActive a)
       /\ holds (set_lk (start conf1) (w_lk w_skewed)) $"a" (TSActive b)
       /\ representable 0 (sec (-150)) 0 (expiry a) /\ (expiry b = expiry a + sec 150)%Z.
Proof.
  split; [intros k; vm_compute; repeat split; discriminate|].
  split; [intros k; vm_compute; repeat split; discriminate|].
  split; [unfold asked; compute_all|]. split; [vm_compute; reflexivity|].
  do 2 eexists. split; [eexists; split; [vm_compute; left; reflexivity|]; split; vm_compute; reflexivity|].
  split; [eexists; split; [vm_compute; left; reflexivity|]; split; vm_compute; reflexivity|].
  split; [vm_compute; repeat split; discriminate|vm_compute; reflexivity].
Qed.

(** * C37 *)

Theorem C37_codec_faithful d b :
  dump_ok d -> serialize d = Val b -> forall junk, deserialize (b ++ junk) = Some d.
Proof. exact (codec_faithful d b). Qed.
Print Assumptions C37_codec_faithful.

Theorem C37_serialisation_fails_only_before_1970 d :
  (exists m, serialize d = Err m) <-> before_epoch d.
Proof. exact (serialize_fails d). Qed.
Print Assumptions C37_serialisation_fails_only_before_1970.

Theorem C37_serialisation_never_panics d : serialize d <> Panic.
Proof. exact (serialize_no_panic d). Qed.
Print Assumptions C37_serialisation_never_panics.

(** What is decoded depends on a prefix of the input only. *)
Theorem C37_decoding_reads_a_prefix s d :
  deserialize s = Some d -> exists p junk, s = p ++ junk /\ forall junk', deserialize (p ++ junk') = Some d.
Proof. exact (decode_prefix s d). Qed.
Print Assumptions C37_decoding_reads_a_prefix.

Definition some_dump : dump :=
  mkDump dump_version
    [($"a", (mkAdump $"https://x/" [($"k", $"v"); ($"k", $"w")] $"id" (Some $"s") $"http://localhost/" [$"p"; $"q"] $"https://t/",
             DActive $"tok" (sec 5) (sec 3605 + 7) (Some $"r")));
     ($"b", (mkAdump $"https://x/" [] $"id" None $"http://localhost/" [] $"https://t/", DEmpty))].

Example C37_case :
  dump_ok some_dump /\ (exists b, serialize some_dump = Val b /\ deserialize b = Some some_dump)
  /\ before_epoch (mkDump dump_version
       [($"a", (mkAdump [] [] [] None [] [] [], DActive $"tok" (-1)%Z (sec 1) None))]).
Proof.
  split.
  { assert (forall s, utf8_valid s = true -> (N.of_nat (List.length s) <? 2 ^ 64)%N = true -> text s) as TX.
    { intros s A B. split; [exact A|]. apply N.ltb_lt. exact B. }
    constructor.
    - vm_compute. reflexivity.
    - vm_compute. reflexivity.
    - change (NoDup [$"a"; $"b"]). constructor; [|constructor; [intros []|constructor]].
      intros [H|[]]. discriminate H.
    - assert (text $"a" /\ text $"b" /\ text $"https://x/" /\ text $"k" /\ text $"v" /\ text $"w" /\ text $"id"
              /\ text $"s" /\ text $"http://localhost/" /\ text $"p" /\ text $"q" /\ text $"https://t/"
              /\ text $"tok" /\ text $"r") as (H1 & H2 & H3 & H4 & H5 & H6 & H7 & H8 & H9 & H10 & H11 & H12 & H13 & H14).
      { repeat match goal with |- _ /\ _ => split end; apply TX; vm_compute; reflexivity. }
      constructor; [|constructor; [|constructor]]; cbn [fst snd].
      + split; [exact H1|]. split; [|split; [exact H13|split; [vm_compute; discriminate|split; [vm_compute; discriminate|]]]].
        * split; [exact H3|]. split; [constructor; [split; assumption|constructor; [split; assumption|constructor]]|].
          split; [vm_compute; reflexivity|]. split; [exact H7|]. split; [intros x [= <-]; exact H8|].
          split; [exact H9|]. split; [constructor; [exact H10|constructor; [exact H11|constructor]]|].
          split; [vm_compute; reflexivity|exact H12].
        * intros x [= <-]. exact H14.
      + split; [exact H2|]. split; [|exact Logic.I].
        split; [exact H3|]. split; [constructor|]. split; [vm_compute; reflexivity|]. split; [exact H7|].
        split; [intros x [=]|]. split; [exact H9|]. split; [constructor|]. split; [vm_compute; reflexivity|exact H12]. }
  split; [eexists; split; [vm_compute; reflexivity|vm_compute; reflexivity]|].
  do 6 eexists. split; [left; reflexivity|]. left. reflexivity.
Qed.

(** * C38 *)

Theorem C38_dumps_hide_pending_authorisations O w1 w2 e txt :
  reachable O w1 -> asked w1 e $"dump:" -> reachable O w2 -> asked w2 e $"dump:" -> same_to_dump w1 w2 ->
  just_answers O w1 e $"dump:" txt <-> just_answers O w2 e $"dump:" txt.
Proof. exact (dump_noninterference O w1 w2 e txt). Qed.
Print Assumptions C38_dumps_hide_pending_authorisations.

(** One server has an authorisation of "b" under way and is refreshing "a". *)
Definition w_busy : world :=
  after w_auth (rf (tick (sec 1020)) :: ask $"refresh:withurl a" 1020 2 ++ [LTick 5 (tick (sec 1021))]
                ++ ask $"showtoken:withurl b" 1022 2).

Example C38_case :
  reachable toy w_auth /\ reachable toy w_busy /\ asked w_auth dump_env $"dump:" /\ asked w_busy dump_env $"dump:"
  /\ same_to_dump w_auth w_busy
  /\ (exists a, holds w_busy $"a" (TSActive a) /\ ongoing a = true) /\ (exists st, awaits w_busy $"b" st)
  /\ ~ (exists st, awaits w_auth $"b" st)
  /\ just_answers toy w_auth dump_env $"dump:" dump_text.
Proof.
  split; [apply w_auth_reachable|]. split; [unfold w_busy, w_auth; reach_after|].
  split; [unfold asked; compute_all|]. split; [unfold asked; compute_all|].
  split.
  { split.
    - vm_compute. repeat constructor.
    - intros n a1 a2 A B. assert (a1 = a2) as ->; [|unfold same_security; tauto].
      assert (c_accounts (lconfig (w_lk w_auth)) = c_accounts (lconfig (w_lk w_busy))) as E by (vm_compute; reflexivity).
      unfold configured in A, B. rewrite E in A. congruence. }
  split; [eexists; split; [eexists; split; [vm_compute; left; reflexivity|]; split; vm_compute; reflexivity|vm_compute; reflexivity]|].
  split; [do 5 eexists; split; [vm_compute; right; left; reflexivity|]; split; vm_compute; reflexivity|].
  split.
  { intros (st & cvr & ln & u & e0 & I & N & T). vm_compute in I. destruct I as [<-|[<-|[]]]; discriminate T. }
  apply (asked_dump toy w_auth dump_env); [apply w_auth_reachable|unfold asked; compute_all|vm_compute; reflexivity].
Qed.

(** * C39 *)

(** Different commands lead to different requests ... *)
Theorem C39_requests_unambiguous c1 c2 : client_request c1 = client_request c2 -> c1 = c2.
Proof. exact (client_request_inj c1 c2). Qed.
Print Assumptions C39_requests_unambiguous.

(** ... of documented form ... *)
Theorem C39_requests_documented c :
  match c with CRefresh _ n | CShow _ n | CRevoke n => utf8_valid n = true | _ => True end ->
  documented (client_request c).
Proof. exact (client_request_documented c). Qed.
Print Assumptions C39_requests_documented.

(** ... that the server takes to be about the account in question. *)
Theorem C39_show_served O w e no_url n :
  reachable O w -> asked w e (client_request (CShow no_url n)) -> utf8_valid n = true ->
  ((forall ts, ~ holds w n ts) ->
     just_answers O w e (client_request (CShow no_url n)) ($"error:No account '" ++ n ++ $"'"))
  /\ (forall cvr ln st u, holds w n (TSPending cvr ln st u) ->
     just_answers O w e (client_request (CShow no_url n)) ($"pending:" ++ if no_url then [] else url_to_str u))
  /\ (forall a, holds w n (TSActive a) -> (env_now e < expiry a)%Z ->
     just_answers O w e (client_request (CShow no_url n)) ($"access_token:" ++ access_token a)).
Proof. exact (show_served O w e no_url n). Qed.
Print Assumptions C39_show_served.

Theorem C39_show_starts_authorisation O w e no_url n act :
  reachable O w -> asked w e (client_request (CShow no_url n)) -> utf8_valid n = true ->
  url_laws O -> holds w n TSEmpty -> configured w n act ->
  exists u lk',
    let cvr := b64_encode (e_verifier_bytes e) in
    let st := b64_encode (e_state_bytes e) in
    auth_url O (w_http w) (w_https w) act cvr st u
    /\ becomes w lk' n (TSPending cvr None st u)
    /\ step O w (LTick 0 e)
       = SNext (emit (set_thread (set_lk w lk') 0
                        (do_all [ASigNotifier; AEmit (OReply (client_request (CShow no_url n))
                                                        ($"pending:" ++ if no_url then [] else url_to_str u))] PMain))
                  [OClient (client_request (CShow no_url n)); OAuthUrl n u]).
Proof. exact (show_served_empty O w e no_url n act). Qed.
Print Assumptions C39_show_starts_authorisation.

Theorem C39_refresh_served O w e no_url n :
  reachable O w -> asked w e (client_request (CRefresh no_url n)) -> utf8_valid n = true ->
  ((forall ts, ~ holds w n ts) ->
     just_answers O w e (client_request (CRefresh no_url n)) ($"error:No account '" ++ n ++ $"'"))
  /\ (forall i a, In (mkEntry n i (TSActive a)) (details (w_lk w)) ->
     step O w (LTick 0 e)
     = SNext (emit (set_thread w 0 (do_all [ASpawnRefresh i; AEmit (OReply (client_request (CRefresh no_url n)) $"scheduled:")] PMain))
               [OClient (client_request (CRefresh no_url n))])).
Proof. exact (refresh_served O w e no_url n). Qed.
Print Assumptions C39_refresh_served.

Theorem C39_refresh_starts_authorisation O w e no_url n ts act :
  reachable O w -> asked w e (client_request (CRefresh no_url n)) -> utf8_valid n = true ->
  url_laws O -> holds w n ts -> (forall a, ts <> TSActive a) -> configured w n act ->
  exists u lk',
    let cvr := b64_encode (e_verifier_bytes e) in
    let st := b64_encode (e_state_bytes e) in
    auth_url O (w_http w) (w_https w) act cvr st u
    /\ becomes w lk' n (TSPending cvr None st u)
    /\ step O w (LTick 0 e)
       = SNext (emit (set_thread (set_lk w lk') 0
                        (do_all [ASigNotifier; AEmit (OReply (client_request (CRefresh no_url n))
                                                        ($"pending:" ++ if no_url then [] else url_to_str u))] PMain))
                  [OClient (client_request (CRefresh no_url n)); OAuthUrl n u]).
Proof. exact (refresh_served_inactive O w e no_url n ts act). Qed.
Print Assumptions C39_refresh_starts_authorisation.

Theorem C39_revoke_served O w e n :
  reachable O w -> asked w e (client_request (CRevoke n)) -> utf8_valid n = true ->
  ((forall ts, ~ holds w n ts) ->
     just_answers O w e (client_request (CRevoke n)) ($"error:No account '" ++ n ++ $"'"))
  /\ (forall ts, holds w n ts -> exists lk',
     step O w (LTick 0 e)
       = SNext (emit (set_thread (set_lk w lk') 0
                 (do_all [APushEvent n EvRevoked; ASigEventer; AEmit (OReply (client_request (CRevoke n)) $"ok:")] PMain))
                 [OClient (client_request (CRevoke n))])
     /\ becomes w lk' n TSEmpty).
Proof. exact (revoke_served O w e n). Qed.
Print Assumptions C39_revoke_served.

(** An account whose name is full of separators and not ASCII. *)
Definition odd_name : str := $"a b:c" ++ [nl] ++ map ascii_of_N [195; 169]%N.
Definition conf_odd : str := conf_account odd_name [].

Example C39_case :
  utf8_valid odd_name = true /\ reachable toy (start conf_odd)
  /\ (exists act, configured (start conf_odd) odd_name act) /\ holds (start conf_odd) odd_name TSEmpty
  /\ (forall ts, ~ holds (start conf_odd) $"a" ts)
  /\ asked (start conf_odd) (client (client_request (CShow true odd_name)) (tick 0)) (client_request (CShow true odd_name)).
Proof.
  split; [vm_compute; reflexivity|]. split; [reach_start|]. split; [eexists; vm_compute; reflexivity|].
  split; [eexists; split; [vm_compute; left; reflexivity|]; split; vm_compute; reflexivity|].
  split; [|unfold asked; compute_all].
  intros ts (e0 & I & N & _). vm_compute in I. destruct I as [<-|[]]. discriminate N.
Qed.

(** * C40 *)

Theorem C40_show_exit_status no_url n rtn :
  exit_code (client_finish (CShow no_url n) rtn) = 0%N
  <-> utf8_valid rtn = true /\ exists tok, rtn = $"access_token:" ++ tok.
Proof. exact (show_exit no_url n rtn). Qed.
Print Assumptions C40_show_exit_status.

Theorem C40_show_output no_url n rtn :
  (exit_code (client_finish (CShow no_url n) rtn) = 0%N /\ exists tok, rtn = $"access_token:" ++ tok
     /\ r_stdout (client_finish (CShow no_url n) rtn) = tok ++ [nl])
  \/ (exit_code (client_finish (CShow no_url n) rtn) = 1%N /\ r_stdout (client_finish (CShow no_url n) rtn) = []).
Proof. exact (show_stdout no_url n rtn). Qed.
Print Assumptions C40_show_output.

(** From the server's memory to the user's terminal. *)
Theorem C40_show_end_to_end O w e no_url n i a :
  reachable O w -> asked w e (client_request (CShow no_url n)) -> utf8_valid n = true ->
  In (mkEntry n i (TSActive a)) (details (w_lk w)) -> (env_now e < expiry a)%Z ->
  utf8_valid (access_token a) = true ->
  exists txt,
    just_answers O w e (client_request (CShow no_url n)) txt
    /\ client_finish (CShow no_url n) txt = mkResult (access_token a ++ [nl]) None.
Proof. exact (show_end_to_end O w e no_url n i a). Qed.
Print Assumptions C40_show_end_to_end.

Example C40_case :
  exit_code (client_finish (CShow false $"a") $"access_token:x:y z") = 0%N
  /\ r_stdout (client_finish (CShow false $"a") $"access_token:x:y z") = $"x:y z" ++ [nl]
  /\ exit_code (client_finish (CShow false $"a") $"pending:http://x") = 1%N
  /\ reachable toy w_auth
  /\ asked w_auth (client (client_request (CShow false $"a")) (tick (sec 1010))) (client_request (CShow false $"a"))
  /\ exists i a, In (mkEntry $"a" i (TSActive a)) (details (w_lk w_auth)) /\ (sec 1010 < expiry a)%Z
       /\ utf8_valid (access_token a) = true.
Proof.
  split; [vm_compute; reflexivity|]. split; [vm_compute; reflexivity|]. split; [vm_compute; reflexivity|].
  split; [apply w_auth_reachable|]. split; [unfold asked; compute_all|].
  do 2 eexists. split; [vm_compute; left; reflexivity|]. split; vm_compute; reflexivity.
Qed.

(** * C41 *)

(** At the time of each reply, the request it answers had not been answered. *)
Theorem C41_at_most_one_reply O w t1 req txt t2 :
  reachable O w -> w_trace w = t1 ++ OReply req txt :: t2 -> unanswered t1 None = Some req.
Proof. exact (one_reply O w t1 req txt t2). Qed.
Print Assumptions C41_at_most_one_reply.

Theorem C41_undocumented_requests_do_nothing O w e req :
  reachable O w -> w_alive w = true -> nth_error (w_threads w) 0 = Some PMain -> e_client e = Some req ->
  ~ documented req ->
  step O w (LTick 0 e) = SNext (emit w [OClient req])
  \/ exists txt, step O w (LTick 0 e)
       = SNext (emit (set_thread w 0 (do_all [AEmit (OReply req txt)] PMain)) [OClient req]).
Proof. exact (undocumented O w e req). Qed.
Print Assumptions C41_undocumented_requests_do_nothing.

Theorem C41_queries_do_nothing O w e req :
  reachable O w -> w_alive w = true -> nth_error (w_threads w) 0 = Some PMain -> e_client e = Some req ->
  req = $"dump:" \/ req = $"info:" \/ req = $"status:" -> ~ breaks_down O w (LTick 0 e) ->
  step O w (LTick 0 e) = SNext (emit w [OClient req])
  \/ exists txt, step O w (LTick 0 e)
       = SNext (emit (set_thread w 0 (do_all [AEmit (OReply req txt)] PMain)) [OClient req]).
Proof. exact (query_request O w e req). Qed.
Print Assumptions C41_queries_do_nothing.

Example C41_case :
  reachable toy w_auth /\ asked w_auth (client $"shutdown" (tick (sec 1010))) $"shutdown"
  /\ ~ documented $"shutdown" /\ ~ documented $"shutdown:now" /\ ~ documented $"dump:x"
  /\ (exists t1 txt, w_trace w_shown = t1 ++ [OReply $"showtoken:withurl a" txt])
  /\ reachable toy w_shown
  /\ ~ breaks_down toy w_auth (LTick 0 (client $"status:" (tick (sec 1010)))).
Proof.
  split; [apply w_auth_reachable|]. split; [unfold asked; compute_all|].
  split; [intros H; remember $"shutdown" as r eqn:E in H; destruct H; discriminate E|].
  split; [intros H; remember $"shutdown:now" as r eqn:E in H; destruct H; discriminate E|].
  split; [intros H; remember $"dump:x" as r eqn:E in H; destruct H; discriminate E|].
  split; [exists (removelast (w_trace w_shown)); eexists; vm_compute; reflexivity|].
  split; [unfold w_shown, w_auth; reach_after|].
  apply answered_not_broken; [apply w_auth_reachable|]. vm_compute. discriminate.
Qed.
