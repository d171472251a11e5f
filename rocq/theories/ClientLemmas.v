(** What the command line client sends and prints: lemmas behind C39-C41. *)
From Verif Require Import Base BaseLemmas Time Utf8 Base64 Url UrlLemmas Json Oracles Config Dump State StateLemmas Http Timers Server Client
  SpecServer SpecDump Steps Inv Reach Trace Decide SpecRestore.

Lemma url_word_no_space nu : ~ In " "%char (url_word nu).
Proof.
  destruct nu; vm_compute; intros H; repeat (destruct H as [H|H]; [discriminate H|]); exact H.
Qed.

Lemma url_word_inj a b : url_word a = url_word b -> a = b.
Proof. destruct a, b; try reflexivity; vm_compute; discriminate. Qed.

Lemma split_word nu (n : str) : split_first " "%char (url_word nu ++ $" " ++ n) = Some (url_word nu, n).
Proof. change ($" " ++ n) with (" "%char :: n). apply split_first_app. apply url_word_no_space. Qed.

Definition verb (c : client_cmd) : str :=
  match c with
  | CDump => $"dump" | CInfo => $"info" | CRefresh _ _ => $"refresh" | CReload => $"reload"
  | CRestore _ => $"restore" | CRevoke _ => $"revoke" | CShow _ _ => $"showtoken"
  | CShutdown => $"shutdown" | CStatus => $"status"
  end.
Definition arg (c : client_cmd) : str :=
  match c with
  | CRefresh u a | CShow u a => url_word u ++ $" " ++ a
  | CRestore d => d
  | CRevoke a => a
  | _ => []
  end.

Lemma request_split c : split_first ":"%char (client_request c) = Some (verb c, arg c).
Proof.
  assert (client_request c = verb c ++ ":"%char :: arg c) as -> by (destruct c; reflexivity).
  apply split_first_app. destruct c; vm_compute; intros H; repeat (destruct H as [H|H]; [discriminate H|]); exact H.
Qed.

Lemma client_request_inj c1 c2 : client_request c1 = client_request c2 -> c1 = c2.
Proof.
  intros E. pose proof (request_split c1) as A. rewrite E, request_split in A.
  injection A as V R.
  assert (forall u a u' a', url_word u ++ $" " ++ a = url_word u' ++ $" " ++ a' -> u = u' /\ a = a') as UW.
  { intros u a u' a' X. pose proof (split_word u a) as Y. rewrite X, split_word in Y.
    injection Y as Y1 Y2. split; [apply url_word_inj; congruence|congruence]. }
  destruct c1, c2; cbn [verb] in V; try discriminate V; cbn [arg] in R; try reflexivity;
    try (apply UW in R as [-> ->]; reflexivity); congruence.
Qed.

(** Splitting at a space or a colon, which are ASCII, keeps UTF-8 valid. *)
Lemma url_word_utf8 nu n : utf8_valid n = true -> utf8_valid (url_word nu ++ $" " ++ n) = true.
Proof. intros H. destruct nu; exact H. Qed.

Lemma client_request_documented c :
  match c with CRefresh _ n | CShow _ n | CRevoke n => utf8_valid n = true | _ => True end ->
  documented (client_request c).
Proof.
  destruct c; intros H; cbn [client_request]; try constructor; auto using url_word_no_space, url_word_utf8.
Qed.

(** * Output *)

Lemma split_token tok : split_first ":"%char ($"access_token:" ++ tok) = Some ($"access_token", tok).
Proof. reflexivity. Qed.

Lemma show_exit nu n rtn :
  exit_code (client_finish (CShow nu n) rtn) = 0%N
  <-> utf8_valid rtn = true /\ exists tok, rtn = $"access_token:" ++ tok.
Proof.
  cbn [client_finish]. destruct (utf8_valid rtn); [|split; [discriminate|intros [X _]; discriminate X]].
  unfold parse_show, split_reply. destruct (split_first ":"%char rtn) as [[k rest]|] eqn:S.
  - pose proof S as S'. apply split_first_some in S' as [-> _].
    destruct (str_eqb_spec k $"access_token") as [->|NE].
    + split; [|reflexivity]. intros _. split; [reflexivity|]. exists rest. reflexivity.
    + split.
      * destruct (str_eqb k $"pending"); [discriminate|]. destruct (str_eqb k $"error"); discriminate.
      * intros (_ & tok & E). exfalso. rewrite E, split_token in S. congruence.
  - split; [discriminate|]. intros (_ & tok & ->). rewrite split_token in S. discriminate S.
Qed.

Lemma show_stdout nu n rtn :
  (exit_code (client_finish (CShow nu n) rtn) = 0%N /\ exists tok, rtn = $"access_token:" ++ tok
     /\ r_stdout (client_finish (CShow nu n) rtn) = tok ++ [nl])
  \/ (exit_code (client_finish (CShow nu n) rtn) = 1%N /\ r_stdout (client_finish (CShow nu n) rtn) = []).
Proof.
  cbn [client_finish]. destruct (utf8_valid rtn); [|right; split; reflexivity].
  unfold parse_show, split_reply. destruct (split_first ":"%char rtn) as [[k rest]|] eqn:S; [|right; split; reflexivity].
  apply split_first_some in S as [-> _].
  destruct (str_eqb_spec k $"access_token") as [->|NE].
  - left. split; [reflexivity|]. exists rest. split; reflexivity.
  - right. destruct (str_eqb k $"pending"); [split; reflexivity|]. destruct (str_eqb k $"error"); split; reflexivity.
Qed.

Lemma show_end_to_end O w e nu n i a :
  reachable O w -> asked w e (client_request (CShow nu n)) -> utf8_valid n = true ->
  In (mkEntry n i (TSActive a)) (details (w_lk w)) -> (env_now e < expiry a)%Z ->
  utf8_valid (access_token a) = true ->
  exists txt,
    just_answers O w e (client_request (CShow nu n)) txt
    /\ client_finish (CShow nu n) txt = mkResult (access_token a ++ [nl]) None.
Proof.
  intros R (A & N & C) U I LT UT. cbn [client_request] in *.
  exists ($"access_token:" ++ access_token a). split.
  - unfold just_answers.
    pose proof (show_active O w e (url_word nu) n R A N (url_word_no_space nu) (url_word_utf8 nu n U) i a C I) as S.
    destruct (Z.ltb_spec (env_now e) (expiry a)) as [_|X]; [exact S|lia].
  - cbn [client_finish]. assert (utf8_valid ($"access_token:" ++ access_token a) = true) as -> by exact UT. reflexivity.
Qed.

(** * What the server makes of the client's requests *)

Lemma show_served O w e nu n :
  reachable O w -> asked w e (client_request (CShow nu n)) -> utf8_valid n = true ->
  ((forall ts, ~ holds w n ts) ->
     just_answers O w e (client_request (CShow nu n)) ($"error:No account '" ++ n ++ $"'"))
  /\ (forall cvr ln st u, holds w n (TSPending cvr ln st u) ->
     just_answers O w e (client_request (CShow nu n)) ($"pending:" ++ if nu then [] else url_to_str u))
  /\ (forall a, holds w n (TSActive a) -> (env_now e < expiry a)%Z ->
     just_answers O w e (client_request (CShow nu n)) ($"access_token:" ++ access_token a)).
Proof.
  intros R (A & N & C) U. cbn [client_request] in *. split; [|split].
  - intros NH. exact (show_unknown O w e (url_word nu) n R A N (url_word_no_space nu) (url_word_utf8 nu n U) C NH).
  - intros cvr ln st u HO.
    pose proof (show_pending O w e (url_word nu) n R A N (url_word_no_space nu) (url_word_utf8 nu n U) cvr ln st u C HO) as S.
    unfold just_answers. destruct nu; exact S.
  - intros a (e0 & I & NE & T) LT.
    assert (In (mkEntry n (d_id e0) (TSActive a)) (details (w_lk w))) as I' by (rewrite <- NE, <- T; destruct e0; exact I).
    pose proof (show_active O w e (url_word nu) n R A N (url_word_no_space nu) (url_word_utf8 nu n U) _ a C I') as S.
    destruct (Z.ltb_spec (env_now e) (expiry a)) as [_|X]; [exact S|lia].
Qed.

Lemma show_served_empty O w e nu n act :
  reachable O w -> asked w e (client_request (CShow nu n)) -> utf8_valid n = true ->
  url_laws O -> holds w n TSEmpty -> configured w n act ->
  exists u lk',
    let cvr := b64_encode (e_verifier_bytes e) in
    let st := b64_encode (e_state_bytes e) in
    auth_url O (w_http w) (w_https w) act cvr st u
    /\ becomes w lk' n (TSPending cvr None st u)
    /\ step O w (LTick 0 e)
       = SNext (emit (set_thread (set_lk w lk') 0
                        (do_all [ASigNotifier; AEmit (OReply (client_request (CShow nu n))
                                                        ($"pending:" ++ if nu then [] else url_to_str u))] PMain))
                  [OClient (client_request (CShow nu n)); OAuthUrl n u]).
Proof.
  intros R (A & N & C) U UL HO CF. cbn [client_request] in *.
  destruct (show_empty O w e (url_word nu) n R A N (url_word_no_space nu) (url_word_utf8 nu n U) act UL C HO CF)
    as (u & lk' & X & Y & Z). exists u, lk'. split; [exact X|]. split; [exact Y|]. destruct nu; exact Z.
Qed.

Lemma refresh_served O w e nu n :
  reachable O w -> asked w e (client_request (CRefresh nu n)) -> utf8_valid n = true ->
  ((forall ts, ~ holds w n ts) ->
     just_answers O w e (client_request (CRefresh nu n)) ($"error:No account '" ++ n ++ $"'"))
  /\ (forall i a, In (mkEntry n i (TSActive a)) (details (w_lk w)) ->
     step O w (LTick 0 e)
     = SNext (emit (set_thread w 0 (do_all [ASpawnRefresh i; AEmit (OReply (client_request (CRefresh nu n)) $"scheduled:")] PMain))
               [OClient (client_request (CRefresh nu n))])).
Proof.
  intros R (A & N & C) U. cbn [client_request] in *. split.
  - intros NH. exact (refresh_unknown O w e (url_word nu) n R A N (url_word_no_space nu) (url_word_utf8 nu n U) C NH).
  - intros i a I. exact (refresh_active O w e (url_word nu) n R A N (url_word_no_space nu) (url_word_utf8 nu n U) i a C I).
Qed.

Lemma refresh_served_inactive O w e nu n ts act :
  reachable O w -> asked w e (client_request (CRefresh nu n)) -> utf8_valid n = true ->
  url_laws O -> holds w n ts -> (forall a, ts <> TSActive a) -> configured w n act ->
  exists u lk',
    let cvr := b64_encode (e_verifier_bytes e) in
    let st := b64_encode (e_state_bytes e) in
    auth_url O (w_http w) (w_https w) act cvr st u
    /\ becomes w lk' n (TSPending cvr None st u)
    /\ step O w (LTick 0 e)
       = SNext (emit (set_thread (set_lk w lk') 0
                        (do_all [ASigNotifier; AEmit (OReply (client_request (CRefresh nu n))
                                                        ($"pending:" ++ if nu then [] else url_to_str u))] PMain))
                  [OClient (client_request (CRefresh nu n)); OAuthUrl n u]).
Proof.
  intros R (A & N & C) U UL HO NA CF. cbn [client_request] in *.
  destruct (refresh_inactive O w e (url_word nu) n R A N (url_word_no_space nu) (url_word_utf8 nu n U) ts act UL C HO NA CF)
    as (u & lk' & X & Y & Z). exists u, lk'. split; [exact X|]. split; [exact Y|]. destruct nu; exact Z.
Qed.

Lemma revoke_served O w e n :
  reachable O w -> asked w e (client_request (CRevoke n)) -> utf8_valid n = true ->
  ((forall ts, ~ holds w n ts) ->
     just_answers O w e (client_request (CRevoke n)) ($"error:No account '" ++ n ++ $"'"))
  /\ (forall ts, holds w n ts -> exists lk',
     step O w (LTick 0 e)
       = SNext (emit (set_thread (set_lk w lk') 0
                 (do_all [APushEvent n EvRevoked; ASigEventer; AEmit (OReply (client_request (CRevoke n)) $"ok:")] PMain))
                 [OClient (client_request (CRevoke n))])
     /\ becomes w lk' n TSEmpty).
Proof.
  intros R (A & N & C) U. cbn [client_request] in *. split.
  - intros NH. exact (revoke_unknown O w e n R A N U C NH).
  - intros ts HO. exact (revoke_known O w e n ts R A N U C HO).
Qed.
