(** C49 (the text of URLs), C82-C83: what the browser is shown and what the client makes of replies. *)
From Verif Require Import Base BaseLemmas Time Utf8 Base64 Url UrlLemmas Json Oracles ConfigLex ConfigParse Config Dump
  State Http Timers Server Client SpecConfig SpecHttp SpecServer SpecRestore SpecLinks SpecPages SpecText SpecUser SpecReplies
  HttpLemmas Reach Trace PageLemmas UrlText Replies User Scenario Runs Cases Props9.

(** * C49: what is written for a URL *)

Theorem C49_text O w n u :
  url_parts O -> reachable O w -> In (OAuthUrl n u) (w_trace w) ->
  exists a, authority u a /\ url_text (url_to_str u) (u_scheme u) a (u_path u) (u_query u) (u_frag u).
Proof. exact (issued_text O w n u). Qed.
Print Assumptions C49_text.

Theorem C49_redirect_text O w n act r :
  url_parts O -> url_laws O -> reachable O w -> configured w n act ->
  account_redirect_uri O act (w_http w) (w_https w) = Val r ->
  exists a, authority r a /\ url_text (url_to_str r) (u_scheme r) a (u_path r) (u_query r) (u_frag r).
Proof. exact (redirect_text O w n act r). Qed.
Print Assumptions C49_redirect_text.

(** There is one way to take a URL apart. *)
Theorem C49_one_reading s sch1 a1 p1 q1 f1 sch2 a2 p2 q2 f2 :
  url_text s sch1 a1 p1 q1 f1 -> url_text s sch2 a2 p2 q2 f2 ->
  sch1 = sch2 /\ a1 = a2 /\ p1 = p2 /\ q1 = q2 /\ f1 = f2.
Proof. exact (url_text_unique s sch1 a1 p1 q1 f1 sch2 a2 p2 q2 f2). Qed.
Print Assumptions C49_one_reading.

(** The law about the parts of URLs holds for the parser of the examples. *)
Lemma take_without bad s : without bad (take_while (not_in bad) s).
Proof.
  intros c I J. pose proof (take_while_forall (not_in bad) s) as F. rewrite forallb_forall in F. specialize (F _ I).
  unfold not_in in F. apply negb_true_iff in F.
  assert (existsb (Ascii.eqb c) bad = true) by (apply existsb_exists; exists c; split; [exact J|apply Ascii.eqb_refl]).
  congruence.
Qed.

Lemma drop_head bad s c t : drop_while (not_in bad) s = c :: t -> In c bad.
Proof.
  induction s as [|x s IH]; cbn [drop_while]; [discriminate|]. destruct (not_in bad x) eqn:E; [exact IH|].
  intros [= -> _]. unfold not_in in E. apply negb_false_iff, existsb_exists in E as (y & I & X).
  apply Ascii.eqb_eq in X. subst y. exact I.
Qed.

Lemma lower_mark c : In (ascii_lower c) $"/?#" -> In c $"/?#".
Proof.
  intros I. destruct (existsb (Ascii.eqb c) $"/?#") eqn:E.
  - apply existsb_exists in E as (y & J & X). apply Ascii.eqb_eq in X. subst y. exact J.
  - exfalso. revert I E. destruct c as [[|] [|] [|] [|] [|] [|] [|] [|]]; vm_compute; intuition discriminate.
Qed.

Lemma toy_parts : url_parts toy.
Proof.
  intros s u H _. cbn [toy o_url_parse] in H. unfold toy_url in H.
  destruct (toy_url_parse s) as [u'|] eqn:P; [|discriminate H].
  destruct (forallb (between 0 127) (url_to_str u')); [|discriminate H]. injection H as ->. rename P into H.
  unfold toy_url_parse in H.
  destruct (split_first ":"%char s) as [[sch r0]|]; [|discriminate H].
  destruct (starts_with $"//" r0); [|discriminate H].
  set (r1 := skipn 2 r0) in H. set (auth := take_while (not_in $"/?#") r1) in H.
  set (r2 := drop_while (not_in $"/?#") r1) in H. set (path := take_while (not_in $"?#") r2) in H.
  set (r3 := drop_while (not_in $"?#") r2) in H.
  match type of H with (let '(_, _) := ?x in _) = _ => destruct x as [q r4] eqn:Q end.
  match type of H with (let '(_, _) := ?x in _) = _ => destruct x as [host port] eqn:HP end.
  destruct host as [|c0 h0]; [discriminate H|]. injection H as <-.
  assert (without $"/?#" auth) as WA by apply take_without.
  assert (without $"?#" path) as WP by apply take_without.
  assert (without $"/?#" (c0 :: h0)) as WH.
  { intros c I. apply WA. destruct (split_first ":"%char auth) as [[h p]|] eqn:E.
    - apply split_first_some in E as [-> _]. injection HP as -> _. apply in_or_app. left. exact I.
    - injection HP as -> _. exact I. }
  unfold tidy. cbn [u_user u_host u_path u_query].
  split; [intros c []|]. split.
  { intros h [= <-] c I J. change (ascii_lower c0 :: map ascii_lower h0) with (map ascii_lower (c0 :: h0)) in I.
    apply in_map_iff in I as (x & <- & I). apply lower_mark in J. exact (WH x I J). }
  split.
  { destruct path as [|c p] eqn:EP; [eexists; reflexivity|]. exists p. f_equal.
    destruct r2 as [|x r] eqn:E2; [discriminate EP|].
    assert (In x $"/?#") as I by (eapply (drop_head $"/?#" r1); exact E2).
    unfold path in EP. cbn [take_while] in EP. destruct (not_in $"?#" x) eqn:NI; [|discriminate EP]. injection EP as <- _.
    destruct I as [<-|[<-|[<-|[]]]]; [reflexivity|discriminate NI|discriminate NI]. }
  split. { destruct path; [|exact WP]. intros c [<-|[]] [X|[X|[]]]; discriminate X. }
  intros x ->. destruct r3 as [|c r]; [discriminate Q|]. destruct (Ascii.eqb c "?"%char); [|discriminate Q].
  injection Q as <- _. apply take_without.
Qed.

Example C49_text_case :
  url_parts toy /\ url_laws toy /\ reachable toy w_pend
  /\ (exists u, In (OAuthUrl $"a" u) (w_trace w_pend)
      /\ exists q0, url_to_str u = $"https://auth.example/a?access_type=offline&code_challenge=" ++ q0)
  /\ exists act r, configured w_pend $"a" act /\ account_redirect_uri toy act (w_http w_pend) (w_https w_pend) = Val r
     /\ url_to_str r = $"http://localhost:8080/".
Proof.
  split; [exact toy_parts|]. split; [exact toy_laws|]. split; [unfold w_pend; reach_after|]. split.
  - eexists. split; [vm_compute; right; right; left; reflexivity|]. eexists. vm_compute. reflexivity.
  - do 2 eexists. split; [vm_compute; reflexivity|]. split; vm_compute; reflexivity.
Qed.

(** * C82 *)

Theorem C82_answer O w tid e https bytes :
  reachable O w -> w_alive w = true -> nth_error (w_threads w) tid = Some (PHttpStart https bytes) ->
  exists lk' r k, step O w (LTick tid e) = SNext (set_thread (set_lk w lk') tid (do_all [AEmit (OHttpResp r)] k))
    /\ shown_page O w https bytes r.
Proof. exact (browser_shown O w tid e https bytes). Qed.
Print Assumptions C82_answer.

Theorem C82_one_answer O w https bytes r1 r2 :
  (forall n m st, awaits w n st -> awaits w m st -> n = m) ->
  shown_page O w https bytes r1 -> shown_page O w https bytes r2 -> r1 = r2.
Proof. exact (shows_one O w https bytes r1 r2). Qed.
Print Assumptions C82_one_answer.

Theorem C82_only_these O w r :
  reachable O w -> In (OHttpResp r) (w_trace w) -> In r [bad_request; not_found; page_unknown; page_processing].
Proof. exact (fun R => only_pages O w R r). Qed.
Print Assumptions C82_only_these.

(** Missing for the full property: the answers with status 400 and 404, see below. *)
Theorem C82_well_formed_partial O w r :
  reachable O w -> In (OHttpResp r) (w_trace w) -> r <> bad_request -> r <> not_found -> http_response r.
Proof.
  exact (fun R I N1 N2 =>
    match only_pages O w R r I with
    | or_introl E => match N1 (eq_sym E) with end
    | or_intror (or_introl E) => match N2 (eq_sym E) with end
    | or_intror (or_intror (or_introl E)) => eq_ind _ http_response (page_ok _) r E
    | or_intror (or_intror (or_intror (or_introl E))) => eq_ind _ http_response (page_ok _) r E
    | or_intror (or_intror (or_intror (or_intror F))) => match F with end
    end).
Qed.
Print Assumptions C82_well_formed_partial.

(** The request of a user whose browser asks for something else, /favicon.ico say. *)
Definition w_icon : world :=
  after (after w_pend [LHttpConn false ($"GET /favicon.ico HTTP/1.1" ++ [cr; nl] ++ $"Host: localhost:8080" ++ [cr; nl; cr; nl])])
        (many 2 4 (tick (sec 1001))).

Theorem C82_status_line_refuted :
  (exists O w, reachable O w /\ In (OHttpResp not_found) (w_trace w) /\ ~ http_response not_found)
  /\ (exists O w, reachable O w /\ In (OHttpResp bad_request) (w_trace w) /\ ~ http_response bad_request).
Proof.
  split.
  - exists toy, w_icon. split; [unfold w_icon, w_pend; reach_after|].
    split; [|apply bare_status_bad]. vm_compute. auto 20.
  - exists toy, (after (after w_pend [LHttpConn false $"hello"]) (many 2 4 (tick (sec 1001)))).
    split; [unfold w_pend; reach_after|]. split; [|apply bare_status_bad]. vm_compute. auto 20.
Qed.
Print Assumptions C82_status_line_refuted.

Example C82_case :
  reachable toy (w_cb good_query) /\ w_alive (w_cb good_query) = true
  /\ (exists bytes, nth_error (w_threads (w_cb good_query)) 4 = Some (PHttpStart false bytes)
        /\ shown_page toy (w_cb good_query) false bytes page_processing)
  /\ (forall n m st, awaits (w_cb good_query) n st -> awaits (w_cb good_query) m st -> n = m)
  /\ In (OHttpResp page_processing) (w_trace w_post)
  /\ reachable toy w_post /\ page_processing <> bad_request /\ page_processing <> not_found.
Proof.
  assert (reachable toy (w_cb good_query)) as R by (unfold w_cb, w_pend; reach_after).
  assert (forall n m st, awaits (w_cb good_query) n st -> awaits (w_cb good_query) m st -> n = m) as U.
  { intros n m st (c1 & l1 & u1 & e1 & H1 & <- & T1) (c2 & l2 & u2 & e2 & H2 & <- & T2).
    vm_compute in H1, H2. destruct H1 as [<-|[<-|[]]], H2 as [<-|[<-|[]]]; try reflexivity; first [discriminate T1|discriminate T2]. }
  assert (w_alive (w_cb good_query) = true) as A by (vm_compute; reflexivity).
  split; [exact R|]. split; [exact A|]. split.
  - eexists. assert (nth_error (w_threads (w_cb good_query)) 4 = Some (PHttpStart false (callback good_query))) as N
      by (vm_compute; reflexivity).
    split; [exact N|].
    eapply (sh_code toy _ false _ _ _ $"a").
    + apply parse_get_iff. vm_compute. reflexivity.
    + vm_compute. reflexivity.
    + do 4 eexists. split; [vm_compute; left; reflexivity|]. split; vm_compute; reflexivity.
    + vm_compute. reflexivity.
    + vm_compute. reflexivity.
    + vm_compute. auto.
    + vm_compute. reflexivity.
    + vm_compute. reflexivity.
  - split; [exact U|]. split; [vm_compute; auto 20|]. split; [unfold w_post, w_cb, w_pend; reach_after|].
    split; discriminate.
Qed.

(** * C83 *)

Theorem C83_any_reply c rtn r : reads_reply c -> client_run c (Replied rtn) = r <-> makes c rtn r.
Proof. exact (any_reply c rtn r). Qed.
Print Assumptions C83_any_reply.

Theorem C83_one_meaning c rtn r r' : understood c rtn r -> understood c rtn r' -> r = r'.
Proof. exact (understood_unique c rtn r r'). Qed.
Print Assumptions C83_one_meaning.

(** The connection breaks. *)
Theorem C83_broken c m :
  fails_saying (client_run c Unwritable) $"Socket not writeable"
  /\ (c <> CShutdown -> fails_saying (client_run c (Broken m)) m).
Proof.
  destruct (broken_connection c m) as [-> H]. split; [split; reflexivity|]. intros N. rewrite (H N). split; reflexivity.
Qed.
Print Assumptions C83_broken.

(** The server goes away without having answered. *)
Theorem C83_unanswered_partial c :
  reads_reply c -> fails_saying (client_run c (Replied [])) $"Malformed response ''".
Proof. intros RR. rewrite (unanswered c RR). split; reflexivity. Qed.
Print Assumptions C83_unanswered_partial.

(** [pizauth dump] succeeds all the same, and prints something that no server
    can restore. *)
Theorem C83_dump_refuted :
  exists r, client_run CDump (Replied []) = r /\ succeeded r
    /\ forall O w e lk' acts r', ready O w -> asked w e (client_request (CRestore (r_stdout r))) ->
         gives O w e (CRestore (r_stdout r)) lk' acts r' -> ~ succeeded r'.
Proof.
  eexists. split; [reflexivity|]. split; [reflexivity|]. intros O w e lk' acts r' RD AS G S.
  destruct (restore_result O w e [] lk' acts r' RD AS G) as (H & _). apply H in S as [L _].
  cbn [List.length] in L. inversion L.
Qed.
Print Assumptions C83_dump_refuted.

Example C83_case :
  reads_reply (CShow false $"a")
  /\ makes (CShow false $"a") $"access_token:to:k" (mkResult ($"to:k" ++ [nl]) None)
  /\ makes (CShow false $"a") $"scheduled:" (mkResult [] (Some $"Malformed response 'scheduled:'"))
  /\ makes (CRevoke $"a") $"ok:x" (mkResult [] (Some $"Malformed response 'ok:x'"))
  /\ makes CStatus [ascii_of_N 255] (mkResult [] (Some $"stream did not contain valid UTF-8"))
  /\ exists O w e lk' acts r', ready O w /\ asked w e (client_request (CRestore [])) /\ gives O w e (CRestore []) lk' acts r'.
Proof.
  assert (forall u a, reads_reply (CShow u a)) as RS by (intros u a; split; [discriminate|split; discriminate]).
  split; [apply RS|]. split; [apply C83_any_reply; [apply RS|vm_compute; reflexivity]|].
  split; [apply C83_any_reply; [apply RS|vm_compute; reflexivity]|].
  split; [apply C83_any_reply; [split; [discriminate|split; discriminate]|vm_compute; reflexivity]|].
  split; [apply C83_any_reply; [split; [discriminate|split; discriminate]|vm_compute; reflexivity]|].
  set (e := asking (CRestore []) 1100).
  exists toy, w_half, e.
  assert (asked w_half e (client_request (CRestore []))) as AS by (split; vm_compute; auto).
  assert (forall n, names (CRestore []) = Some n -> utf8 n) as NM by discriminate.
  assert (~ breaks_down toy w_half (LTick 0 e)) as NB by (apply not_status; discriminate).
  destruct (proj1 (C62_exactly_one_result toy w_half e (CRestore []) half_ready AS NM NB)) as (lk' & acts & r' & G).
  exists lk', acts, r'. split; [exact half_ready|]. split; [exact AS|exact G].
Qed.
