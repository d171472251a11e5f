(** C50 (base64url), C84-C85: the commands run for the user, how queries are read. *)
From Verif Require Import Base BaseLemmas Time Utf8 Base64 Url UrlLemmas Json Oracles Config Dump
  State Http Timers Server Log Command SpecServer SpecCommand Reach CommandLemmas SpecUtf8 SpecEncoding
  Utf8Spec Encoding Scenario Runs Cases.

(** * C84 *)

(** Every process pizauth starts for the user is the shell running the command the
    configuration names, told the account and what happened to it, and something
    happened to it. *)
Theorem C84_started O w shell t1 o t2 p :
  reachable O w -> w_trace w = t1 ++ o :: t2 -> command_of shell o = Some p -> started_for shell t1 p.
Proof. exact (commands_started_for O w shell t1 o t2 p). Qed.
Print Assumptions C84_started.

(** It comes to be started if nothing it is told contains a zero byte. *)
Theorem C84_runs_partial shell fate o p :
  command_of shell o = Some p -> without_zero shell -> Forall without_zero (p_args p) ->
  Forall (fun kv => without_zero (fst kv) /\ without_zero (snd kv)) (p_vars p) ->
  run_command (inl shell) fate o = Some (fate p).
Proof. exact (run_plain shell fate o p). Qed.
Print Assumptions C84_runs_partial.

(** [transient_error_if_cmd] says "transient" by exiting with 0 and in no other way. *)
Theorem C84_transient_answer cmd x :
  (cmd_ok cmd x = true <-> exists out, x = CExit (Some 0%N) out)
  /\ (forall m, transient_answer cmd x = Some m <-> disapproves cmd x m).
Proof. exact (answer_ok cmd x). Qed.
Print Assumptions C84_transient_answer.

(** The browser has been sent back with an error of one zero byte. *)
Definition zero_query : str := $"state=" ++ state_of $"statebytes" ++ $"&error=%00".
Definition w_zero : world := after (w_cb zero_query) (many 3 4 (tick (sec 1001))).

(** Who controls the message can keep [error_notify_cmd] from being run. *)
Theorem C84_zero_byte_refuted :
  exists O w t1 cmd n m t2,
    reachable O w /\ w_trace w = t1 ++ OErrCmd cmd n m :: t2
    /\ forall shell fate, run_command (inl shell) fate (OErrCmd cmd n m) = Some (CNotRun $"nul byte found in provided data").
Proof.
  exists toy, w_zero.
  assert (exists j cmd n m, nth_error (w_trace w_zero) j = Some (OErrCmd cmd n m)
            /\ In "000"%char m) as (j & cmd & n & m & N & Z).
  { exists (List.length (w_trace w_zero) - 1)%nat. do 3 eexists. split; [vm_compute; reflexivity|]. vm_compute. auto 40. }
  exists (firstn j (w_trace w_zero)), cmd, n, m, (skipn (S j) (w_trace w_zero)).
  split; [unfold w_zero, w_cb, w_pend; reach_after|]. split; [apply split_at; exact N|].
  intros shell fate. unfold run_command. cbn [command_of option_map].
  rewrite zero_not_run by exact Z. reflexivity.
Qed.
Print Assumptions C84_zero_byte_refuted.

(** * Cases *)

Definition w_denied : world :=
  after (w_cb ($"state=" ++ state_of $"statebytes" ++ $"&error=denied")) (many 3 4 (tick (sec 1001))).

Example C84_case_error :
  reachable toy w_denied
  /\ exists t1 o t2 p, w_trace w_denied = t1 ++ o :: t2 /\ command_of $"/bin/sh" o = Some p
     /\ runs_shell $"/bin/sh" $"err"
          [($"PIZAUTH_ACCOUNT", $"a"); ($"PIZAUTH_MSG", $"Authentication for a failed: denied")] p
     /\ Forall without_zero (p_args p) /\ Forall (fun kv => without_zero (fst kv) /\ without_zero (snd kv)) (p_vars p).
Proof.
  split; [unfold w_denied, w_cb, w_pend; reach_after|].
  exists (firstn (List.length (w_trace w_denied) - 1) (w_trace w_denied)).
  do 3 eexists. split; [apply split_at; vm_compute; reflexivity|]. split; [reflexivity|].
  split; [split; [reflexivity|split; vm_compute; reflexivity]|].
  split; repeat apply Forall_cons; try apply Forall_nil; try split; intros X; vm_compute in X;
    repeat (destruct X as [X|X]; [discriminate X|]); exact X.
Qed.

Example C84_case_transient :
  reachable toy (after w_six [LTick 10 (cmd_result false (tick (sec 1024)))])
  /\ In (OTransientCmd $"iftrans" $"a" false) (w_trace (after w_six [LTick 10 (cmd_result false (tick (sec 1024)))]))
  /\ cmd_ok $"iftrans" (CExit (Some 0%N) []) = true /\ cmd_ok $"iftrans" (CExit (Some 1%N) []) = false
  /\ disapproves $"iftrans" CTimeout $"'iftrans' exceeded timeout".
Proof.
  split; [unfold w_six, w_auth; reach_after|]. split; [vm_compute; auto 60|].
  split; [reflexivity|]. split; [reflexivity|]. apply (da_timeout $"iftrans").
Qed.

(** * C50: states, verifiers and challenges are base64url *)

Theorem C50_base64url s t : b64_encode s = t <-> base64url s t.
Proof. exact (base64url_iff s t). Qed.
Print Assumptions C50_base64url.

(** RFC 7636, appendix A: five of the bytes of the example and all of their digits. *)
Example C50_base64url_case :
  base64url (map ascii_of_N [116; 24; 223; 180; 151]%N) $"dBjftJc" /\ ~ base64url [] $"A".
Proof.
  split; [apply C50_base64url; vm_compute; reflexivity|]. intros B. apply C50_base64url in B. discriminate B.
Qed.

(** * C85 *)

(** The query of what the browser asks for is read as forms are to be read. *)
Theorem C85_read u ps :
  query_pairs u = ps <-> form_read (match u_query u with Some q => q | None => [] end) ps.
Proof. exact (form_read_iff (match u_query u with Some q => q | None => [] end) ps). Qed.
Print Assumptions C85_read.

(** However the provider writes texts, they are read as meant. *)
Theorem C85_any_writing u ps q :
  u_query u = Some q -> writing ps q -> Forall (fun p => is_text (fst p) /\ is_text (snd p)) ps ->
  query_pairs u = ps.
Proof. intros E W F. apply C85_read. rewrite E. exact (writing_read ps q W F). Qed.
Print Assumptions C85_any_writing.

Example C85_case :
  writing [($"code", $"a b="); ($"s", [])] $"&%63ode=%61+b=&&s"
  /\ Forall (fun p => is_text (fst p) /\ is_text (snd p)) [($"code", $"a b="); ($"s", [])]
  /\ (exists ps, form_read $"a=%&b=%4&%41=%zz&c==" ps
        /\ ps = [($"a", $"%"); ($"b", $"%4"); ($"A", $"%zz"); ($"c", $"=")])
  /\ ~ writing [($"a", $"+")] $"a=+".
Proof.
  assert (forall c, negb (existsb (Ascii.eqb c) $"+%&=#") = true -> ~ In c $"+%&=#") as P.
  { intros c H I. apply negb_true_iff in H. assert (existsb (Ascii.eqb c) $"+%&=#" = true); [|congruence].
    apply existsb_exists. exists c. split; [exact I|apply Ascii.eqb_refl]. }
  assert (forall c, negb (existsb (Ascii.eqb c) $"+%&#") = true -> ~ In c $"+%&#") as Q.
  { intros c H I. apply negb_true_iff in H. assert (existsb (Ascii.eqb c) $"+%&#" = true); [|congruence].
    apply existsb_exists. exists c. split; [exact I|apply Ascii.eqb_refl]. }
  assert (Forall (fun p => is_text (fst p) /\ is_text (snd p)) [($"code", $"a b="); ($"s", [])]) as T.
  { repeat constructor; apply utf8_is_text; vm_compute; reflexivity. }
  split; [|split; [exact T|split]].
  - apply wr_amp. apply (wr_pair ($"code", $"a b=") [($"s", [])] $"%63ode=%61+b=" $"&s").
    + apply (wp_both $"code" $"a b=" $"%63ode" $"%61+b=").
      * apply (es_hex _ "6"%char "3"%char 6 3); [left; reflexivity|left; reflexivity|].
        repeat (apply es_plain; [apply P; vm_compute; reflexivity|]). apply es_end.
      * apply (es_hex _ "6"%char "1"%char 6 1); [left; reflexivity|left; reflexivity|].
        apply es_plus. repeat (apply es_plain; [apply Q; vm_compute; reflexivity|]). apply es_end.
    + apply wr_amp, wr_last, wp_name; [discriminate|]. apply es_plain; [apply P; vm_compute; reflexivity|apply es_end].
  - eexists. split; [apply form_read_iff; reflexivity|vm_compute; reflexivity].
  - intros W. assert (form_read $"a=+" [($"a", $"+")]) as F.
    { apply (writing_read _ _ W). repeat constructor; apply utf8_is_text; vm_compute; reflexivity. }
    apply form_read_iff in F. vm_compute in F. discriminate F.
Qed.
