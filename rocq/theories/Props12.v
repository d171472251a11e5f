(** C78: what is said about a configuration file that is rejected. *)
From Verif Require Import Base BaseLemmas Time Utf8 Url Json Oracles ConfigLex ConfigParse Config Located Dump State Http Timers Server
  SpecGrammar SpecConfig SpecLex SpecBlocks SpecReport LexLemmas ConfigParseProofs ConfigLemmas Lexing Blocks Tops Reads Places Locate
  Faults Report Report2 Basic Scenario Runs Cases.

(** * C78 *)

(** Everything wrong with a single option, field or block but times.  What is
    missing: times that are too large (refuted below). *)
Theorem C78_reported_partial O h s toks i reason :
  lexes s toks -> fault O toks i reason ->
  exists off report, token_begins s i off /\ reported_at s off reason report /\ from_str O h s = Err report.
Proof. exact (fault_reported O h s toks i reason). Qed.
Print Assumptions C78_reported_partial.

(** Nothing else is rejected. *)
Theorem C78_rejected_because O h s report :
  from_str O h s = Err report ->
  (~ exists toks tree, lexes s toks /\ g_toplevels toks tree)
  \/ exists toks tree, lexes s toks /\ g_toplevels toks tree
     /\ ((exists i reason off, fault O toks i reason /\ token_begins s i off /\ reported_at s off reason report)
         \/ (time_fault O tree /\ exists r, report = $"Invalid time: " ++ r)
         \/ (tops_fine O tree /\ whole_fault O tree report)).
Proof. exact (rejected_because O h s report). Qed.
Print Assumptions C78_rejected_because.

Theorem C78_accepted_iff O h s :
  (exists c, from_str O h s = Val c)
  <-> exists toks tree, lexes s toks /\ g_toplevels toks tree /\ tops_fine O tree /\ ~ exists m, whole_fault O tree m.
Proof. exact (accepted_iff O h s). Qed.
Print Assumptions C78_accepted_iff.

Theorem C78_whole O h s toks tree m :
  lexes s toks -> g_toplevels toks tree -> tops_fine O tree -> whole_fault O tree m ->
  exists m', whole_fault O tree m' /\ from_str O h s = Err m'.
Proof. exact (whole_fault_reported O h s toks tree m). Qed.
Print Assumptions C78_whole.

Theorem C78_time O h s toks tree :
  lexes s toks -> g_toplevels toks tree -> time_fault O tree ->
  exists r, from_str O h s = Err ($"Invalid time: " ++ r).
Proof. exact (time_fault_reported O h s toks tree). Qed.
Print Assumptions C78_time.

(** A token begins in one place. *)
Theorem C78_place_unique s i off off' : token_begins s i off -> token_begins s i off' -> off = off'.
Proof. exact (token_begins_unique s i off off'). Qed.
Print Assumptions C78_place_unique.

(** What `pizauth reload` says. *)
Theorem C78_reload_partial O w e s toks i reason :
  reachable O w -> w_alive w = true -> nth_error (w_threads w) 0 = Some PMain ->
  e_client e = Some $"reload:" -> e_file e = Some s -> utf8_valid s = true ->
  lexes s toks -> fault O toks i reason ->
  exists off report, token_begins s i off /\ reported_at s off reason report
    /\ step O w (LTick 0 e) =
         SNext (emit (set_thread w 0 (PDo (AEmit (OReply $"reload:" ($"error:" ++ report))) PMain)) [OClient $"reload:"]).
Proof.
  intros R A M C F U L X. destruct (fault_reported O (e_hash e) s toks i reason L X) as (off & report & TB & RP & E).
  exists off, report. split; [exact TB|]. split; [exact RP|]. apply reload_failed; try assumption.
  unfold config_from_path. rewrite F, U. exact E.
Qed.
Print Assumptions C78_reload_partial.

(** A repeated option, the second in the second line. *)
Definition conf_twice : str := $"refresh_retry = 5m;" ++ [nl] ++ $"  refresh_retry = 6m; // again".

Example C78_case :
  exists toks,
    lexes conf_twice toks
    /\ fault toy toks 6 $"Mustn't specify 'refresh_retry' more than once"
    /\ from_str toy (fun _ => 0%N) conf_twice
       = Err ($"Line 2, column 19:" ++ [nl] ++ $"  refresh_retry = 6m; // again" ++ [nl]
              ++ $"Mustn't specify 'refresh_retry' more than once").
Proof.
  set (tb := [TkKw KwRefreshRetry; TkEq; TkTime $"5m"; TkSemi]). set (tx := [TkKw KwRefreshRetry; TkEq; TkTime $"6m"; TkSemi]).
  exists (tb ++ tx ++ []). split; [apply lex_iff; vm_compute; reflexivity|]. split; [|vm_compute; reflexivity].
  apply (f_repeated toy _ tb [TLRefreshRetry $"5m"] tx (TLRefreshRetry $"6m") [] [] $"refresh_retry").
  - reflexivity.
  - apply (gts_more [] [] tb _ gts_none). constructor.
  - constructor.
  - constructor.
  - apply tops_fine_iff; [apply (text_items_ok $"refresh_retry = 5m;" tb);
      [apply lex_iff; vm_compute; reflexivity|apply (gts_more [] [] tb _ gts_none); constructor]|].
    split; [vm_compute; repeat constructor; intros []|]. constructor; [|constructor]. eexists. vm_compute. reflexivity.
  - left. reflexivity.
  - left. reflexivity.
Qed.

(** An address of another kind and a block that lacks one. *)
Example C78_case2 :
  from_str toy (fun _ => 0%N)
    ($"account " ++ q ++ $"a" ++ q ++ $" {" ++ [nl] ++ $"  auth_uri = " ++ q ++ $"ftp://x/" ++ q ++ $";" ++ [nl] ++ $"}")
  = Err ($"Line 2, column 14:" ++ [nl] ++ $"  auth_uri = " ++ q ++ $"ftp://x/" ++ q ++ $";" ++ [nl]
         ++ $"not a valid HTTP or HTTPS URI")
  /\ from_str toy (fun _ => 0%N)
       ($"account " ++ q ++ $"a" ++ q ++ $" {" ++ [nl] ++ $"  auth_uri = " ++ q ++ $"http://x/" ++ q ++ $";" ++ [nl] ++ $"}")
     = Err ($"Line 1, column 1:" ++ [nl] ++ $"  account " ++ q ++ $"a" ++ q ++ $" {" ++ [nl] ++ $"client_id not specified").
Proof. split; vm_compute; reflexivity. Qed.

(** Nothing says where a time is that is too large. *)
Theorem C78_time_unplaced_refuted :
  exists s toks tree report,
    lexes s toks /\ g_toplevels toks tree /\ time_fault toy tree /\ from_str toy (fun _ => 0%N) s = Err report
    /\ ~ exists off reason, reported_at s off reason report.
Proof.
  set (s := $"refresh_retry = 18446744073709551616s;").
  set (toks := [TkKw KwRefreshRetry; TkEq; TkTime $"18446744073709551616s"; TkSemi]).
  exists s, toks, [TLRefreshRetry $"18446744073709551616s"], $"Invalid time: number too large to fit in target type".
  split; [apply lex_iff; vm_compute; reflexivity|]. split; [apply (gts_more [] [] toks _ gts_none); constructor|]. split.
  - apply (tf_option toy _ [] (TLRefreshRetry $"18446744073709551616s") [] $"18446744073709551616s"); try reflexivity.
    + intros b x a E. destruct b; discriminate.
    + intros n _ [].
    + intros (d & V). apply (time_value_iff $"18446744073709551616s" d) in V; [vm_compute in V; discriminate V|].
      assert (Forall top_ok [TLRefreshRetry $"18446744073709551616s"]) as F
        by (apply (text_items_ok s toks); [apply lex_iff; vm_compute; reflexivity|apply (gts_more [] [] toks _ gts_none); constructor]).
      inversion F; subst. assumption.
  - split; [vm_compute; reflexivity|].
    intros (off & reason & above & left & right & below & code & _ & _ & _ & _ & _ & _ & _ & line & col & _ & _ & E).
    discriminate E.
Qed.
Print Assumptions C78_time_unplaced_refuted.
