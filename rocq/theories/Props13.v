(** C79: how configuration files may be laid out, and which configurations can be
    written. *)
From Verif Require Import Base BaseLemmas Time Utf8 Url Oracles ConfigLex ConfigParse Config Dump State Http Timers Located Server
  SpecConfig SpecGrammar SpecLex SpecBlocks Lexing Tops SpecServer SpecDump SpecText SpecLayout Layout Writing Scenario.
From Coq Require Import Permutation.

(** * C79 *)

(** Which texts lay out a given sequence of tokens. *)
Theorem C79_layout s ts : Forall proper ts -> (lexes s ts <-> laid_out ts s).
Proof. exact (layout_iff s ts). Qed.
Print Assumptions C79_layout.

(** What a text means depends on its layout only through the tokens. *)
Theorem C79_meaning O s c :
  reads_as O s c <-> exists toks tree, laid_out toks s /\ g_toplevels toks tree /\ config_means O tree c.
Proof. exact (reads_layout O s c). Qed.
Print Assumptions C79_meaning.

Theorem C79_layout_irrelevant O e e' toks s s' c :
  e_file e = Some s -> e_file e' = Some s' -> e_hash e = e_hash e' -> utf8 s' ->
  laid_out toks s -> laid_out toks s' -> config_from_path O e = Val c -> config_from_path O e' = Val c.
Proof. exact (layout_irrelevant_val O e e' toks s s' c). Qed.
Print Assumptions C79_layout_irrelevant.

(** Every configuration fit to be written can be written. *)
Theorem C79_every_configuration O c :
  writable_config O c -> utf8_config c ->
  exists s, forall e, e_file e = Some s ->
    exists l, Permutation (c_accounts c) l /\ config_from_path O e = Val (with_accounts c l).
Proof. exact (written_read O c). Qed.
Print Assumptions C79_every_configuration.

(** Nothing else is ever read. *)
Theorem C79_only_such_configurations O e c :
  config_from_path O e = Val c -> writable_config O c /\ utf8_config c.
Proof. exact (read_writable O e c). Qed.
Print Assumptions C79_only_such_configurations.

(** A text with comments, one of them at the very end, and the same without
    white space. *)
Definition c79_tokens : list token :=
  [TkKw KwHttpListen; TkEq; TkKw KwNone; TkSemi; TkKw KwRefreshRetry; TkEq; TkTime $"5m"; TkSemi].

Example C79_layout_case :
  laid_out c79_tokens ($"// which port" ++ [nl] ++ $"http_listen // none" ++ [nl; tab] ++ $"= none;refresh_retry = 5m ; // end")
  /\ laid_out c79_tokens $"http_listen=none;refresh_retry=5m;".
Proof.
  assert (Forall proper c79_tokens) as P by (repeat constructor).
  split; apply (layout_iff _ _ P); apply lex_iff; vm_compute; reflexivity.
Qed.

(** A configuration with quotes, backslashes, a comment sign and a line end in
    its strings. *)
Definition c79_account : account :=
  mkAccount $"a b" $"https://a.example/" [($"login_hint", [dquote; bslash]); ($"x", $"// no comment")] [dquote] (Some [nl])
    $"http://localhost/" (Some (60 * 10 ^ 9)%Z) None None [[]; $"s"] $"https://t.example/".

Definition c79_config : config :=
  mkConfig [($"a b", c79_account)] (Some $"echo ""$PIZAUTH_URL""") (30 * 10 ^ 9)%Z None (Some $"127.0.0.1:8080") None
    None None (Some 0%Z) None (Some [bslash]).

Example C79_case :
  writable_config toy c79_config /\ utf8_config c79_config
  /\ exists s, forall e, e_file e = Some s -> config_from_path toy e = Val c79_config.
Proof.
  assert (writable_config toy c79_config) as W.
  { constructor.
    - repeat constructor. intros [].
    - discriminate.
    - intros name act [E|[]]. injection E as <- <-. constructor; try reflexivity.
      + eexists. split; [vm_compute; reflexivity|]. right. reflexivity.
      + eexists. split; [vm_compute; reflexivity|]. right. reflexivity.
      + left. reflexivity.
      + intros v E. injection E as <-. exists 60%Z. split; [lia|reflexivity].
      + intros v E. discriminate.
      + intros v E. discriminate.
    - exists 30%Z. split; [lia|reflexivity].
    - intros v E. discriminate.
    - intros v E. injection E as <-. exists 0%Z. split; [lia|reflexivity].
    - intros v E. discriminate.
    - intros [E _]. discriminate.
    - intros name act [E|[]]. injection E as <- <-. split; [intros r E; discriminate|intros r E N; discriminate]. }
  assert (utf8_config c79_config) as U.
  { constructor; try (intros x E; injection E as <-; reflexivity); try (intros x E; discriminate).
    constructor; [|constructor]. split; [reflexivity|]. constructor; try reflexivity.
    - repeat constructor.
    - intros x E. injection E as <-. reflexivity.
    - repeat constructor. }
  split; [exact W|]. split; [exact U|]. destruct (C79_every_configuration toy c79_config W U) as (s & H). exists s. intros e E.
  destruct (H e E) as (l & P & ->). apply Permutation_length_1_inv in P. subst l. reflexivity.
Qed.
