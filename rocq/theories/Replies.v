(** Proofs about the client and arbitrary replies (C83). *)
From Verif Require Import Base BaseLemmas Utf8 Client SpecText SpecReplies.

(** The word in front of the first colon decides. *)
Lemma word_unique k k' r r' : ~ In ":"%char k -> ~ In ":"%char k' -> k ++ ":"%char :: r = k' ++ ":"%char :: r' -> k = k' /\ r = r'.
Proof.
  intros N N' E. assert (split_first ":"%char (k ++ ":"%char :: r) = split_first ":"%char (k' ++ ":"%char :: r')) as F by (rewrite E; reflexivity).
  rewrite !split_first_app in F by assumption. injection F as -> ->. auto.
Qed.

(** The words of replies. *)
Inductive word : str -> Prop :=
| wd_token : word $"access_token" | wd_pending : word $"pending" | wd_scheduled : word $"scheduled"
| wd_ok : word $"ok" | wd_error : word $"error".

Lemma word_clean k : word k -> ~ In ":"%char k.
Proof. intros [] I; vm_compute in I; intuition discriminate. Qed.

(** What is understood, by word. *)
Inductive by_word : client_cmd -> str -> str -> client_result -> Prop :=
| bw_token u n t : by_word (CShow u n) $"access_token" t (ok_with (t ++ [nl]))
| bw_show u n t : by_word (CShow u n) $"pending" t (fail_with (auth_first t))
| bw_refresh u n t : by_word (CRefresh u n) $"pending" t (fail_with (auth_first t))
| bw_scheduled u n : by_word (CRefresh u n) $"scheduled" [] (ok_with [])
| bw_reload : by_word CReload $"ok" [] (ok_with [])
| bw_restore d : by_word (CRestore d) $"ok" [] (ok_with [])
| bw_revoke n : by_word (CRevoke n) $"ok" [] (ok_with [])
| bw_status t : by_word CStatus $"ok" t (ok_with (t ++ [nl]))
| bw_error c t : c <> CDump -> c <> CShutdown -> by_word c $"error" t (fail_with t).

Lemma by_word_word c k t r : by_word c k t r -> word k.
Proof. intros []; constructor. Qed.

Lemma understood_word c s r : understood c s r -> exists k t, s = k ++ ":"%char :: t /\ by_word c k t r.
Proof.
  intros [u n t|u n t|u n t|u n| |d|n|t|c0 m N1 N2]; do 2 eexists; (split; [|econstructor; try assumption]); reflexivity.
Qed.

Lemma word_understood c k t r : by_word c k t r -> understood c (k ++ ":"%char :: t) r.
Proof.
  intros [u n t0|u n t0|u n t0|u n| |d|n|t0|c0 t0 N1 N2].
  - exact (un_token u n t0).
  - exact (un_show_pending u n t0).
  - exact (un_refresh_pending u n t0).
  - exact (un_scheduled u n).
  - exact un_reloaded.
  - exact (un_restored d).
  - exact (un_revoked n).
  - exact (un_status t0).
  - exact (un_error c0 t0 N1 N2).
Qed.

Lemma by_word_unique c k t r r' : by_word c k t r -> by_word c k t r' -> r = r'.
Proof. intros H H'. inversion H; subst; inversion H'; subst; try reflexivity; try discriminate. Qed.

Lemma understood_unique c s r r' : understood c s r -> understood c s r' -> r = r'.
Proof.
  intros H H'. apply understood_word in H as (k & t & -> & B). apply understood_word in H' as (k' & t' & E & B').
  apply word_unique in E as [-> ->]; try (eapply word_clean, by_word_word; eassumption).
  eapply by_word_unique; eassumption.
Qed.

(** What the model does, by word. *)
Lemma finish_word c s k t :
  reads_reply c -> utf8_valid s = true -> split_first ":"%char s = Some (k, t) ->
  by_word c k t (client_finish c s) \/ (client_finish c s = malformed s /\ forall r, ~ by_word c k t r).
Proof.
  intros (N1 & N2 & N3) U E.
  destruct c as [| |u a| |d|a|u a| |]; try contradiction; cbn [client_finish]; rewrite U;
    unfold parse_refresh, parse_simple, parse_show, parse_status, split_reply; rewrite E;
    repeat match goal with |- context [str_eqb ?a ?b] => destruct (str_eqb_spec a b) as [->|?]; cbn [andb] end;
    try (left; constructor; congruence);
    (right; split; [reflexivity|]; intros r B; inversion B; subst; congruence).
Qed.

Lemma finish_none c s :
  reads_reply c -> utf8_valid s = true -> split_first ":"%char s = None -> client_finish c s = malformed s.
Proof.
  intros (N1 & N2 & N3) U E.
  destruct c as [| |u a| |d|a|u a| |]; try contradiction; cbn [client_finish]; rewrite U;
    unfold parse_refresh, parse_simple, parse_show, parse_status, split_reply; rewrite E; reflexivity.
Qed.

Lemma any_reply c s r : reads_reply c -> client_run c (Replied s) = r <-> makes c s r.
Proof.
  intros RR. cbn [client_run].
  assert (makes c s (client_finish c s)) as M.
  { destruct (utf8_valid s) eqn:U.
    2:{ assert (client_finish c s = bad_reply) as ->.
        { destruct RR as (N1 & N2 & N3). destruct c; try contradiction; cbn [client_finish]; rewrite U; reflexivity. }
        apply mk_not_text. unfold utf8. rewrite U. discriminate. }
    destruct (split_first ":"%char s) as [[k t]|] eqn:E.
    - pose proof (proj1 (split_first_some _ _ _ _) E) as [ES NC].
      destruct (finish_word c s k t RR U E) as [B|[-> N]].
      + apply mk_understood; [exact U|]. rewrite ES at 1. apply word_understood. exact B.
      + apply mk_malformed; [exact U|]. intros r' H. apply understood_word in H as (k' & t' & E' & B).
        rewrite ES in E'. apply word_unique in E' as [-> ->]; [exact (N _ B)|exact NC|eapply word_clean, by_word_word; eassumption].
    - rewrite (finish_none c s RR U E). apply mk_malformed; [exact U|]. intros r' H.
      apply understood_word in H as (k' & t' & -> & B). rewrite split_first_app in E by (eapply word_clean, by_word_word; eassumption).
      discriminate E. }
  split; [intros <-; exact M|]. intros M'. inversion M as [U1 E1|r1 U1 H1 E1|U1 N1 E1]; inversion M' as [U2 E2|r2 U2 H2 E2|U2 N2 E2]; subst;
    try contradiction; try reflexivity.
  - eapply understood_unique; eassumption.
  - exfalso. exact (N2 _ H1).
  - exfalso. exact (N1 _ H2).
Qed.

Lemma unanswered c : reads_reply c -> client_run c (Replied []) = mkResult [] (Some $"Malformed response ''").
Proof. intros RR. destruct RR as (N1 & N2 & N3). destruct c; try contradiction; reflexivity. Qed.

Lemma broken_connection c m :
  client_run c Unwritable = mkResult [] (Some $"Socket not writeable")
  /\ (c <> CShutdown -> client_run c (Broken m) = mkResult [] (Some m)).
Proof. split; [reflexivity|]. intros N. destruct c; try reflexivity. contradiction. Qed.
