(** In a responsive system the user is told in time of pending authorisations. *)
From Verif Require Import Base BaseLemmas Time Utf8 Base64 Url Json Oracles Config Dump State Http Timers Server
  SpecServer SpecTimers SpecSessions SpecFair SpecTimed TimedNotify RemindCase Scenario Runs Cases Endless.
Local Open Scope Z_scope.

(** ** C96: a URL that has been given out is announced, and announced again

    The times of the states are [tau]; the notifier and the signals to it take no
    longer than [d] ([attentive]).  An authorisation ends when a client's request
    or a browser's ends it ([auth_ended]); that the notifier only notes down when
    it has told the user is not its end. *)

(** Within [6 * d] of the URL's being given out. *)
Theorem C96_first O ws ls tau d k j n u :
  attentive O ws ls tau d -> 0 <= d ->
  In (OAuthUrl n u) (observed ws k) ->
  (forall i, (k < i)%nat -> c_auth_notify_cmd (conf (ws i)) <> None) ->
  (k < j)%nat -> tau (S k) + 6 * d < tau (S j) ->
  told_user ws (S k) j n u \/ auth_ended ws ls (S k) j n u.
Proof. exact (fun A D => told_first O ws ls tau d A D k j n u). Qed.
Print Assumptions C96_first.

(** At any later time [tau x]: again within the interval and [9 * d]. *)
Theorem C96_again O ws ls tau d k x j n u iv :
  attentive O ws ls tau d -> 0 <= d ->
  In (OAuthUrl n u) (observed ws k) -> none_ahead (ws (S k)) (tau (S k)) ->
  0 <= iv -> tau x + iv <= time_max ->
  (forall i, (k < i)%nat -> c_auth_notify_interval (conf (ws i)) <= iv) ->
  (forall i, (k < i)%nat -> c_auth_notify_cmd (conf (ws i)) <> None) ->
  (k < x)%nat -> (x <= j)%nat -> tau x + iv + 9 * d < tau (S j) ->
  told_user ws x j n u \/ auth_ended ws ls (S k) j n u.
Proof. exact (fun A D => told_until_over O ws ls tau d A D k x j n u iv). Qed.
Print Assumptions C96_again.

(** The notifier does not note down times to come: what [C96_again] asks for
    holds from the start of the server on. *)
Theorem C96_none_ahead O ws ls tau d k j :
  attentive O ws ls tau d -> (k <= j)%nat -> none_ahead (ws k) (tau k) -> none_ahead (ws j) (tau j).
Proof. exact (fun A => still_none_ahead O ws ls tau d A k j). Qed.
Print Assumptions C96_none_ahead.

Theorem C96_none_ahead_at_start c http https key t : none_ahead (init_world c http https key) t.
Proof. exact (fresh_none_ahead c http https key t). Qed.
Print Assumptions C96_none_ahead_at_start.

(** A user who is told three times, at 1000 s, at 1061 s and at 1122 s, by a
    server that takes up to a second for everything. *)
Example C96_case :
  attentive toy minute_at minute_step minute_time (sec 1) /\ 0 <= sec 1
  /\ In (OAuthUrl $"a" minute_url) (observed minute_at 2) /\ none_ahead (minute_at 3) (minute_time 3)
  /\ (forall k, c_auth_notify_interval (conf (minute_at k)) <= sec 60 /\ c_auth_notify_cmd (conf (minute_at k)) <> None)
  /\ minute_time 3 + 6 * sec 1 < minute_time 17
  /\ minute_time 12 + sec 60 + 9 * sec 1 < minute_time 32 /\ minute_time 12 + sec 60 <= time_max
  /\ told_user minute_at 3 11 $"a" minute_url
  /\ told_user minute_at 12 21 $"a" minute_url
  /\ told_user minute_at 23 31 $"a" minute_url.
Proof.
  split; [exact minute_attentive|]. split; [vm_compute; discriminate|]. split; [exact minute_issued|].
  split; [exact minute_fresh|]. split; [exact minute_conf|]. split; [vm_compute; reflexivity|].
  split; [vm_compute; reflexivity|]. split; [vm_compute; discriminate|].
  split; [|split].
  - exists 8%nat, 7%nat, $"notify". repeat (split; [lia|]). exact (minute_told 0 (8, 7)%nat eq_refl).
  - exists 19%nat, 18%nat, $"notify". repeat (split; [lia|]). exact (minute_told 1 (19, 18)%nat eq_refl).
  - exists 30%nat, 29%nat, $"notify". repeat (split; [lia|]). exact (minute_told 2 (30, 29)%nat eq_refl).
Qed.
