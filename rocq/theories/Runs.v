(** Tools for the concrete cases shown beside the theorems. *)
From Verif Require Import Base Time Utf8 Url Json Oracles Config Located Dump State Http Timers Server
  SpecServer Reach Scenario.

Lemma toy_laws : url_laws toy.
Proof.
  constructor.
  - eexists. split; [vm_compute; reflexivity|]. split; reflexivity.
  - intros s u H _. cbn [toy o_url_parse] in H. unfold toy_url in H.
    destruct (toy_url_parse s) as [u'|] eqn:P; [|discriminate H].
    destruct (forallb (between 0 127) (url_to_str u')); [|discriminate H]. injection H as ->. rename P into H.
    unfold toy_url_parse in H.
    destruct (split_first ":"%char s) as [[sch r0]|]; [|discriminate H].
    destruct (starts_with $"//" r0); [|discriminate H].
    repeat match type of H with
           | (let '(_, _) := ?x in _) = _ => destruct x
           end.
    match type of H with match ?x with _ => _ end = _ => destruct x as [|c h] end; [discriminate H|].
    injection H as <-. cbn [u_host map]. eauto.
Qed.

(** Does the whole run succeed? *)
Definition runs (w : world) (ls : list label) : bool :=
  match run toy w ls with Some (SNext _) => true | _ => false end.

Definition accepted (s : str) : bool :=
  match config_from_path toy (env_file s) with Val _ => true | _ => false end.

Lemma start_reachable s : accepted s = true -> reachable toy (start s).
Proof.
  unfold accepted. intros H.
  destruct (config_from_path toy (env_file s)) as [c| |] eqn:E; try discriminate H.
  assert (conf_of s = c) as EC.
  { unfold config_from_path, env_file in E. cbn [e_file file] in E. destruct (utf8_valid s); [|discriminate E].
    unfold conf_of. change (fun _ : str => 0%N) with (e_hash (file s (tick 0))). rewrite E. reflexivity. }
  unfold start. rewrite EC. eapply reach_init. exact E.
Qed.

Lemma after_reachable w ls : runs w ls = true -> reachable toy w -> reachable toy (after w ls).
Proof.
  unfold runs, after. intros H R. destruct (run toy w ls) as [[| |w']|] eqn:E; try discriminate H.
  eapply steps_reachable; [exact R|]. eapply run_steps. exact E.
Qed.

Lemma after_run w ls : runs w ls = true -> run toy w ls = Some (SNext (after w ls)).
Proof. unfold runs, after. intros H. destruct (run toy w ls) as [[| |w']|]; try discriminate H. reflexivity. Qed.

Lemma after_steps w ls : runs w ls = true -> steps toy w (after w ls).
Proof. intros H. eapply run_steps, after_run. exact H. Qed.

Ltac reach_start := apply start_reachable; vm_compute; reflexivity.
Ltac reach_after := repeat (apply after_reachable; [vm_compute; reflexivity|]); reach_start.

Lemma w_auth_reachable : reachable toy w_auth.
Proof. unfold w_auth. reach_after. Qed.

(** Computes as many conjuncts as possible. *)
Ltac compute_all := repeat match goal with |- _ /\ _ => split end; try (vm_compute; reflexivity).
