(** C72-C77: the command line and starting up. *)
From Verif Require Import Base BaseLemmas Utf8 Client Cli SpecCli CliLemmas Startup SpecStartup StartupLemmas.

(** * C72 *)

Theorem C72_means stdin prog cmd ws i :
  forallb utf8_valid (prog :: cmd :: ws) = true -> i <> IUsage ->
  (main_args stdin (prog :: cmd :: ws) = Val i <-> asks_for stdin cmd ws i).
Proof. exact (line_means stdin prog cmd ws i). Qed.
Print Assumptions C72_means.

Theorem C72_usage stdin prog ws :
  forallb utf8_valid (prog :: ws) = true ->
  (main_args stdin (prog :: ws) = Val IUsage
   <-> forall cmd args i, ws = cmd :: args -> i <> IUsage -> ~ asks_for stdin cmd args i).
Proof. exact (line_usage stdin prog ws). Qed.
Print Assumptions C72_usage.

Theorem C72_unambiguous stdin cmd ws i j :
  asks_for stdin cmd ws i -> asks_for stdin cmd ws j -> i = j.
Proof. exact (asks_unambiguous stdin cmd ws i j). Qed.
Print Assumptions C72_unambiguous.

(** Every account can be named. *)
Theorem C72_every_account stdin prog a :
  forallb utf8_valid [prog; a] = true ->
  main_args stdin [prog; $"show"; $"--"; a] = Val (IClient 0 (CShow false a))
  /\ main_args stdin [prog; $"show"; $"-u"; $"--"; a] = Val (IClient 0 (CShow true a))
  /\ main_args stdin [prog; $"refresh"; $"--"; a] = Val (IClient 0 (CRefresh false a))
  /\ main_args stdin [prog; $"revoke"; $"--"; a] = Val (IClient 0 (CRevoke a)).
Proof. exact (every_account stdin prog a). Qed.
Print Assumptions C72_every_account.

(** Accounts whose names do not begin with a dash need no protection, and [-u]
    may stand before or after them. *)
Theorem C72_plain_account stdin prog a :
  forallb utf8_valid [prog; a] = true -> plain a ->
  main_args stdin [prog; $"show"; a] = Val (IClient 0 (CShow false a))
  /\ main_args stdin [prog; $"show"; $"-u"; a] = Val (IClient 0 (CShow true a))
  /\ main_args stdin [prog; $"show"; a; $"-u"] = Val (IClient 0 (CShow true a))
  /\ main_args stdin [prog; $"refresh"; $"-u"; a] = Val (IClient 0 (CRefresh true a))
  /\ main_args stdin [prog; $"revoke"; a] = Val (IClient 0 (CRevoke a)).
Proof. exact (plain_account stdin prog a). Qed.
Print Assumptions C72_plain_account.

(** [-v] "can be used up to 4 times, with each repetition increasing the quantity
    of logging". *)
Theorem C72_verbosity v : v < 4 -> loudness (log_level v) < loudness (log_level (S v)).
Proof. exact (each_v_louder v). Qed.
Print Assumptions C72_verbosity.

Example C72_case :
  plain $"work" /\ forallb utf8_valid [$"pizauth"; $"work"] = true
  /\ (exists i, main_args [] [$"pizauth"; $"show"; $"-vuv"; $"work"] = Val i /\ i = IClient 2 (CShow true $"work"))
  /\ main_args [] [$"pizauth"; $"show"; $"-u"; $"-u"; $"work"] = Val IUsage
  /\ main_args [] [$"pizauth"; $"show"; $"-work"] = Val IUsage
  /\ main_args [] [$"pizauth"; $"server"; $"-dvc"; $"f"] = Val (IServer (Some $"f") false 1)
  /\ main_args [] [$"pizauth"; $"server"; $"--config"; $"f"] = Val IUsage
  /\ main_args [] [$"pizauth"; $"revoke"; $"a"; $"b"] = Val IUsage
  /\ main_args [] [$"pizauth"] = Val IUsage.
Proof.
  split; [right; discriminate|]. split; [vm_compute; reflexivity|].
  split; [eexists; split; vm_compute; reflexivity|]. repeat split; vm_compute; reflexivity.
Qed.

(** * C73 *)

Theorem C73_named_file stdin prog v is_file f :
  forallb utf8_valid [prog; f] = true -> plain f ->
  main_args stdin [prog; $"server"; $"-c"; f] = Val (IServer (Some f) true 0)
  /\ main_args stdin [prog; $"server"; $"--config=" ++ f] = Val (IServer (Some f) true 0)
  /\ conf_path v is_file (Some f) = Some f.
Proof. exact (named_file stdin prog v is_file f). Qed.
Print Assumptions C73_named_file.

(** What is missing: the converse (if there is a file at one of the documented
    places, the first is used) is refuted below. *)
Theorem C73_default_partial v is_file p :
  (forall d, v_config_home v = Some d -> neat d) -> (forall d, v_home v = Some d -> neat d) ->
  conf_path v is_file None = Some p -> first_file is_file (documented_places v) p.
Proof. exact (conf_documented v is_file p). Qed.
Print Assumptions C73_default_partial.

Definition case_vars := mkVars None None $"u" (Some $"/x") (Some $"/home/u").
Definition home_vars := mkVars None None $"u" None (Some $"/home/u").
Definition in_home (p : str) : bool := str_eqb p $"/home/u/.config/pizauth.conf".

Example C73_case :
  plain $"my.conf" /\ neat $"/home/u" /\ conf_path home_vars in_home None = Some $"/home/u/.config/pizauth.conf".
Proof. split; [right; discriminate|]. split; [split; [discriminate|reflexivity]|]. vm_compute. reflexivity. Qed.

(** With XDG_CONFIG_HOME set, the second place is not looked at. *)
Theorem C73_order_refuted :
  exists v is_file p, first_file is_file (documented_places v) p /\ conf_path v is_file None = None.
Proof.
  exists case_vars, in_home, $"/home/u/.config/pizauth.conf". split; [|vm_compute; reflexivity].
  exists [$"/x/pizauth.conf"], []. split; [reflexivity|]. split; [vm_compute; reflexivity|].
  intros q [<-|[]]. vm_compute. reflexivity.
Qed.
Print Assumptions C73_order_refuted.

(** [-c] without a file is no error: the default configuration is used. *)
Theorem C73_missing_file_refuted :
  exists prog v is_file p,
    main_args [] [prog; $"server"; $"-c"] = Val (IServer None true 0)
    /\ main_args [] [prog; $"server"; $"-c"; $"-d"] = Val (IServer None false 0)
    /\ main_args [] [prog; $"server"; $"--config"] = Val (IServer None true 0)
    /\ conf_path v is_file None = Some p.
Proof.
  exists $"pizauth", home_vars, in_home, $"/home/u/.config/pizauth.conf". repeat split; vm_compute; reflexivity.
Qed.
Print Assumptions C73_missing_file_refuted.

(** * C74 *)

(** What is missing: root, refuted below. *)
Theorem C74_private_partial me a v f p f' :
  me <> 0%N -> cache_path me a v f = Some (p, f') ->
  (exists n, f' p = Some n /\ may_enter me n /\ forall u, u <> me -> u <> 0%N -> ~ may_enter u n)
  /\ sock_path p = p ++ $"/pizauth.sock"
  /\ forall q, q <> p -> q <> runtime_path v -> f' q = f q.
Proof. exact (cache_private me a v f p f'). Qed.
Print Assumptions C74_private_partial.

(** Missing directories are no obstacle. *)
Theorem C74_available me a v f d :
  runtime_dir v d -> neat d -> free_for me a f d -> free_for me a f (d ++ $"/pizauth") ->
  exists f', cache_path me a v f = Some (d ++ $"/pizauth", f').
Proof. exact (cache_available me a v f d). Qed.
Print Assumptions C74_available.

Definition willing := mkAnswers (fun _ => true) (fun _ => 511%N) (fun _ => true) (fun _ => true).
Definition bare := mkVars None None $"u" None None.

(** A user without XDG_RUNTIME_DIR; the file mode creation mask is 0. *)
Example C74_case :
  (1000 <> 0)%N
  /\ (exists f', cache_path 1000 willing bare (fun _ => None) = Some ($"/tmp/runtime-u/pizauth", f'))
  /\ cache_path 1000 willing bare (put $"/tmp/runtime-u" (mkNode 1001 511) (fun _ => None)) = None.
Proof. split; [discriminate|]. split; [eexists|]; vm_compute; reflexivity. Qed.

Example C74_available_case :
  runtime_dir bare $"/tmp/runtime-u" /\ neat $"/tmp/runtime-u"
  /\ free_for 1000 willing (put $"/tmp/runtime-u" (mkNode 1000 511) (fun _ => None)) $"/tmp/runtime-u"
  /\ free_for 1000 willing (put $"/tmp/runtime-u" (mkNode 1000 511) (fun _ => None)) $"/tmp/runtime-u/pizauth".
Proof.
  split.
  - right. split; [reflexivity|]. exists $"/tmp". split; [right; split; reflexivity|].
    split; [split; [discriminate|reflexivity]|]. reflexivity.
  - split; [split; [discriminate|reflexivity]|].
    split; (split; [reflexivity|]; split; [reflexivity|]; split; [reflexivity|]); intros n; vm_compute.
    + intros [= <-]. left. reflexivity.
    + discriminate.
Qed.

(** Somebody else has made root's directory beforehand, and may still enter it. *)
Theorem C74_root_refuted :
  exists a v f p f' n u, cache_path 0 a v f = Some (p, f') /\ f' p = Some n /\ u <> 0%N /\ may_enter u n.
Proof.
  exists willing, bare.
  exists (put $"/tmp/runtime-u/pizauth" (mkNode 1001 511) (put $"/tmp/runtime-u" (mkNode 1001 511) (fun _ => None))).
  do 2 eexists. exists (mkNode 1001 448), 1001%N. split; [vm_compute; reflexivity|]. split; [vm_compute; reflexivity|].
  split; [discriminate|]. right. left. split; reflexivity.
Qed.
Print Assumptions C74_root_refuted.

(** * C75 *)

(** What is missing: servers started at the same time, refuted below. *)
Theorem C75_one_server_partial s es h i j :
  leftover s -> one_at_a_time s es -> host_run (fresh_host s) es = Some h -> serves h i -> serves h j -> i = j.
Proof. exact (one_server s es h i j). Qed.
Print Assumptions C75_one_server_partial.

Theorem C75_reached_partial s es h pid :
  leftover s -> one_at_a_time s es -> host_run (fresh_host s) es = Some h ->
  (serves h pid <-> reaches h pid).
Proof. exact (served_reached s es h pid). Qed.
Print Assumptions C75_reached_partial.

Theorem C75_second_refused h pid q b1 b2 :
  is_at h pid SCheck -> reaches h q ->
  exists h1 h2, host_step h (EGo pid b1) = Some h1 /\ host_step h1 (EGo pid b2) = Some h2
    /\ is_at h2 pid SEnd /\ reaches h2 q
    /\ (forall r, r <> pid -> nth_error (h_procs h2) r = nth_error (h_procs h) r)
    /\ (forall p, nth_error (h_procs h) pid = Some p -> p_status p = None -> status_of h2 pid 1).
Proof. exact (second_refused h pid q b1 b2). Qed.
Print Assumptions C75_second_refused.

(** A socket left behind by a server that was killed is no obstacle. *)
Theorem C75_restarts h d :
  (forall q, ~ reaches h q) ->
  exists n h', host_run h (EStart d :: repeat (EGo (List.length (h_procs h)) true) n) = Some h'
    /\ serves h' (List.length (h_procs h)) /\ reaches h' (List.length (h_procs h))
    /\ forall r, r < List.length (h_procs h) -> nth_error (h_procs h') r = nth_error (h_procs h) r.
Proof. exact (restarts h d). Qed.
Print Assumptions C75_restarts.

Definition host_after (s : sock_file) (es : list event) : host :=
  match host_run (fresh_host s) es with Some h => h | None => fresh_host s end.

(** A server starts over an old socket, then a second one. *)
Definition in_turn : list event :=
  EStart true :: repeat (EGo 0 true) 7 ++ [EStart true; EGo 1 true; EGo 1 true].

Definition pcs (h : host) : list ppc := map p_pc (h_procs h).

Definition startingb (c : ppc) : bool :=
  match c with SConnect | SRemove | SConf | SDetach | SSetup | SBind => true | _ => false end.

Definition at_most_one (h : host) : bool := Nat.leb (List.length (filter startingb (pcs h))) 1.

Fixpoint all_along (f : host -> bool) (h : host) (es : list event) : bool :=
  f h && match es with
         | [] => true
         | e :: es' => match host_step h e with Some h' => all_along f h' es' | None => true end
         end.

Lemma all_along_prefix f es1 : forall h es2 h1,
  all_along f h (es1 ++ es2) = true -> host_run h es1 = Some h1 -> f h1 = true.
Proof.
  induction es1 as [|e es1 IH]; intros h es2 h1 A R; cbn [app all_along host_run] in *.
  - injection R as <-. destruct es2; cbn [all_along] in A; apply andb_true_iff in A; apply A.
  - apply andb_true_iff in A. destruct A as [_ A]. destruct (host_step h e) as [h'|]; [|discriminate R].
    exact (IH _ _ _ A R).
Qed.

Lemma filter_two (cs : list ppc) : forall i j c d,
  nth_error cs i = Some c -> nth_error cs j = Some d -> startingb c = true -> startingb d = true ->
  i <> j -> 2 <= List.length (filter startingb cs).
Proof.
  induction cs as [|x cs IH]; intros i j c d N M C D NE; [destruct i; discriminate N|].
  assert (forall k y, nth_error cs k = Some y -> startingb y = true -> 1 <= List.length (filter startingb cs)) as ONE.
  { intros k y K Y. apply nth_error_In in K. assert (In y (filter startingb cs)) as X by (apply filter_In; auto).
    destruct (filter startingb cs); [destruct X|cbn; lia]. }
  cbn [filter]. destruct i as [|i], j as [|j]; cbn [nth_error] in N, M.
  - contradiction.
  - injection N as ->. rewrite C. cbn [List.length]. specialize (ONE _ _ M D). lia.
  - injection M as ->. rewrite D. cbn [List.length]. specialize (ONE _ _ N C). lia.
  - assert (2 <= List.length (filter startingb cs)) as L by (apply (IH i j c d N M C D); intros ->; apply NE; reflexivity).
    destruct (startingb x); [cbn [List.length]; lia|exact L].
Qed.

Lemma startingb_in c : In c [SConnect; SRemove; SConf; SDetach; SSetup; SBind] -> startingb c = true.
Proof. cbn. intuition (subst; reflexivity). Qed.

Lemma one_at_a_time_checked s es : all_along at_most_one (fresh_host s) es = true -> one_at_a_time s es.
Proof.
  intros A es1 es2 h i j -> R (c & (p & N & PC) & IC) (d & (q & M & QC) & ID).
  pose proof (all_along_prefix _ _ _ _ _ A R) as B. unfold at_most_one in B. apply Nat.leb_le in B.
  destruct (Nat.eq_dec i j) as [E|NE]; [exact E|]. exfalso.
  assert (2 <= List.length (filter startingb (pcs h))) as L.
  { eapply (filter_two (pcs h) i j c d); [| | | |exact NE].
    - unfold pcs. rewrite (map_nth_error _ _ _ N), PC. reflexivity.
    - unfold pcs. rewrite (map_nth_error _ _ _ M), QC. reflexivity.
    - exact (startingb_in _ IC).
    - exact (startingb_in _ ID). }
  lia.
Qed.

Example C75_case :
  leftover Unattended /\ one_at_a_time Unattended in_turn
  /\ host_run (fresh_host Unattended) in_turn = Some (host_after Unattended in_turn)
  /\ serves (host_after Unattended in_turn) 0 /\ reaches (host_after Unattended in_turn) 0
  /\ status_of (host_after Unattended in_turn) 1 1.
Proof.
  split; [discriminate|]. split; [apply one_at_a_time_checked; vm_compute; reflexivity|].
  split; [vm_compute; reflexivity|]. split; [eexists; split; vm_compute; reflexivity|].
  split; [vm_compute; reflexivity|]. eexists. split; vm_compute; reflexivity.
Qed.

(** Two servers started at the same time over an old socket: both serve, and
    the first can no longer be reached. *)
Theorem C75_race_refuted :
  exists s es h, leftover s /\ host_run (fresh_host s) es = Some h
    /\ serves h 0 /\ serves h 1 /\ reaches h 1 /\ status_of h 0 0 /\ status_of h 1 0.
Proof.
  exists Unattended.
  exists (EStart true :: EStart true :: repeat (EGo 1 true) 2 ++ repeat (EGo 0 true) 7 ++ repeat (EGo 1 true) 5).
  eexists. split; [discriminate|]. split; [vm_compute; reflexivity|].
  split; [eexists; split; vm_compute; reflexivity|]. split; [eexists; split; vm_compute; reflexivity|].
  split; [reflexivity|]. split; eexists; split; vm_compute; reflexivity.
Qed.
Print Assumptions C75_race_refuted.

(** * C76 *)

(** What is missing: that status 0 means that the server has started, refuted
    below. *)
Theorem C76_failure_partial s es h pid st es' h' :
  host_run (fresh_host s) es = Some h -> status_of h pid st -> st <> 0%N ->
  host_run h es' = Some h' -> ~ serves h' pid.
Proof. exact (failure_reported s es h pid st es' h'). Qed.
Print Assumptions C76_failure_partial.

Theorem C76_success_partial s es h pid :
  host_run (fresh_host s) es = Some h ->
  (status_of h pid 0 -> started_with h pid true)
  /\ (serves h pid -> started_with h pid true -> status_of h pid 0).
Proof. exact (success_reported s es h pid). Qed.
Print Assumptions C76_success_partial.

Example C76_case :
  exists es h, host_run (fresh_host NoFile) es = Some h /\ status_of h 0 0 /\ serves h 0 /\ status_of h 1 1.
Proof.
  exists (EStart true :: repeat (EGo 0 true) 5 ++ [EStart true; EGo 1 true; EGo 1 true]). eexists.
  split; [vm_compute; reflexivity|]. split; [eexists; split; vm_compute; reflexivity|].
  split; eexists; split; vm_compute; reflexivity.
Qed.

(** The ports of the configuration are in use: the server ends after its starter
    has been told 0. *)
Theorem C76_status_refuted :
  exists es h, host_run (fresh_host NoFile) es = Some h /\ status_of h 0 0
    /\ forall es' h', host_run h es' = Some h' -> ~ serves h' 0.
Proof.
  exists [EStart true; EGo 0 true; EGo 0 true; EGo 0 true; EGo 0 false]. eexists.
  split; [vm_compute; reflexivity|]. split; [eexists; split; vm_compute; reflexivity|].
  intros es' h' R S. assert (is_at h' 0 SEnd) as E.
  { eapply ended_stays; [exact R|]. eexists. split; reflexivity. }
  pose proof (is_at_unique _ _ _ _ S E) as X. discriminate X.
Qed.
Print Assumptions C76_status_refuted.

(** * C77 *)

(** What is missing: servers that have detached themselves, refuted below. *)
Theorem C77_touched_partial s es h pid :
  host_run (fresh_host s) es = Some h -> serves h pid -> started_with h pid false ->
  host_step h (ETouch pid) <> None.
Proof. exact (fun R S W => proj2 (touched s es h pid false R S W) eq_refl). Qed.
Print Assumptions C77_touched_partial.

Theorem C77_only_running s es h pid :
  host_run (fresh_host s) es = Some h -> host_step h (ETouch pid) <> None ->
  exists c, is_at h pid c /\ In c [SConf; SDetach; SSetup; SBind; SServe].
Proof. exact (touches_living s es h pid). Qed.
Print Assumptions C77_only_running.

Example C77_case :
  exists es h, host_run (fresh_host NoFile) es = Some h /\ serves h 0 /\ started_with h 0 false
    /\ host_step h (ETouch 0) <> None.
Proof.
  exists (EStart false :: repeat (EGo 0 true) 4). eexists. split; [vm_compute; reflexivity|].
  split; [eexists; split; vm_compute; reflexivity|]. split; [eexists; split; vm_compute; reflexivity|].
  vm_compute. discriminate.
Qed.

(** The thread that renews the time stamps is started before the process
    detaches itself and does not exist in the child: no detached server ever
    renews them. *)
Theorem C77_detached_refuted :
  (exists es h, host_run (fresh_host NoFile) es = Some h /\ serves h 0 /\ started_with h 0 true)
  /\ forall s es h pid, host_run (fresh_host s) es = Some h -> serves h pid -> started_with h pid true ->
       host_step h (ETouch pid) = None.
Proof.
  split.
  - exists (EStart true :: repeat (EGo 0 true) 5). eexists. split; [vm_compute; reflexivity|].
    split; eexists; split; vm_compute; reflexivity.
  - exact detached_untouched.
Qed.
Print Assumptions C77_detached_refuted.
