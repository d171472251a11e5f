(** C90: client secrets go to the token server and nowhere else. *)
From Verif Require Import Base BaseLemmas Time Utf8 Base64 Url Json Oracles ConfigLex ConfigParse Config Located Dump State Http
  Timers Server Startup Log SpecServer SpecDump SpecRestore SpecSecrets Secrets SpecClients Clients DumpLemmas ClientFacts
  Scenario Runs Cases Props4 Props14.

(** Two servers whose configurations differ in client secrets only start alike. *)
Theorem C90_start s c hp hsp pk : other_clients s (init_world c hp hsp pk) (init_world (swap_config s c) hp hsp pk).
Proof. exact (sw_start s c hp hsp pk). Qed.
Print Assumptions C90_start.

(** Whatever one does, the other does, up to the secrets. *)
Theorem C90_step s O w1 w2 l1 l2 :
  one_to_one s -> cipher_uniform O -> other_clients s w1 w2 -> other_label s O l1 l2 ->
  match step O w1 l1, step O w2 l2 with
  | SNext v1, SNext v2 => other_clients s v1 v2
  | SStuck, SStuck | SPanic, SPanic => True
  | _, _ => False
  end.
Proof. exact (fun I CU W L => sw_step s I O w1 w2 l1 l2 CU L W). Qed.
Print Assumptions C90_step.

(** What the outside sees of two runs agrees, but for the secrets in posts to
    token servers and in encrypted dumps. *)
Theorem C90_traces s O ls1 ls2 w1 w2 v1 :
  one_to_one s -> cipher_uniform O -> other_clients s w1 w2 -> Forall2 (other_label s O) ls1 ls2 ->
  run O w1 ls1 = Some (SNext v1) ->
  exists v2, run O w2 ls2 = Some (SNext v2)
             /\ map hide_obs (w_trace v2) = map hide_obs (map (swap_obs s) (w_trace v1)).
Proof.
  intros I CU W F R. pose proof (sw_run s I O ls1 ls2 CU F w1 w2 W) as X. rewrite R in X.
  destruct (run O w2 ls2) as [[| |v2]|]; cbn in X; try contradiction.
  exists v2. split; [reflexivity|]. apply X.
Qed.
Print Assumptions C90_traces.

(** So do their logs. *)
Theorem C90_log s O ls1 ls2 w1 w2 :
  one_to_one s -> cipher_uniform O -> other_clients s w1 w2 ->
  Forall2 (fun a b => other_label s O (fst a) (fst b) /\ snd a = snd b) ls1 ls2 ->
  run_log O w1 ls1 = run_log O w2 ls2.
Proof. exact (fun I CU => sw_run_log s O I CU ls1 ls2 w1 w2). Qed.
Print Assumptions C90_log.

(** The dumps they answer with are such that the second can be given where the
    first is given to the first server. *)
Theorem C90_dumps s O w1 w2 e1 e2 txt1 txt2 :
  cipher_law O -> List.length (e_nonce e1) = 12%nat -> texts w1 -> texts w2 -> wall_ok e1 ->
  reachable O w1 -> reachable O w2 -> other_clients s w1 w2 -> other_env s O e1 e2 ->
  asked w1 e1 $"dump:" -> asked w2 e2 $"dump:" ->
  just_answers O w1 e1 $"dump:" txt1 -> just_answers O w2 e2 $"dump:" txt2 ->
  other_dump s O txt1 txt2.
Proof. exact (sw_dumps s O w1 w2 e1 e2 txt1 txt2). Qed.
Print Assumptions C90_dumps.

(** Files that differ in the values of [client_secret] only: if one is accepted,
    so is the other, and the configurations differ in the secrets only. *)
Theorem C90_file s O h t1 t2 c :
  other_file s t1 t2 -> from_str O h t1 = Val c -> from_str O h t2 = Val (swap_config s c).
Proof. exact (sw_file s O h t1 t2 c). Qed.
Print Assumptions C90_file.

(** * Cases *)

(** The other secrets: "secret" is prolonged, everything else too. *)
Definition longer (x : str) : str := "!"%char :: x.

Lemma longer_one_to_one : one_to_one longer.
Proof. intros x y E. injection E as E. exact E. Qed.

(** What the files below are read as. *)
Definition lexed (t : str) : list lexeme := match lexemes t with Some l => l | None => [] end.

Definition tops (t : str) : list located :=
  match l_toplevels (List.length (lexed t)) (lexed t) with Some l => l | None => [] end.

Ltac files_differ :=
  match goal with |- other_file _ ?t1 ?t2 => exists (lexed t1), (lexed t2), (tops t1), (tops t2) end;
  split; [vm_compute; reflexivity|]; split; [vm_compute; reflexivity|];
  split; [vm_compute; reflexivity|]; split; [vm_compute; reflexivity|];
  match goal with |- Forall2 _ ?a ?b => let x := eval vm_compute in a in let y := eval vm_compute in b in
    change (Forall2 (other_top longer) x y) end;
  repeat first [apply Forall2_nil|apply Forall2_cons|split];
  cbn [fst snd other_field lt_top]; first [reflexivity|eexists; split; reflexivity|eexists; reflexivity].

Definition conf_secret (x : str) : str :=
  $"account " ++ Scenario.q ++ $"a" ++ Scenario.q ++ $" { auth_uri = " ++ Scenario.q ++ $"https://auth.example/a" ++ Scenario.q
  ++ $"; client_id = " ++ Scenario.q ++ $"id" ++ Scenario.q ++ $"; client_secret = " ++ Scenario.q ++ x ++ Scenario.q
  ++ $"; token_uri = " ++ Scenario.q ++ $"https://token.example/t" ++ Scenario.q ++ $"; }".

Definition secret_run : list label :=
  authorise $"Rtok" ++ ask $"refresh:withurl a" 1020 2 ++ [LTick 5 (tick (sec 1021))]
  ++ [LTick 5 (Scenario.posted (PRBody $"Rnew") (tick (sec 1022)))].

Lemma same_file_label O l :
  (forall tid e, l = LTick tid e -> e_file e = None /\ forall req, e_client e = Some req -> starts_with $"restore:" req = false) ->
  other_label longer O l l.
Proof.
  intros H. destruct l as [tid e|h b]; [|constructor]. destruct (H tid e eq_refl) as [HF HC]. constructor. constructor; try reflexivity.
  - left. split; [reflexivity|exact HC].
  - unfold config_from_path. rewrite HF. reflexivity.
Qed.

Example C90_case :
  one_to_one longer /\ cipher_uniform toy /\ other_file longer (conf_secret $"abc") (conf_secret $"!abc")
  /\ from_str toy (fun _ => 0%N) (conf_secret $"abc") = Val (conf_of (conf_secret $"abc"))
  /\ other_clients longer (start (conf_secret $"abc")) (start (conf_secret $"!abc"))
  /\ Forall2 (other_label longer toy) secret_run secret_run
  /\ last (w_trace (after (start (conf_secret $"abc")) secret_run)) OShutdown
     = OPost $"https://token.example/t"
         [($"client_id", $"id"); ($"refresh_token", $"r"); ($"grant_type", $"refresh_token"); ($"client_secret", $"abc")]
         (PRBody $"Rnew")
  /\ last (w_trace (after (start (conf_secret $"!abc")) secret_run)) OShutdown
     = OPost $"https://token.example/t"
         [($"client_id", $"id"); ($"refresh_token", $"r"); ($"grant_type", $"refresh_token"); ($"client_secret", $"!abc")]
         (PRBody $"Rnew").
Proof.
  split; [exact longer_one_to_one|]. split; [intros n p p' H; discriminate H|].
  split.
  { files_differ. }
  split; [vm_compute; reflexivity|].
  split.
  { assert (conf_of (conf_secret $"!abc") = swap_config longer (conf_of (conf_secret $"abc"))) as E by (vm_compute; reflexivity).
    unfold start. rewrite E. apply C90_start. }
  split; [|compute_all].
  unfold secret_run. cbn [authorise ask app many repeat].
  repeat (apply Forall2_cons; [apply same_file_label; intros tid e E; first [discriminate E|
    injection E as _ <-; split; [reflexivity|intros req R; first [discriminate R|injection R as <-; reflexivity]]]|]).
  apply Forall2_nil.
Qed.

Example C90_log_case :
  Forall2 (fun a b => other_label longer toy (fst a) (fst b) /\ snd a = snd b) (until_lost $"Rtok") (until_lost $"Rtok")
  /\ run_log toy (start (conf_secret $"abc")) (until_lost $"Rtok") = [(LInfo, $"Permanent refresh error for a: 400: no")].
Proof.
  split; [|vm_compute; reflexivity]. unfold until_lost. cbn [authorise ask app many repeat map].
  repeat (apply Forall2_cons; [split; [|reflexivity]; cbn [fst]; apply same_file_label; intros tid e E; first [discriminate E|
    injection E as _ <-; split; [reflexivity|intros req R; first [discriminate R|injection R as <-; reflexivity]]]|]).
  apply Forall2_nil.
Qed.

(** After that, a reload of a file that has another secret again, a dump, and its
    restoration: the requests of the second server's clients correspond. *)
Definition dump_of (w : world) : str :=
  match auth_dump toy (w_lk w) (e_clk dump_env) (e_hash dump_env) (e_nonce dump_env) with Val t => t | _ => [] end.

Ltac secret_texts :=
  constructor;
  [vm_compute; reflexivity
  |let I := fresh in intros n ts (e0 & I & <- & _); vm_compute in I; destruct I as [<-|[]]; split; vm_compute; reflexivity
  |let C := fresh in intros n act C; unfold configured in C; apply lookup_in in C; vm_compute in C;
   destruct C as [C|[]]; injection C as _ <-; cbn [a_auth_uri a_auth_uri_fields a_client_id a_client_secret
      a_redirect_uri a_scopes a_token_uri];
   split; [split; vm_compute; reflexivity|]; split; [constructor|]; split; [vm_compute; reflexivity|];
   split; [split; vm_compute; reflexivity|]; split; [intros x [= <-]; split; vm_compute; reflexivity|];
   split; [split; vm_compute; reflexivity|]; split; [constructor|]; split; [vm_compute; reflexivity|];
   split; vm_compute; reflexivity
  |let I := fresh in let T := fresh in intros n a (e0 & I & <- & T); vm_compute in I; destruct I as [<-|[]]; cbn [d_ts] in T;
   injection T as <-; split; [split; vm_compute; reflexivity|]; intros x [= <-]; split; vm_compute; reflexivity].

Example C90_dump_case :
  let w1 := after (start (conf_secret $"abc")) secret_run in
  let w2 := after (start (conf_secret $"!abc")) secret_run in
  reachable toy w1 /\ reachable toy w2 /\ texts w1 /\ texts w2 /\ wall_ok dump_env /\ List.length (e_nonce dump_env) = 12%nat
  /\ other_env longer toy dump_env dump_env /\ asked w1 dump_env $"dump:" /\ asked w2 dump_env $"dump:"
  /\ just_answers toy w1 dump_env $"dump:" (dump_of w1) /\ just_answers toy w2 dump_env $"dump:" (dump_of w2)
  /\ dump_of w1 <> dump_of w2
  /\ other_dump longer toy (dump_of w1) (dump_of w2)
  /\ other_label longer toy (LTick 0 (restore_env (dump_of w1))) (LTick 0 (restore_env (dump_of w2)))
  /\ other_label longer toy (LTick 0 (client $"reload:" (file (conf_secret $"new") (tick 0))))
                            (LTick 0 (client $"reload:" (file (conf_secret $"!new") (tick 0)))).
Proof.
  cbv zeta.
  assert (other_dump longer toy (dump_of (after (start (conf_secret $"abc")) secret_run))
                                (dump_of (after (start (conf_secret $"!abc")) secret_run))) as D
    by (split; vm_compute; reflexivity).
  split; [reach_after|]. split; [reach_after|]. split; [secret_texts|]. split; [secret_texts|].
  split; [intros k; split; vm_compute; discriminate|]. split; [vm_compute; reflexivity|].
  split; [constructor; lazymatch goal with
      | |- other_request _ _ _ _ => left; split; [reflexivity|intros req E; injection E as <-; reflexivity]
      | |- _ => reflexivity end|].
  split; [unfold asked; compute_all|]. split; [unfold asked; compute_all|].
  split; [vm_compute; reflexivity|]. split; [vm_compute; reflexivity|]. split; [vm_compute; discriminate|].
  split; [exact D|]. split.
  - constructor. constructor; try reflexivity. right. do 2 eexists. split; [reflexivity|]. split; [reflexivity|exact D].
  - constructor. constructor;
      lazymatch goal with
      | |- other_config _ _ _ => idtac
      | |- _ = _ => reflexivity
      | |- _ => left; split; [reflexivity|intros req E; injection E as <-; reflexivity]
      end.
    vm_compute. reflexivity.
Qed.

(** * What is not so *)

(** A file that sets [client_secret] twice is refused with a text that quotes the
    line, and with it the secret; the text goes to whoever asked for the reload. *)
Definition twice (x : str) : str :=
  $"account " ++ Scenario.q ++ $"a" ++ Scenario.q ++ $" {" ++ [nl] ++ $"client_secret = " ++ Scenario.q ++ x ++ Scenario.q ++ $";" ++ [nl]
  ++ $"client_secret = " ++ Scenario.q ++ x ++ Scenario.q ++ $"; }".

Theorem C90_error_text_refuted :
  exists s t1 t2 w e1 e2 v1 v2,
    one_to_one s /\ other_file s t1 t2 /\ reachable toy w
    /\ e1 = client $"reload:" (file t1 (tick 0)) /\ e2 = client $"reload:" (file t2 (tick 0))
    /\ run toy w [LTick 0 e1; LTick 0 e1] = Some (SNext v1) /\ run toy w [LTick 0 e2; LTick 0 e2] = Some (SNext v2)
    /\ last (w_trace v1) OShutdown <> last (w_trace v2) OShutdown
    /\ exists line, last (w_trace v1) OShutdown = OReply $"reload:" ($"error:" ++ line)
                    /\ exists a b, line = a ++ $"hush" ++ b.
Proof.
  exists longer, (twice $"hush"), (twice $"!hush"), (start conf1). do 4 eexists.
  split; [exact longer_one_to_one|]. split.
  { files_differ. }
  split; [reach_start|]. split; [reflexivity|]. split; [reflexivity|].
  split; [vm_compute; reflexivity|]. split; [vm_compute; reflexivity|].
  split; [vm_compute; discriminate|].
  exists ($"Line 3, column 17:" ++ [nl] ++ $"  client_secret = " ++ Scenario.q ++ $"hush" ++ Scenario.q ++ $"; }" ++ [nl]
          ++ $"Mustn't specify 'client_secret' more than once").
  split; [vm_compute; reflexivity|].
  exists ($"Line 3, column 17:" ++ [nl] ++ $"  client_secret = " ++ Scenario.q),
    (Scenario.q ++ $"; }" ++ [nl] ++ $"Mustn't specify 'client_secret' more than once").
  reflexivity.
Qed.
Print Assumptions C90_error_text_refuted.
