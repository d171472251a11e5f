(** What happens if threads cannot be started. *)
From Verif Require Import Base BaseLemmas Time Utf8 Base64 Url Json Oracles Config Dump State Http Timers Server
  StateLemmas SpecServer Steps Inv Reach Own Trace SpecTimers SpecSessions SpecStatus Locks SpecLocks LockLemmas Sessions CommandLemmas Spawn SpecSpawn.

Lemma dead_in f tid : is_dead f tid = true <-> lost f tid.
Proof.
  unfold is_dead, lost. rewrite existsb_exists. split.
  - intros (x & I & E). apply Nat.eqb_eq in E as ->. exact I.
  - intros I. exists tid. split; [exact I|apply Nat.eqb_refl].
Qed.

(** One step, by what happens. *)
Inductive xkind (O : oracles) (f : frail) : frail -> Prop :=
| xk_step l w' :
    step O (x_world f) l = SNext w' -> (forall tid e, l = LTick tid e -> ~ lost f tid) ->
    (forall tid e p, l = LTick tid e -> nth_error (w_threads (x_world f)) tid = Some p ->
       x_poison f = true -> takes_state O p (e_client e) = false) ->
    xkind O f (mkFrail w' (x_dead f) (x_poison f) (x_deaf f) (x_down f))
| xk_break tid e p :
    nth_error (w_threads (x_world f)) tid = Some p -> step O (x_world f) (LTick tid e) = SPanic ->
    xkind O f (panics f tid true)
| xk_poison tid e p :
    nth_error (w_threads (x_world f)) tid = Some p -> ~ lost f tid -> x_poison f = true ->
    takes_state O p (e_client e) = true -> xkind O f (panics f tid false)
| xk_refused tid p :
    nth_error (w_threads (x_world f)) tid = Some p -> ~ lost f tid -> starts (x_world f) p = true ->
    xkind O f (panics f tid (starts_locked p))
| xk_deaf https :
    xkind O f (mkFrail (x_world f) (x_dead f) (x_poison f) (fun h => Bool.eqb h https || x_deaf f h) (x_down f)).

Lemma xstep_kind O f l f' : xstep O f l = Some f' -> up f /\ xkind O f f'.
Proof.
  unfold xstep. destruct (x_down f || negb (w_alive (x_world f))) eqn:UP; [discriminate|].
  apply orb_false_iff in UP as [DN AL]. apply negb_false_iff in AL. intros H. split; [split; assumption|].
  destruct l as [[tid e|https bytes]|tid|https].
  - destruct (nth_error (w_threads (x_world f)) tid) as [p|] eqn:N; [|discriminate H].
    destruct (is_dead f tid) eqn:D; [discriminate H|].
    assert (~ lost f tid) as ND by (rewrite <- dead_in, D; discriminate).
    destruct (x_poison f && takes_state O p (e_client e)) eqn:PO.
    + apply andb_true_iff in PO as [P1 P2]. injection H as <-. eapply xk_poison; eassumption.
    + destruct (step O (x_world f) (LTick tid e)) as [| |w'] eqn:S; cbn in H; try discriminate H; injection H as <-.
      * eapply xk_break; eassumption.
      * eapply xk_step; [exact S| |].
        -- intros t e' [= <- <-]. exact ND.
        -- intros t e' p' [= <- <-] N' P. rewrite N in N'. injection N' as <-. rewrite P in PO. exact PO.
  - destruct (x_deaf f https); [discriminate H|].
    destruct (step O (x_world f) (LHttpConn https bytes)) as [| |w'] eqn:S; cbn in H; try discriminate H; injection H as <-.
    eapply xk_step; [exact S|discriminate|discriminate].
  - destruct (nth_error (w_threads (x_world f)) tid) as [p|] eqn:N; [|discriminate H].
    destruct (is_dead f tid) eqn:D; [discriminate H|].
    assert (~ lost f tid) as ND by (rewrite <- dead_in, D; discriminate).
    destruct (starts (x_world f) p) eqn:ST; [|discriminate H]. injection H as <-. eapply xk_refused; eassumption.
  - destruct (_ && _) in H; [|discriminate H]. injection H as <-. apply xk_deaf.
Qed.

(** Whatever fails, the server is in a state it could be in without failures. *)
Lemma frail_world O f : frail_reachable O f -> reachable O (x_world f).
Proof.
  induction 1 as [e c hp hsp pk C|f l f' R IH S]; [apply (reach_init _ _ _ _ _ _ C)|].
  destruct (xstep_kind _ _ _ _ S) as [_ K]. destruct K as [l0 w' E _ _|tid e p N E|tid e p N ND P T|tid p N ND ST|https];
    cbn [x_world panics]; try exact IH. exact (reach_step _ _ _ _ IH E).
Qed.

Lemma leads_reach O f f' : frail_reachable O f -> leads O f f' -> frail_reachable O f'.
Proof. intros R L. induction L as [f|f l f1 f2 S L IH]; [exact R|]. apply IH. exact (xr_step _ _ _ _ R S). Qed.

(** Who has panicked does nothing any more. *)
Lemma lost_step O f l f' tid :
  frail_reachable O f -> xstep O f l = Some f' -> lost f tid ->
  lost f' tid /\ forall p, nth_error (w_threads (x_world f)) tid = Some p -> nth_error (w_threads (x_world f')) tid = Some p.
Proof.
  intros R S D. destruct (xstep_kind _ _ _ _ S) as [_ K].
  destruct K as [l0 w' E NL _|t e p N E|t e p N ND P T|t p N ND ST|https]; unfold lost in *; cbn [x_dead x_world panics];
    try (split; [right; exact D || exact D|intros q Q; exact Q]; fail); try (split; [exact D|intros q Q; exact Q]; fail).
  split; [exact D|]. intros p N.
  destruct (step_ok _ _ _ _ (reach_inv _ _ (frail_world _ _ R)) E) as (_ & _ & T & _).
  eapply tstep_other; [exact T| |exact N]. intros e -> . exact (NL _ _ eq_refl D).
Qed.

Lemma lost_for_good O f f' tid :
  frail_reachable O f -> leads O f f' -> lost f tid ->
  lost f' tid /\ forall p, nth_error (w_threads (x_world f)) tid = Some p -> nth_error (w_threads (x_world f')) tid = Some p.
Proof.
  intros R L. induction L as [f|f l f1 f2 S L IH]; intros D; [split; [exact D|intros p N; exact N]|].
  destruct (lost_step _ _ _ _ _ R S D) as [D1 K1]. destruct (IH (xr_step _ _ _ _ R S) D1) as [D2 K2].
  split; [exact D2|]. intros p N. apply K2, K1, N.
Qed.

(** ** Which threads start others *)

Definition fits (r : role) (a : action) : bool :=
  match a with
  | ASpawnRefresh _ => match r with RoMain | RoRefresher => true | _ => false end
  | AEmit (OAuthCmd _ _ _) => match r with RoNotifier => true | _ => false end
  | _ => true
  end.

Definition in_character (p : pc) : bool := forallb (fits (pc_role p)) (will_do p).

Lemma fits_emit l : in_character (emit_cmds l PNtTop) = true.
Proof.
  unfold in_character. rewrite role_emit_cmds. induction l as [|[[n c] u] l IH]; [reflexivity|]. exact IH.
Qed.

Lemma fits_spawn l : in_character (spawn_all l PRfTop) = true.
Proof. unfold in_character. rewrite role_spawn_all. induction l as [|i l IH]; [reflexivity|]. exact IH. Qed.

Lemma csr_in_character O w e p lk' p' os : csr O w e p lk' p' os -> in_character p' = true.
Proof.
  intros C. destruct C; try reflexivity; try apply fits_emit; try apply fits_spawn.
  - destruct (e_post e); try reflexivity. simpl. destruct (is_transient k); reflexivity.
  - unfold ref_body_next. destruct (o_json O body) as [v|m]; [|reflexivity].
    destruct (json_str $"error" v); [reflexivity|].
    destruct (json_str $"access_token" v); [|reflexivity].
    destruct (json_u64 $"expires_in" v); [|reflexivity].
    destruct (json_str $"token_type" v) as [ty|]; [|reflexivity].
    destruct (str_eqb ty $"Bearer"); reflexivity.
  - destruct (e_post e); try reflexivity. simpl. destruct tries as [|[|n]]; reflexivity.
  - destruct wa; reflexivity.
  - destruct wa; reflexivity.
Qed.

Lemma reach_in_character O w : reachable O w -> Forall (fun p => in_character p = true) (w_threads w).
Proof.
  apply (reach_ind O (fun w => Forall (fun p => in_character p = true) (w_threads w))).
  - intros. cbn. repeat constructor.
  - intros w0 l w' R _ _ _ IH _ T. destruct T as [tid e p lk' p' os N C|tid e p w' N S|https bytes P].
    + cbn. apply forall_list_set; [exact IH|eapply csr_in_character; exact C].
    + assert (in_character p = true) as CP by (rewrite Forall_forall in IH; apply IH; eapply nth_error_In; exact N).
      destruct S; try (cbn; apply forall_list_set; [exact IH|reflexivity]).
      assert (in_character k = true) as CK.
      { unfold in_character in *. cbn in CP. apply andb_true_iff in CP as [_ CP]. exact CP. }
      destruct a; cbn; try (apply forall_list_set; assumption).
      apply Forall_app. split; [apply forall_list_set; assumption|repeat constructor].
    + cbn. apply Forall_app. split; [exact IH|repeat constructor].
Qed.

Lemma thread_in_character O w tid p : reachable O w -> nth_error (w_threads w) tid = Some p -> in_character p = true.
Proof.
  intros R N. pose proof (reach_in_character _ _ R) as F. rewrite Forall_forall in F. apply F. eapply nth_error_In. exact N.
Qed.

(** ** Who is lost, and to what *)

Lemma lost_inv O f :
  frail_reachable O f -> x_down f = false ->
  forall tid, lost f tid -> tid <> 0 /\ (x_poison f = true \/ refused f tid).
Proof.
  intros R. induction R as [e c hp hsp pk C|f l f' R IH S]; [intros _ tid []|].
  destruct (xstep_kind _ _ _ _ S) as [[UD _] K]. intros D tid L.
  assert (lost f tid -> tid <> 0 /\ (x_poison f' = true \/ refused f' tid)) as OLD.
  { intros L0. destruct (IH UD tid L0) as [NZ [P|RF]].
    - split; [exact NZ|left]. destruct K; cbn; rewrite ?P; reflexivity.
    - split; [exact NZ|right]. destruct (lost_step _ _ _ _ _ R S L0) as [_ KP].
      destruct RF as [(-> & cmd & n & u & k & N)|(-> & i & k & N)]; [left|right]; (split; [reflexivity|]);
        repeat eexists; apply KP; exact N. }
  pose proof (frail_world _ _ R) as RW. destruct (reach_roles _ _ RW) as [LEN RO].
  destruct K as [l0 w' E NL _|t e p N E|t e p N ND P T|t p N ND ST|https]; cbn in *; try (exact (OLD L)).
  - destruct L as [<-|L]; [|exact (OLD L)]. destruct t as [|t]; [discriminate D|].
    split; [discriminate|left]. apply orb_true_r.
  - destruct L as [<-|L]; [|exact (OLD L)]. destruct t as [|t]; [discriminate D|].
    split; [discriminate|left]. rewrite P. reflexivity.
  - destruct L as [<-|L]; [|exact (OLD L)]. destruct t as [|t]; [discriminate D|].
    split; [discriminate|]. pose proof (thread_in_character _ _ _ _ RW N) as CH. pose proof (RO _ _ N) as RL.
    destruct p; try discriminate ST; cbn [starts_locked].
    + right. destruct a as [| | | |i|o|]; try discriminate ST.
      * apply andb_true_iff in CH as [CH _]. cbn in CH, RL. rewrite RL in CH.
        right. destruct t as [|[|[|t]]]; try discriminate CH. split; [reflexivity|]. exists i, p. exact N.
      * destruct o; try discriminate ST. apply andb_true_iff in CH as [CH _]. cbn in CH, RL. rewrite RL in CH.
        left. destruct t as [|[|[|t]]]; try discriminate CH. split; [reflexivity|]. repeat eexists. exact N.
    + left. apply orb_true_r.
Qed.

(** Without [error_notify_cmd] the mutex is never poisoned. *)
Lemma poison_inv O f :
  frail_reachable O f -> x_down f = false -> x_poison f = true ->
  exists c, In (OConfig c) (w_trace (x_world f)) /\ c_error_notify_cmd c <> None.
Proof.
  intros R. induction R as [e c hp hsp pk C|f l f' R IH S]; [discriminate|].
  destruct (xstep_kind _ _ _ _ S) as [[UD _] K]. intros D P'. pose proof (frail_world _ _ R) as RW.
  destruct (reach_roles _ _ RW) as [LEN RO].
  destruct K as [l0 w' E NL _|t e p N E|t e p N ND P T|t p N ND ST|https]; cbn in *; try (apply IH; assumption).
  - destruct (IH UD P') as (c & I & NN). exists c. split; [|exact NN].
    destruct (step_ok _ _ _ _ (reach_inv _ _ RW) E) as (_ & _ & T & _).
    destruct (tstep_trace _ _ _ _ T) as (os & ->). apply in_or_app. left. exact I.
  - exfalso. pose proof (panics_only _ _ _ RW E) as B. inversion B as [t0 e0 k e1 A NM CL ND SF]; subst.
    rewrite N in NM. injection NM as ->. pose proof (RO _ _ N) as RL. cbn in RL.
    destruct t as [|[|[|[|t]]]]; try discriminate RL. discriminate D.
  - destruct (x_poison f) eqn:P; [apply IH; [exact UD|reflexivity]|]. cbn in P'.
    destruct p; try discriminate P'. cbn in ST. exists (lconfig (w_lk (x_world f))).
    split; [eapply current_config; exact RW|]. intros X. rewrite X in ST. discriminate ST.
Qed.

(** ** Those that are left go on as before *)

Lemma others_go_on O f tid e w' :
  up f -> x_poison f = false -> ~ lost f tid -> step O (x_world f) (LTick tid e) = SNext w' ->
  xstep O f (XStep (LTick tid e)) = Some (mkFrail w' (x_dead f) false (x_deaf f) false).
Proof.
  intros [D A] P NL S. unfold xstep. rewrite D, A. cbn [orb negb].
  destruct (nth_error (w_threads (x_world f)) tid) as [p|] eqn:N.
  2:{ unfold step in S. rewrite A, N in S. discriminate S. }
  destruct (is_dead f tid) eqn:DE; [apply dead_in in DE; contradiction|]. rewrite P. cbn [andb].
  rewrite S. cbn. rewrite P, D. reflexivity.
Qed.

Lemma main_goes_on O f e req :
  frail_reachable O f -> up f -> x_poison f = false ->
  nth_error (w_threads (x_world f)) 0 = Some PMain -> e_client e = Some req -> ~ breaks_down O (x_world f) (LTick 0 e) ->
  exists w', step O (x_world f) (LTick 0 e) = SNext w'
    /\ xstep O f (XStep (LTick 0 e)) = Some (mkFrail w' (x_dead f) false (x_deaf f) false).
Proof.
  intros R U P N C NB. pose proof (frail_world _ _ R) as RW. destruct (reach_roles _ _ RW) as [LEN _].
  destruct (enabled_or_waiting O (x_world f) 0 e RW (proj2 U) ltac:(lia) NB) as [[_ L]|[Wt|(w' & S)]]; [lia| |].
  - inversion Wt as [N0 C0| | |]. congruence.
  - exists w'. split; [exact S|]. apply others_go_on; try assumption.
    intros L. destruct (lost_inv _ _ R (proj1 U) 0 L) as [NZ _]. apply NZ. reflexivity.
Qed.

(** ** A poisoned mutex *)

Lemma poison_fatal O f e req :
  frail_reachable O f -> up f -> x_poison f = true ->
  nth_error (w_threads (x_world f)) 0 = Some PMain -> e_client e = Some req -> request_locks req = true ->
  exists f', xstep O f (XStep (LTick 0 e)) = Some f' /\ x_down f' = true.
Proof.
  intros R [D A] P N C RL. exists (panics f 0 false). split; [|reflexivity].
  unfold xstep. rewrite D, A, N. cbn [orb negb].
  destruct (is_dead f 0) eqn:DE.
  { apply dead_in in DE. destruct (lost_inv _ _ R D 0 DE) as [NZ _]. exfalso. apply NZ. reflexivity. }
  rewrite P. unfold takes_state, locks. rewrite C, RL. reflexivity.
Qed.

Lemma poison_freezes O f f' :
  frail_reachable O f -> leads O f f' -> x_poison f = true ->
  x_poison f' = true /\ w_lk (x_world f') = w_lk (x_world f).
Proof.
  intros R L. induction L as [f|f l f1 f2 S L IH]; intros P; [auto|].
  assert (x_poison f1 = true /\ w_lk (x_world f1) = w_lk (x_world f)) as [P1 E1].
  { destruct (xstep_kind _ _ _ _ S) as [[_ A] K].
    destruct K as [l0 w' E NL NT|t e p N E|t e p N ND PP T|t p N ND ST|https]; cbn; rewrite ?P; auto.
    split; [reflexivity|]. unfold step in E. rewrite A in E. cbn [negb] in E. destruct l0 as [tid e|https bytes].
    - destruct (nth_error (w_threads (x_world f)) tid) as [p|] eqn:N; [|discriminate E].
      specialize (NT tid e p eq_refl N P). unfold takes_state in NT.
      apply (unlocked_keeps O _ tid p e LkState w'); [|exact E].
      destruct (locks O p (e_client e)) as [[]|]; discriminate NT || discriminate.
    - destruct (is_some _); [|discriminate E]. injection E as <-. reflexivity. }
  destruct (IH (xr_step _ _ _ _ R S) P1) as [P2 E2]. split; [exact P2|congruence].
Qed.

(** Without failures nothing changes. *)
Lemma frail_of O w : reachable O w -> frail_reachable O (frail_start w).
Proof.
  induction 1 as [e c hp hsp pk C|w l w' R IH S]; [exact (xr_start _ _ _ _ _ _ C)|].
  apply (xr_step _ _ (XStep l) _ IH).
  destruct (step_ok _ _ _ _ (reach_inv _ _ R) S) as (_ & _ & _ & A).
  destruct l as [tid e|https bytes].
  - apply (others_go_on O (frail_start w)); [split; [reflexivity|exact A]|reflexivity|intros []|exact S].
  - unfold xstep. cbn [frail_start x_down x_world x_deaf orb]. rewrite A. cbn [negb]. rewrite S. reflexivity.
Qed.

(** Once no thread could be started for a browser no browser is let in again. *)
Lemma deaf_for_good O f f' https :
  leads O f f' -> x_deaf f https = true ->
  x_deaf f' https = true /\ forall bytes, xstep O f' (XStep (LHttpConn https bytes)) = None.
Proof.
  intros L. induction L as [f|f l f1 f2 S L IH]; intros D.
  - split; [exact D|]. intros bytes. unfold xstep. rewrite D. destruct (_ || _); reflexivity.
  - apply IH. destruct (xstep_kind _ _ _ _ S) as [_ K]. destruct K; cbn; rewrite ?D; try reflexivity. apply orb_true_r.
Qed.

(** Who does not need the poisoned mutex goes on. *)
Lemma unconcerned_go_on O f tid e p w' :
  up f -> ~ lost f tid -> nth_error (w_threads (x_world f)) tid = Some p -> locks O p (e_client e) <> Some LkState ->
  step O (x_world f) (LTick tid e) = SNext w' ->
  xstep O f (XStep (LTick tid e)) = Some (mkFrail w' (x_dead f) (x_poison f) (x_deaf f) false).
Proof.
  intros [D A] NL N LK S. unfold xstep. rewrite D, A, N. cbn [orb negb].
  destruct (is_dead f tid) eqn:DE; [apply dead_in in DE; contradiction|].
  assert (takes_state O p (e_client e) = false) as ->.
  { unfold takes_state. destruct (locks O p (e_client e)) as [[]|]; try reflexivity. exfalso. apply LK. reflexivity. }
  rewrite andb_false_r, S. cbn. rewrite D. reflexivity.
Qed.

(** The process ends with the main thread and with no other. *)
Lemma down_inv O f : frail_reachable O f -> x_down f = true -> lost f 0.
Proof.
  intros R. induction R as [e c hp hsp pk C|f l f' R IH S]; [discriminate|].
  destruct (xstep_kind _ _ _ _ S) as [[UD _] K]. intros D. unfold lost.
  destruct K as [l0 w' E NL _|t e p N E|t e p N ND P T|t p N ND ST|https]; cbn in *; try congruence;
    (destruct t as [|t]; [left; reflexivity|congruence]).
Qed.

(** Why the main thread is lost: [status] without a date, a poisoned mutex, or a
    refresh it was asked for. *)
Lemma down_why O f l f' :
  frail_reachable O f -> xstep O f l = Some f' -> x_down f' = true ->
  (exists e, l = XStep (LTick 0 e) /\ breaks_down O (x_world f) (LTick 0 e))
  \/ (x_poison f = true /\ exists e p, l = XStep (LTick 0 e) /\ nth_error (w_threads (x_world f)) 0 = Some p
        /\ locks O p (e_client e) = Some LkState)
  \/ (l = XNoThread 0 /\ exists i k, nth_error (w_threads (x_world f)) 0 = Some (PDo (ASpawnRefresh i) k)).
Proof.
  intros R S D. pose proof (frail_world _ _ R) as RW. destruct (reach_roles _ _ RW) as [LEN RO].
  pose proof (xstep_kind _ _ _ _ S) as [[UD AL] _]. unfold xstep in S. rewrite UD, AL in S. cbn [orb negb] in S.
  destruct l as [[tid e|https bytes]|tid|https].
  - destruct (nth_error (w_threads (x_world f)) tid) as [p|] eqn:N; [|discriminate S].
    destruct (is_dead f tid); [discriminate S|]. destruct (x_poison f && takes_state O p (e_client e)) eqn:PO.
    + apply andb_true_iff in PO as [P1 P2]. injection S as <-. cbn in D. destruct tid as [|tid]; [|congruence].
      right. left. split; [exact P1|]. exists e, p. split; [reflexivity|]. split; [exact N|].
      unfold takes_state in P2. destruct (locks O p (e_client e)) as [[]|]; try discriminate P2. reflexivity.
    + destruct (step O (x_world f) (LTick tid e)) as [| |w'] eqn:E; cbn in S; try discriminate S; injection S as <-; cbn in D.
      * destruct tid as [|tid]; [|congruence]. left. exists e. split; [reflexivity|]. exact (panics_only _ _ _ RW E).
      * congruence.
  - destruct (x_deaf f https); [discriminate S|].
    destruct (step O (x_world f) (LHttpConn https bytes)) as [| |w']; cbn in S; try discriminate S. injection S as <-. cbn in D. congruence.
  - destruct (nth_error (w_threads (x_world f)) tid) as [p|] eqn:N; [|discriminate S].
    destruct (is_dead f tid); [discriminate S|]. destruct (starts (x_world f) p) eqn:ST; [|discriminate S].
    injection S as <-. cbn in D. destruct tid as [|tid]; [|congruence]. right. right. split; [reflexivity|].
    pose proof (thread_in_character _ _ _ _ RW N) as CH. pose proof (RO _ _ N) as RL.
    destruct p; try discriminate ST; try discriminate RL.
    destruct a as [| | | |i|o|]; try discriminate ST; [exists i, p; exact N|].
    destruct o; try discriminate ST. apply andb_true_iff in CH as [CH _]. cbn in CH, RL. rewrite RL in CH. discriminate CH.
  - destruct (_ && _) in S; [|discriminate S]. injection S as <-. cbn in D. congruence.
Qed.
