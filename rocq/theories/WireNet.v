(** The server behind its sockets. *)
From Verif Require Import Base Utf8 Url Oracles Config Located Http State Server Wire.
From Verif Require Import BaseLemmas SpecHttp HttpLemmas SpecServer SpecSessions Steps Inv Reach Own Trace Pend Basic Dialog Sessions.
From Verif Require Import SpecWire WireLemmas.
From Coq Require Import Lia Permutation.

Lemma requests_app a b : requests (a ++ b) = requests a ++ requests b.
Proof. apply flat_map_app. Qed.
Lemma visits_app a b : visits (a ++ b) = visits a ++ visits b.
Proof. apply flat_map_app. Qed.

(** * What a step takes in *)

Definition intake (a : action) : Prop :=
  match a with AEmit (OClient _) | AEmit (OHttpIn _ _) => False | _ => True end.

Lemma reach_no_intake O w : reachable O w ->
  Forall (fun p => forall a, In a (chain p) -> intake a) (w_threads w).
Proof.
  revert w. apply (reach_ind O).
  - intros. repeat constructor; intros a [].
  - intros w l w' R I I' A F S T. eapply tstep_chain_inv; try eassumption.
    intros e p lk' p' os a C Ia. pose proof (csr_chain _ _ _ _ _ _ _ a C Ia) as X.
    destruct a; try exact Logic.I. destruct o; try exact Logic.I; exact X.
Qed.

Lemma csr_intake O w e p lk' p' os : csr O w e p lk' p' os ->
  visits os = [] /\ (p <> PMain -> requests os = [])
  /\ (p = PMain -> exists req, e_client e = Some req /\ requests os = [req]).
Proof.
  intros C. split.
  { destruct C; reflexivity. }
  split.
  - intros NM. destruct C; try congruence; reflexivity.
  - intros ->. inversion C; subst; eexists; split; try eassumption; reflexivity.
Qed.

Lemma step_intake O w l w' : reachable O w -> step O w l = SNext w' ->
  exists os, w_trace w' = w_trace w ++ os
  /\ match l with
     | LHttpConn h b => requests os = [] /\ visits os = [(h, b)]
     | LTick tid e =>
         visits os = []
         /\ (nth_error (w_threads w) tid = Some PMain -> exists req, e_client e = Some req /\ requests os = [req])
         /\ (nth_error (w_threads w) tid <> Some PMain -> requests os = [])
     end.
Proof.
  intros R S. destruct (step_ok _ _ _ _ (reach_inv _ _ R) S) as (_ & _ & T & _).
  pose proof (reach_no_intake O w R) as F. rewrite Forall_forall in F.
  destruct T as [tid e p lk' p' os N C|tid e p w' N SY|https bytes P].
  - exists os. split; [reflexivity|]. destruct (csr_intake _ _ _ _ _ _ _ C) as (V & NM & MM).
    split; [exact V|]. split.
    + intros E. apply MM. congruence.
    + intros E. apply NM. congruence.
  - destruct SY; try (exists []; split; [symmetry; apply app_nil_r|]; repeat split;
      intros E; try reflexivity; exfalso; congruence).
    exists (action_obs a). rewrite do_action_trace. split; [reflexivity|].
    specialize (F _ (nth_error_In _ _ N) a (or_introl eq_refl)).
    assert (visits (action_obs a) = [] /\ requests (action_obs a) = []) as [V Q].
    { destruct a; try (split; reflexivity). destruct o; try (split; reflexivity); destruct F. }
    repeat split; try assumption; intros E; [exfalso; congruence|exact Q].
  - exists [OHttpIn https bytes]. repeat split; reflexivity.
Qed.

(** * Every step of the whole is a step of the server or none *)

Lemma set_world_some s r s' : set_world s r = Some s' -> exists w, r = SNext w /\ s' = mkNet w (n_clients s) (n_next s) (n_browsers s).
Proof. destruct r; intros E; inversion E. eauto. Qed.

Inductive nstep (O : oracles) (s : net) : nlabel -> net -> Prop :=
| ns_client :
    nstep O s NClient (mkNet (n_world s) (n_clients s ++ [mkConn [] Open]) (n_next s) (n_browsers s))
| ns_client_sends n p ps :
    nth_error (n_clients s) n = Some (mkConn ps Open) ->
    nstep O s (NClientSends n p)
      (mkNet (n_world s) (list_set n (mkConn (ps ++ [p]) Open) (n_clients s)) (n_next s) (n_browsers s))
| ns_client_ends n f ps :
    nth_error (n_clients s) n = Some (mkConn ps Open) -> f <> Open ->
    nstep O s (NClientEnds n f)
      (mkNet (n_world s) (list_set n (mkConn ps f) (n_clients s)) (n_next s) (n_browsers s))
| ns_main_bad e ps :
    nth_error (w_threads (n_world s)) 0 = Some PMain ->
    nth_error (n_clients s) (n_next s) = Some (mkConn ps Broken) ->
    nstep O s (NMain e) (mkNet (n_world s) (n_clients s) (S (n_next s)) (n_browsers s))
| ns_main e ps w' :
    nth_error (w_threads (n_world s)) 0 = Some PMain ->
    nth_error (n_clients s) (n_next s) = Some (mkConn ps Ended) ->
    step O (n_world s) (LTick 0 (with_client e (List.concat ps))) = SNext w' ->
    nstep O s (NMain e) (mkNet w' (n_clients s) (S (n_next s)) (n_browsers s))
| ns_browser (https : bool) :
    is_some (if https then w_https (n_world s) else w_http (n_world s)) = true ->
    nstep O s (NBrowser https)
      (mkNet (n_world s) (n_clients s) (n_next s) (n_browsers s ++ [mkBrowser https (mkConn [] Open) false]))
| ns_browser_sends n p h ps b :
    nth_error (n_browsers s) n = Some (mkBrowser h (mkConn ps Open) b) ->
    nstep O s (NBrowserSends n p)
      (mkNet (n_world s) (n_clients s) (n_next s)
         (list_set n (mkBrowser h (mkConn (ps ++ [p]) Open) b) (n_browsers s)))
| ns_browser_ends n f h ps b :
    nth_error (n_browsers s) n = Some (mkBrowser h (mkConn ps Open) b) -> f <> Open ->
    nstep O s (NBrowserEnds n f)
      (mkNet (n_world s) (n_clients s) (n_next s) (list_set n (mkBrowser h (mkConn ps f) b) (n_browsers s)))
| ns_read n h c bytes w' :
    nth_error (n_browsers s) n = Some (mkBrowser h c false) ->
    request_bytes O (mkBrowser h c false) = Some bytes ->
    step O (n_world s) (LHttpConn h bytes) = SNext w' ->
    nstep O s (NRead n) (mkNet w' (n_clients s) (n_next s) (list_set n (mkBrowser h c true) (n_browsers s)))
| ns_tick tid e w' :
    nth_error (w_threads (n_world s)) tid <> Some PMain ->
    step O (n_world s) (LTick tid e) = SNext w' ->
    nstep O s (NTick tid e) (mkNet w' (n_clients s) (n_next s) (n_browsers s)).

Lemma is_main_iff p : is_main p = true <-> p = Some PMain.
Proof. destruct p as [[]|]; cbn; split; intros H; try discriminate H; reflexivity. Qed.

Lemma net_step_iff O s l s' :
  net_step O s l = Some s' <-> w_alive (n_world s) = true /\ nstep O s l s'.
Proof.
  unfold net_step. destruct (w_alive (n_world s)); cbn [negb]; [|split; [discriminate|intros [X _]; discriminate X]].
  split.
  - intros E. split; [reflexivity|]. destruct l as [|n p|n f|e|https|n p|n f|n|tid e].
    + inversion E. constructor.
    + unfold update_client in E. destruct (nth_error (n_clients s) n) as [[ps f]|] eqn:N; [|discriminate E].
      unfold sends in E. cbn [c_fin c_in] in E. destruct f; try discriminate E. inversion E. econstructor. exact N.
    + unfold update_client in E. destruct (nth_error (n_clients s) n) as [[ps f0]|] eqn:N; [|discriminate E].
      unfold ends in E. cbn [c_fin c_in] in E.
      destruct f0; try discriminate E. destruct f; try discriminate E; inversion E; econstructor; try exact N; discriminate.
    + destruct (is_main (nth_error (w_threads (n_world s)) 0)) eqn:M; [|discriminate E]. apply is_main_iff in M.
      destruct (nth_error (n_clients s) (n_next s)) as [[ps f]|] eqn:N; [|discriminate E].
      rewrite read_to_end_is in E. cbn [c_fin c_in app] in E. destruct f; try discriminate E.
      * apply set_world_some in E. destruct E as (w' & S & ->). cbn [n_clients n_next n_browsers]. eapply ns_main; eassumption.
      * inversion E. eapply ns_main_bad; eassumption.
    + destruct (is_some _) eqn:P; [|discriminate E]. inversion E. constructor. exact P.
    + unfold update_browser in E. destruct (nth_error (n_browsers s) n) as [[h [ps f] b]|] eqn:N; [|discriminate E].
      unfold sends in E. cbn [b_conn c_fin c_in b_https b_read] in E. destruct f; try discriminate E. inversion E. econstructor. exact N.
    + unfold update_browser in E. destruct (nth_error (n_browsers s) n) as [[h [ps f0] b]|] eqn:N; [|discriminate E].
      unfold ends in E. cbn [b_conn c_fin c_in b_https b_read] in E.
      destruct f0; try discriminate E. destruct f; try discriminate E; inversion E; econstructor; try exact N; discriminate.
    + destruct (nth_error (n_browsers s) n) as [[h c b]|] eqn:N; [|discriminate E]. cbn [b_read] in E.
      destruct b; [discriminate E|]. destruct (request_bytes O _) as [bytes|] eqn:RB; [|discriminate E].
      apply set_world_some in E. destruct E as (w' & S & ->). cbn [n_clients n_next n_browsers]. eapply ns_read; eassumption.
    + destruct (is_main _) eqn:M; [discriminate E|].
      apply set_world_some in E. destruct E as (w' & S & ->). apply ns_tick; [|exact S].
      intros X. apply is_main_iff in X. congruence.
  - intros [_ H]. destruct H as [|n p ps N|n f ps N NF|e ps M N|e ps w' M N S|https P|n p h ps b N|n f h ps b N NF|n h c bytes w' N RB S|tid e w' NM S].
    + reflexivity.
    + unfold update_client. rewrite N. reflexivity.
    + unfold update_client. rewrite N. destruct f; [congruence|reflexivity|reflexivity].
    + rewrite M, N. cbn [is_main]. rewrite read_to_end_is. reflexivity.
    + rewrite M, N. cbn [is_main]. rewrite read_to_end_is. cbn [c_fin c_in app]. rewrite S. reflexivity.
    + rewrite P. reflexivity.
    + unfold update_browser. rewrite N. reflexivity.
    + unfold update_browser. rewrite N. destruct f; [congruence|reflexivity|reflexivity].
    + rewrite N. cbn [b_read]. rewrite RB. cbn [b_https]. rewrite S. reflexivity.
    + destruct (is_main _) eqn:M; [apply is_main_iff in M; congruence|]. rewrite S. reflexivity.
Qed.

Lemma refines_step O s l s' : net_step O s l = Some s' ->
  n_world s' = n_world s \/ exists l', step O (n_world s) l' = SNext (n_world s').
Proof.
  intros H. apply net_step_iff in H. destruct H as [_ H].
  destruct H; cbn [n_world]; eauto.
Qed.

Lemma refines O s : net_reachable O s -> reachable O (n_world s).
Proof.
  induction 1 as [e c hp hsp pk C|s l s' R IH S].
  - cbn. econstructor. exact C.
  - destruct (refines_step _ _ _ _ S) as [->|[l' S']]; [exact IH|]. eapply reach_step; eassumption.
Qed.

Lemma net_run_app O ls1 : forall s ls2,
  net_run O s (ls1 ++ ls2) = match net_run O s ls1 with Some s' => net_run O s' ls2 | None => None end.
Proof.
  induction ls1 as [|l ls1 IH]; intros s ls2; cbn; [reflexivity|].
  destruct (net_step O s l); [apply IH|reflexivity].
Qed.

Lemma net_run_reachable O ls : forall s s', net_reachable O s -> net_run O s ls = Some s' -> net_reachable O s'.
Proof.
  induction ls as [|l ls IH]; cbn; intros s s' R E.
  - inversion E. subst. exact R.
  - destruct (net_step O s l) as [s1|] eqn:S; [|discriminate E].
    eapply IH; [|exact E]. eapply nreach_step; eassumption.
Qed.

Lemma list_set_app {A} (l : list A) x y k : list_set (List.length l) y (l ++ x :: k) = l ++ y :: k.
Proof. induction l as [|z l IH]; cbn; [reflexivity|]. rewrite IH. reflexivity. Qed.
Lemma nth_error_last {A} (l : list A) x : nth_error (l ++ [x]) (List.length l) = Some x.
Proof. rewrite nth_error_app2 by lia. rewrite Nat.sub_diag. reflexivity. Qed.

Lemma with_client_id e req : e_client e = Some req -> with_client e req = e.
Proof. destruct e. cbn. intros ->. reflexivity. Qed.

(** Nothing the server can do is lost: whatever happens, it can happen through
    the sockets. *)
Lemma complete O w : reachable O w ->
  exists s, net_reachable O s /\ n_world s = w /\ n_next s = List.length (n_clients s).
Proof.
  induction 1 as [e c hp hsp pk C|w l w' R IH S].
  - exists (net_start (init_world c hp hsp pk)). repeat split. econstructor. exact C.
  - destruct IH as (s & NR & W & NX).
    assert (A : w_alive w = true) by (apply (step_ok _ _ _ _ (reach_inv _ _ R) S)).
    destruct l as [tid e|https bytes].
    + destruct (is_main (nth_error (w_threads w) tid)) eqn:M.
      * apply is_main_iff in M.
        assert (tid = 0) as ->.
        { pose proof (ro_pc _ (reach_roles _ _ R) _ _ M) as RO. destruct tid as [|[|[|[|tid]]]]; cbn in RO; congruence. }
        assert (exists req, e_client e = Some req) as [req EC].
        { unfold step in S. rewrite A, M in S. cbn in S. destruct (e_client e); [eauto|discriminate S]. }
        assert (exists s', net_run O s [NClient; NClientSends (List.length (n_clients s)) req;
                    NClientEnds (List.length (n_clients s)) Ended; NMain e] = Some s'
                  /\ n_world s' = w' /\ n_next s' = List.length (n_clients s')) as (s' & RN & W' & NX').
        { subst w. set (n := List.length (n_clients s)).
          eexists. split; [|split].
          - cbn [net_run].
            rewrite (proj2 (net_step_iff O s NClient _) (conj A (ns_client O s))).
            erewrite (proj2 (net_step_iff _ _ _ _)); [|split; [exact A|apply ns_client_sends; cbn [n_clients]; apply nth_error_last]].
            erewrite (proj2 (net_step_iff _ _ _ _));
              [|split; [exact A|apply ns_client_ends; [cbn [n_clients]; unfold n; rewrite list_set_app; apply nth_error_last|discriminate]]].
            erewrite (proj2 (net_step_iff _ _ _ _)); [reflexivity|].
            split; [exact A|]. eapply ns_main.
            + exact M.
            + cbn [n_clients n_next]. rewrite NX. unfold n. rewrite !list_set_app. apply nth_error_last.
            + cbn [n_world]. cbn [app List.concat]. rewrite app_nil_r, (with_client_id _ _ EC). exact S.
          - reflexivity.
          - cbn [n_next n_clients]. rewrite !list_set_length, app_length. cbn. lia. }
        exists s'. split; [eapply net_run_reachable; eassumption|auto].
      * exists (mkNet w' (n_clients s) (n_next s) (n_browsers s)). subst w. split; [|auto].
        eapply nreach_step; [exact NR|]. apply net_step_iff. split; [exact A|]. apply (ns_tick O s tid e); [|exact S].
        intros X. apply is_main_iff in X. congruence.
    + assert (P : is_some (if https then w_https w else w_http w) = true).
      { unfold step in S. rewrite A in S. cbn [negb] in S. destruct (is_some _); [reflexivity|discriminate S]. }
      assert (exists s', net_run O s [NBrowser https; NBrowserSends (List.length (n_browsers s)) bytes;
                  NBrowserEnds (List.length (n_browsers s)) Ended; NRead (List.length (n_browsers s))] = Some s'
                /\ n_world s' = w' /\ n_next s' = List.length (n_clients s')) as (s' & RN & W' & NX').
      { subst w. set (n := List.length (n_browsers s)).
        eexists. split; [|split].
        - cbn [net_run].
          rewrite (proj2 (net_step_iff O s (NBrowser https) _) (conj A (ns_browser O s https P))).
          erewrite (proj2 (net_step_iff _ _ _ _)); [|split; [exact A|apply ns_browser_sends; cbn [n_browsers]; apply nth_error_last]].
          erewrite (proj2 (net_step_iff _ _ _ _));
            [|split; [exact A|apply ns_browser_ends; [cbn [n_browsers]; unfold n; rewrite list_set_app; apply nth_error_last|discriminate]]].
          erewrite (proj2 (net_step_iff _ _ _ _)); [reflexivity|].
          split; [exact A|]. eapply ns_read.
          + cbn [n_browsers]. unfold n. rewrite !list_set_app. apply nth_error_last.
          + unfold request_bytes. cbn [b_conn b_https c_in c_fin]. destruct (get_in O https _ Ended) eqn:G.
            * reflexivity.
            * reflexivity.
            * exfalso. exact (ended_answered _ _ _ G).
          + cbn [n_world app List.concat]. rewrite app_nil_r. exact S.
        - reflexivity.
        - exact NX. }
      exists s'. split; [eapply net_run_reachable; eassumption|auto].
Qed.

(** * Clients are served in order *)

Lemma firstn_list_set {A} (l : list A) : forall n m x, m <= n -> firstn m (list_set n x l) = firstn m l.
Proof.
  induction l as [|y l IH]; intros [|n] [|m] x H; cbn; try reflexivity; try lia. rewrite IH by lia. reflexivity.
Qed.

Lemma firstn_S {A} (l : list A) : forall n x, nth_error l n = Some x -> firstn (S n) l = firstn n l ++ [x].
Proof.
  induction l as [|y l IH]; intros [|n] x E; cbn in *; try discriminate E.
  - inversion E. reflexivity.
  - rewrite <- (IH n x E). reflexivity.
Qed.

Lemma firstn_keep {A} (l : list A) m x : m <= List.length l -> firstn m (l ++ [x]) = firstn m l.
Proof. intros L. rewrite firstn_app. replace (m - List.length l) with 0 by lia. rewrite app_nil_r. reflexivity. Qed.

Record served (s : net) : Prop := mkServed {
  sv_len : n_next s <= List.length (n_clients s);
  sv_done : forall n c, n < n_next s -> nth_error (n_clients s) n = Some c -> c_fin c <> Open;
  sv_heard : requests (w_trace (n_world s)) = flat_map heard (firstn (n_next s) (n_clients s));
}.

Lemma reach_served O s : net_reachable O s -> served s.
Proof.
  induction 1 as [e c hp hsp pk C|s l s' R [SL SD SH] S].
  - constructor; cbn; auto; intros; lia.
  - apply net_step_iff in S. destruct S as [A S].
    pose proof (refines _ _ R) as RW.
    assert (K : forall n ps, nth_error (n_clients s) n = Some (mkConn ps Open) -> n_next s <= n).
    { intros n ps N. destruct (Nat.le_gt_cases (n_next s) n) as [|G]; [assumption|].
      exfalso. exact (SD _ _ G N eq_refl). }
    assert (U : forall n ps c', nth_error (n_clients s) n = Some (mkConn ps Open) ->
      served (mkNet (n_world s) (list_set n c' (n_clients s)) (n_next s) (n_browsers s))).
    { intros n ps c' N. pose proof (K n ps N) as G. constructor; cbn [n_world n_clients n_next].
      - rewrite list_set_length. exact SL.
      - intros m c L E. rewrite nth_error_list_set_ne in E by lia. eapply SD; eassumption.
      - rewrite firstn_list_set by exact G. exact SH. }
    destruct S as [|n p ps N|n f ps N NF|e ps M N|e ps w' M N S|https P|n p h ps b N|n f h ps b N NF|n h c bytes w' N RB S|tid e w' NM S];
      try (eapply U; eassumption); try (constructor; assumption).
    + constructor; cbn [n_world n_clients n_next].
      * rewrite app_length. cbn. lia.
      * intros m c L E. rewrite nth_error_app1 in E by lia. eapply SD; eassumption.
      * rewrite firstn_keep by exact SL. exact SH.
    + constructor; cbn [n_world n_clients n_next].
      * apply nth_error_Some. congruence.
      * intros m c L E. destruct (Nat.eq_dec m (n_next s)) as [->|NE].
        -- rewrite N in E. inversion E. discriminate.
        -- eapply SD; [|exact E]. lia.
      * rewrite (firstn_S _ _ _ N), flat_map_app. cbn. rewrite app_nil_r. exact SH.
    + destruct (step_intake _ _ _ _ RW S) as (os & T & _ & Q & _). specialize (Q M).
      destruct Q as (req & EC & Q). cbn in EC. inversion EC. subst req.
      constructor; cbn [n_world n_clients n_next].
      * apply nth_error_Some. congruence.
      * intros m c L E. destruct (Nat.eq_dec m (n_next s)) as [->|NE].
        -- rewrite N in E. inversion E. discriminate.
        -- eapply SD; [|exact E]. lia.
      * rewrite (firstn_S _ _ _ N), flat_map_app. cbn. rewrite T, requests_app, Q, SH. reflexivity.
    + destruct (step_intake _ _ _ _ RW S) as (os & T & Q & _).
      constructor; cbn [n_world n_clients n_next]; try assumption.
      rewrite T, requests_app, Q, app_nil_r. exact SH.
    + destruct (step_intake _ _ _ _ RW S) as (os & T & _ & _ & Q). specialize (Q NM).
      constructor; cbn [n_world n_clients n_next]; try assumption.
      rewrite T, requests_app, Q, app_nil_r. exact SH.
Qed.

(** * Browsers are answered once *)

Definition asked (O : oracles) (b : browser) : bool * option url :=
  (b_https b, match get_in O (b_https b) (c_in (b_conn b)) (c_fin (b_conn b)) with Got u => Some u | _ => None end).

Definition asks (O : oracles) (v : bool * str) : bool * option url := (fst v, parse_get O (fst v) (snd v)).

Lemma request_bytes_asked O b bytes : request_bytes O b = Some bytes ->
  asks O (b_https b, bytes) = asked O b
  /\ get_in O (b_https b) (c_in (b_conn b)) (c_fin (b_conn b)) <> Waits.
Proof.
  unfold request_bytes, asks, asked. destruct b as [h [ps f] r]. cbn [b_https b_conn c_in c_fin fst snd].
  assert (E : forall x, get_in O h ps Ended = x ->
    parse_get O h (List.concat ps) = match x with Got u => Some u | _ => None end).
  { intros x <-. rewrite get_in_whole, w_get_ended. destruct (parse_get O h (List.concat ps)); reflexivity. }
  destruct (get_in O h ps f) as [u| |] eqn:G; intros X; try discriminate X; (split; [|discriminate]).
  - inversion X. subst bytes. f_equal. destruct f.
    + rewrite (E (Got u)); [reflexivity|]. rewrite <- G. apply settled_fin. congruence.
    + apply (E _ G).
    + rewrite broken in G. destruct (get_in O h ps Open) as [u'| |] eqn:G'; inversion G. subst u'.
      rewrite (E (Got u)); [reflexivity|]. rewrite <- G'. apply settled_fin. congruence.
  - f_equal. destruct f; inversion X; subst bytes.
    + rewrite (E Bad); [reflexivity|]. rewrite <- G. apply settled_fin. congruence.
    + apply (E _ G).
    + reflexivity.
Qed.

Definition answered_all (O : oracles) (s : net) : Prop :=
  Permutation (map (asks O) (visits (w_trace (n_world s)))) (map (asked O) (filter b_read (n_browsers s)))
  /\ (forall b, In b (n_browsers s) ->
        is_some (if b_https b then w_https (n_world s) else w_http (n_world s)) = true
        /\ (b_read b = true -> get_in O (b_https b) (c_in (b_conn b)) (c_fin (b_conn b)) <> Waits)).

Lemma list_set_split {A} (l : list A) n x : nth_error l n = Some x ->
  exists l1 l2, l = l1 ++ x :: l2 /\ forall y, list_set n y l = l1 ++ y :: l2.
Proof.
  intros E. apply nth_error_split in E. destruct E as (l1 & l2 & -> & <-).
  exists l1, l2. split; [reflexivity|]. intros y. apply list_set_app.
Qed.

Lemma reach_answered O s : net_reachable O s -> answered_all O s.
Proof.
  induction 1 as [e c hp hsp pk C|s l s' R [PM BR] S].
  - split; [apply Permutation_refl|]. intros b [].
  - apply net_step_iff in S. destruct S as [A S].
    pose proof (refines _ _ R) as RW.
    assert (U : forall n h ps b c', nth_error (n_browsers s) n = Some (mkBrowser h (mkConn ps Open) b) ->
      (get_in O h ps Open <> Waits -> get_in O h (c_in c') (c_fin c') = get_in O h ps Open) ->
      answered_all O (mkNet (n_world s) (n_clients s) (n_next s) (list_set n (mkBrowser h c' b) (n_browsers s)))).
    { intros n h ps b c' N G. destruct (list_set_split _ _ _ N) as (l1 & l2 & EL & SET).
      destruct (BR (mkBrowser h (mkConn ps Open) b) (nth_error_In _ _ N)) as [ON RD]. cbn [b_https b_read b_conn c_in c_fin] in ON, RD.
      split; cbn [n_world n_browsers].
      - rewrite SET. rewrite EL in PM. rewrite filter_app, map_app in PM |- *. cbn [filter b_read] in PM |- *.
        destruct b; [|exact PM]. cbn [map] in PM |- *.
        replace (asked O (mkBrowser h c' true)) with (asked O (mkBrowser h (mkConn ps Open) true)); [exact PM|].
        unfold asked. cbn [b_https b_conn c_in c_fin]. rewrite G by (apply RD; reflexivity). reflexivity.
      - intros b0 IB. rewrite SET in IB. apply in_app_or in IB. destruct IB as [IB|[<-|IB]].
        + apply BR. rewrite EL. apply in_or_app. left. exact IB.
        + cbn [b_https b_read b_conn]. split; [exact ON|]. intros E. rewrite G by (apply RD; exact E). apply RD, E.
        + apply BR. rewrite EL. apply in_or_app. right. right. exact IB. }
    assert (W : forall w' l0 os cl nx, step O (n_world s) l0 = SNext w' -> w_trace w' = w_trace (n_world s) ++ os ->
      visits os = [] -> answered_all O (mkNet w' cl nx (n_browsers s))).
    { intros w' l0 os cl nx S0 T V.
      destruct (step_ok _ _ _ _ (reach_inv _ _ RW) S0) as (_ & _ & TS & _).
      destruct (tstep_ports _ _ _ _ TS) as [P1 P2].
      split; cbn [n_world n_browsers].
      - rewrite T, visits_app, V, app_nil_r. exact PM.
      - rewrite P1, P2. exact BR. }
    destruct S as [|n p ps N|n f ps N NF|e ps M N|e ps w' M N S|https P|n p h ps b N|n f h ps b N NF|n h c bytes w' N RB S|tid e w' NM S];
      try (split; assumption).
    + destruct (step_intake _ _ _ _ RW S) as (os & T & V & _). eapply W; eassumption.
    + split; cbn [n_world n_browsers].
      * rewrite filter_app. cbn [filter b_read]. rewrite app_nil_r. exact PM.
      * intros b IB. apply in_app_or in IB. destruct IB as [IB|[<-|[]]]; [apply BR; exact IB|].
        cbn [b_https b_read]. split; [exact P|discriminate].
    + apply (U n h ps b _ N). cbn [c_in c_fin]. intros D. apply settled, D.
    + apply (U n h ps b _ N). cbn [c_in c_fin]. intros D. apply settled_fin, D.
    + destruct (step_intake _ _ _ _ RW S) as (os & T & _ & V).
      destruct (step_ok _ _ _ _ (reach_inv _ _ RW) S) as (_ & _ & TS & _).
      destruct (tstep_ports _ _ _ _ TS) as [P1 P2].
      destruct (request_bytes_asked _ _ _ RB) as [AB NW].
      destruct (list_set_split _ _ _ N) as (l1 & l2 & EL & SET).
      split; cbn [n_world n_browsers].
      * rewrite SET, T, visits_app, V, map_app. rewrite EL in PM. rewrite filter_app, map_app in PM |- *. cbn [filter b_read map] in PM |- *.
        cbn [b_https] in AB. rewrite AB.
        change (asked O (mkBrowser h c false)) with (asked O (mkBrowser h c true)).
        eapply Permutation_trans; [apply Permutation_sym, Permutation_cons_append|].
        eapply Permutation_trans; [|apply Permutation_middle]. apply perm_skip, PM.
      * rewrite P1, P2. intros b0 IB. rewrite SET in IB. apply in_app_or in IB. destruct IB as [IB|[<-|IB]].
        -- apply BR. rewrite EL. apply in_or_app. left. exact IB.
        -- cbn [b_https b_read b_conn] in NW |- *. split; [|intros _; exact NW].
           apply (BR (mkBrowser h c false)). rewrite EL. apply in_or_app. right. left. reflexivity.
        -- apply BR. rewrite EL. apply in_or_app. right. right. exact IB.
    + destruct (step_intake _ _ _ _ RW S) as (os & T & V & _). eapply W; eassumption.
Qed.

(** Nobody has to wait for another browser. *)
Lemma browser_free O s n b : net_reachable O s -> w_alive (n_world s) = true ->
  nth_error (n_browsers s) n = Some b -> b_read b = false ->
  get_in O (b_https b) (c_in (b_conn b)) (c_fin (b_conn b)) <> Waits ->
  exists s', net_step O s (NRead n) = Some s'.
Proof.
  intros R A N B G. destruct b as [h c r]. cbn [b_read] in B. subst r.
  destruct (reach_answered _ _ R) as [_ BR]. destruct (BR _ (nth_error_In _ _ N)) as [ON _]. cbn [b_https] in ON.
  assert (exists bytes, request_bytes O (mkBrowser h c false) = Some bytes) as [bytes RB].
  { unfold request_bytes. destruct (get_in _ _ _ _); [eauto|destruct (c_fin _); eauto|congruence]. }
  assert (exists w', step O (n_world s) (LHttpConn h bytes) = SNext w') as [w' S].
  { unfold step. rewrite A, ON. cbn. eauto. }
  eexists. apply net_step_iff. split; [exact A|]. eapply ns_read; eassumption.
Qed.

(** * A silent client *)

Lemma nstep_next O s l s' c : nstep O s l s' -> nth_error (n_clients s) (n_next s) = Some c -> c_fin c = Open ->
  (forall f, l <> NClientEnds (n_next s) f) ->
  n_next s' = n_next s /\ exists c', nth_error (n_clients s') (n_next s) = Some c' /\ c_fin c' = Open.
Proof.
  intros S N F NE.
  destruct S as [|n p ps N2|n f ps N2 NF|e ps M N2|e ps w' M N2 S|https P|n p h ps b N2|n f h ps b N2 NF|n h c0 bytes w' N2 RB S|tid e w' NM S];
    cbn [n_next n_clients]; try (split; [reflexivity|eauto]); try (rewrite N in N2; inversion N2; subst c; discriminate F).
  - exists c. split; [|exact F]. rewrite nth_error_app1; [exact N|]. apply nth_error_Some. congruence.
  - destruct (Nat.eq_dec n (n_next s)) as [->|D].
    + exists (mkConn (ps ++ [p]) Open). split; [|reflexivity]. eapply nth_list_set_same. exact N2.
    + exists c. rewrite nth_error_list_set_ne by congruence. auto.
  - exists c. rewrite nth_error_list_set_ne; [auto|]. intros ->. exact (NE f eq_refl).
Qed.

Lemma silent_blocks O ls : forall s s' c, net_reachable O s ->
  nth_error (n_clients s) (n_next s) = Some c -> c_fin c = Open ->
  (forall f, ~ In (NClientEnds (n_next s) f) ls) ->
  net_run O s ls = Some s' ->
  n_next s' = n_next s /\ requests (w_trace (n_world s')) = requests (w_trace (n_world s)).
Proof.
  intros s s' c R N F NE RN.
  assert (n_next s' = n_next s /\ firstn (n_next s) (n_clients s') = firstn (n_next s) (n_clients s)) as [X Y].
  { pose proof (sv_done _ (reach_served _ _ R)) as D. pose proof (sv_len _ (reach_served _ _ R)) as L. clear R.
    revert s s' c N F NE RN D L. induction ls as [|l ls IH]; cbn [net_run]; intros s s' c N F NE RN D L.
    - inversion RN. auto.
    - destruct (net_step O s l) as [s1|] eqn:S; [|discriminate RN]. apply net_step_iff in S. destruct S as [_ S].
      destruct (nstep_next _ _ _ _ _ S N F) as (NX & c' & N' & F'); [intros f ->; apply (NE f); left; reflexivity|].
      assert (firstn (n_next s) (n_clients s1) = firstn (n_next s) (n_clients s)
              /\ n_next s <= List.length (n_clients s1)
              /\ forall n c0, n < n_next s -> nth_error (n_clients s1) n = Some c0 -> c_fin c0 <> Open) as (Y1 & L1 & D1).
      { assert (K : forall n ps, nth_error (n_clients s) n = Some (mkConn ps Open) -> n_next s <= n).
        { intros n ps E. destruct (Nat.le_gt_cases (n_next s) n) as [|G]; [assumption|]. exfalso. exact (D _ _ G E eq_refl). }
        clear -S D L K.
        destruct S as [|n p ps N2|n f ps N2 NF|e ps M N2|e ps w' M N2 S|https P|n p h ps b N2|n f h ps b N2 NF|n h c0 bytes w' N2 RB S|tid e w' NM S];
          cbn [n_next n_clients]; try (split; [reflexivity|split; assumption]).
        - split; [apply firstn_keep; exact L|]. split; [rewrite app_length; lia|].
          intros n c0 G E. rewrite nth_error_app1 in E by lia. eapply D; eassumption.
        - pose proof (K _ _ N2) as G. split; [apply firstn_list_set; exact G|]. split; [rewrite list_set_length; exact L|].
          intros m c0 G2 E. rewrite nth_error_list_set_ne in E by lia. eapply D; eassumption.
        - pose proof (K _ _ N2) as G. split; [apply firstn_list_set; exact G|]. split; [rewrite list_set_length; exact L|].
          intros m c0 G2 E. rewrite nth_error_list_set_ne in E by lia. eapply D; eassumption. }
      rewrite <- NX in N', Y1, L1, D1. destruct (IH s1 s' c' N' F') as [X Y].
      + rewrite NX. intros f I. apply (NE f). right. exact I.
      + exact RN.
      + exact D1.
      + exact L1.
      + rewrite NX in X, Y. split; [exact X|]. rewrite Y, <- NX. exact Y1. }
  split; [exact X|].
  rewrite (sv_heard _ (reach_served _ _ R)), (sv_heard _ (reach_served _ _ (net_run_reachable _ _ _ _ R RN))), X, Y. reflexivity.
Qed.

(** * Clients that have said what they want are served *)

Lemma main_role O w p : reachable O w -> nth_error (w_threads w) 0 = Some p -> p = PMain \/ exists a k, p = PDo a k.
Proof.
  intros R N. pose proof (ro_pc _ (reach_roles _ _ R) _ _ N) as RO. cbn in RO.
  destruct p; try discriminate RO; eauto.
Qed.

Lemma back_to_main O (e : env) : forall p s, net_reachable O s -> w_alive (n_world s) = true ->
  nth_error (w_threads (n_world s)) 0 = Some p ->
  exists ls s', net_run O s ls = Some s' /\ Forall (of_main e) ls
    /\ n_clients s' = n_clients s /\ n_next s' = n_next s
    /\ (w_alive (n_world s') = false \/ nth_error (w_threads (n_world s')) 0 = Some PMain).
Proof.
  induction p; intros s R A N;
    pose proof (main_role _ _ _ (refines _ _ R) N) as M;
    try (exfalso; destruct M as [M|(? & ? & M)]; discriminate M).
  - assert (step O (n_world s) (LTick 0 e) = SNext (do_action (set_thread (n_world s) 0 p) a)) as S.
    { unfold step. rewrite A, N. reflexivity. }
    set (w1 := do_action (set_thread (n_world s) 0 p) a) in *.
    set (s1 := mkNet w1 (n_clients s) (n_next s) (n_browsers s)).
    assert (net_step O s (NTick 0 e) = Some s1) as NS.
    { apply net_step_iff. split; [exact A|]. apply ns_tick; [congruence|exact S]. }
    assert (R1 : net_reachable O s1) by (eapply nreach_step; eassumption).
    destruct (w_alive w1) eqn:A1.
    + assert (nth_error (w_threads w1) 0 = Some p) as N1.
      { assert (nth_error (list_set 0 p (w_threads (n_world s))) 0 = Some p) as X by (eapply nth_list_set_same; exact N).
        unfold w1. destruct a; try exact X.
        change (nth_error (list_set 0 p (w_threads (n_world s)) ++ [PRefStart i]) 0 = Some p).
        rewrite nth_error_app1; [exact X|]. apply nth_error_Some. congruence. }
      destruct (IHp s1 R1 A1 N1) as (ls & s' & RN & FM & C1 & C2 & E).
      exists (NTick 0 e :: ls), s'. cbn [net_run]. rewrite NS. split; [exact RN|]. split; [constructor; [split; reflexivity|exact FM]|auto].
    + exists [NTick 0 e], s1. cbn [net_run]. rewrite NS. split; [reflexivity|].
      split; [constructor; [split; reflexivity|constructor]|]. split; [reflexivity|]. split; [reflexivity|]. left. exact A1.
  - exists [], s. repeat split; auto.
Qed.

Lemma serve_next O (e : env) s c : net_reachable O s -> w_alive (n_world s) = true ->
  nth_error (w_threads (n_world s)) 0 = Some PMain ->
  nth_error (n_clients s) (n_next s) = Some c -> c_fin c <> Open ->
  (exists s', net_step O s (NMain e) = Some s' /\ n_clients s' = n_clients s /\ n_next s' = S (n_next s))
  \/ next_breaks O e s.
Proof.
  intros R A M N F. destruct c as [ps f]. cbn [c_fin] in F. destruct f; [congruence| |].
  - destruct (step O (n_world s) (LTick 0 (with_client e (List.concat ps)))) as [| |w'] eqn:S.
    + exfalso. destruct (enabled O (n_world s) 0 PMain (with_client e (List.concat ps)) (refines _ _ R) A M) as [X|[X|[w' S']]].
      * intros B. pose proof (breaks_down_panics _ _ _ (refines _ _ R) B). congruence.
      * discriminate X.
      * inversion X. discriminate.
      * congruence.
    + right. exists (mkConn ps Ended). split; [exact N|]. exact (panics_only _ _ _ (refines _ _ R) S).
    + left. eexists. split; [|split].
      * apply net_step_iff. split; [exact A|]. eapply ns_main; eassumption.
      * reflexivity.
      * reflexivity.
  - left. eexists. split; [|split].
    + apply net_step_iff. split; [exact A|]. eapply ns_main_bad; eassumption.
    + reflexivity.
    + reflexivity.
Qed.

Lemma all_served O (e : env) k : forall s n, net_reachable O s -> w_alive (n_world s) = true ->
  n < List.length (n_clients s) -> S n - n_next s <= k ->
  (forall m c, m <= n -> nth_error (n_clients s) m = Some c -> c_fin c <> Open) ->
  exists ls s', net_run O s ls = Some s' /\ Forall (of_main e) ls
    /\ (n < n_next s' \/ w_alive (n_world s') = false \/ next_breaks O e s').
Proof.
  induction k as [|k IH]; intros s n R A L K H.
  - exists [], s. repeat split; auto. left. lia.
  - destruct (Nat.lt_ge_cases n (n_next s)) as [G|G].
    { exists [], s. repeat split; auto. }
    pose proof (refines _ _ R) as RW.
    destruct (nth_error (w_threads (n_world s)) 0) as [p|] eqn:N.
    2: { exfalso. apply nth_error_None in N. pose proof (ro_len _ (reach_roles _ _ RW)). lia. }
    destruct (back_to_main O e p s R A N) as (ls1 & s1 & RN1 & F1 & C1 & X1 & [D|M]).
    { exists ls1, s1. auto. }
    assert (R1 := net_run_reachable _ _ _ _ R RN1).
    destruct (w_alive (n_world s1)) eqn:A1; [|exists ls1, s1; auto].
    destruct (nth_error (n_clients s) (n_next s)) as [c|] eqn:NC.
    2: { exfalso. apply nth_error_None in NC. lia. }
    destruct (serve_next O e s1 c R1 A1 M) as [(s2 & S2 & C2 & X2)|NB].
    { rewrite C1, X1. exact NC. }
    { eapply H; [|exact NC]. exact G. }
    2: { exists ls1, s1. auto. }
    assert (R2 : net_reachable O s2) by (eapply nreach_step; eassumption).
    destruct (w_alive (n_world s2)) eqn:A2.
    + destruct (IH s2 n R2 A2) as (ls3 & s3 & RN3 & F3 & E3).
      * rewrite C2, C1. exact L.
      * lia.
      * intros m c0 LE E. rewrite C2, C1 in E. eapply H; eassumption.
      * exists (ls1 ++ NMain e :: ls3), s3. rewrite net_run_app, RN1. cbn [net_run]. rewrite S2.
        split; [exact RN3|]. split; [apply Forall_app; split; [exact F1|constructor; [reflexivity|exact F3]]|exact E3].
    + exists (ls1 ++ [NMain e]), s2. rewrite net_run_app, RN1. cbn [net_run]. rewrite S2.
      split; [reflexivity|]. split; [apply Forall_app; split; [exact F1|constructor; [reflexivity|constructor]]|auto].
Qed.

(** * In other words *)

Lemma got_iff O b u :
  get_in O (b_https b) (c_in (b_conn b)) (c_fin (b_conn b)) = Got u <-> browser_asks O b u.
Proof.
  unfold browser_asks. destruct b as [h [ps f] r]. cbn [b_https b_conn c_in c_fin].
  assert (X : get_in O h ps Open = Got u <-> get_request O h (List.concat ps) u /\ ~ unfinished (List.concat ps)).
  { rewrite <- (waits_iff O h ps), <- ended_iff. split.
    - intros G. split; [rewrite <- G; apply settled_fin|]; congruence.
    - intros [G W]. rewrite <- G. symmetry. apply settled_fin, W. }
  destruct f.
  - rewrite X. split; intros [A B]; (split; [exact A|]); [right; exact B|]. destruct B as [B|B]; [discriminate B|exact B].
  - rewrite ended_iff. split; [intros A; split; [exact A|left; reflexivity]|intros [A _]; exact A].
  - assert (get_in O h ps Broken = Got u <-> get_in O h ps Open = Got u) as ->.
    { rewrite broken. destruct (get_in O h ps Open); split; intros E; try discriminate E; exact E. }
    rewrite X. split; intros [A B]; (split; [exact A|]); [right; exact B|]. destruct B as [B|B]; [discriminate B|exact B].
Qed.

Lemma due_iff O b : get_in O (b_https b) (c_in (b_conn b)) (c_fin (b_conn b)) <> Waits <-> due b.
Proof.
  unfold due. destruct b as [h [ps f] r]. cbn [b_https b_conn c_in c_fin].
  destruct f.
  - rewrite (waits_iff O h ps). split; [auto|]. intros [X|X]; [congruence|exact X].
  - split; [left; discriminate|]. intros _. apply ended_answered.
  - split; [left; discriminate|]. intros _. rewrite broken. destruct (get_in O h ps Open); discriminate.
Qed.

Lemma browsers_once O s : net_reachable O s ->
  exists bs, Permutation bs (filter b_read (n_browsers s))
    /\ Forall2 (fun v b => fst v = b_https b /\ forall u, get_request O (fst v) (snd v) u <-> browser_asks O b u)
         (visits (w_trace (n_world s))) bs.
Proof.
  intros R. destruct (reach_answered _ _ R) as [PM _].
  destruct (Permutation_map_inv _ _ PM) as (bs & E & P2). exists bs. split; [apply Permutation_sym, P2|].
  clear PM P2 R. revert bs E. induction (visits (w_trace (n_world s))) as [|v vs IH]; intros [|b bs] E; try discriminate E.
  - constructor.
  - cbn [map] in E. injection E as E1 E2 E3. constructor; [|apply IH; exact E3].
    cbn [asks fst snd] in E1. split; [exact E1|]. intros u. rewrite <- parse_get_iff, <- got_iff, E2.
    destruct (get_in _ _ _ _); split; intros X; inversion X; reflexivity.
Qed.

Lemma read_due O s b : net_reachable O s -> In b (n_browsers s) -> b_read b = true -> due b.
Proof.
  intros R I B. destruct (reach_answered _ _ R) as [_ BR]. apply (due_iff O), (BR b I), B.
Qed.

Lemma due_read O s n b : net_reachable O s -> w_alive (n_world s) = true ->
  nth_error (n_browsers s) n = Some b -> b_read b = false -> due b ->
  exists s', net_step O s (NRead n) = Some s'.
Proof. intros R A N B D. apply (due_iff O) in D. eapply browser_free; eassumption. Qed.

Lemma requests_in_order O s : net_reachable O s ->
  requests (w_trace (n_world s)) = flat_map heard (firstn (n_next s) (n_clients s)).
Proof. intros R. apply (sv_heard _ (reach_served _ _ R)). Qed.

Lemma get_served O s n (e : env) : net_reachable O s -> w_alive (n_world s) = true ->
  n < List.length (n_clients s) ->
  (forall m c, m <= n -> nth_error (n_clients s) m = Some c -> c_fin c <> Open) ->
  exists ls s', net_run O s ls = Some s' /\ Forall (of_main e) ls
    /\ (n < n_next s' \/ w_alive (n_world s') = false \/ next_breaks O e s').
Proof. intros R A L H. exact (all_served O e _ s n R A L (le_n _) H). Qed.

Lemma complete_net O w : reachable O w <-> exists s, net_reachable O s /\ n_world s = w.
Proof.
  split.
  - intros R. destruct (complete _ _ R) as (s & A & B & _). eauto.
  - intros (s & R & <-). apply refines, R.
Qed.
