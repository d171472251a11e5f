(** Clients that ask for a token get it, and browsers that bring a code turn it into
    one, in time. *)
From Verif Require Import Base BaseLemmas Time Utf8 Base64 Url Json Oracles Config Dump State Http Timers Server
  StateLemmas ConfigLemmas Steps Inv Reach Own SpecServer SpecTimers SpecSessions SpecFair SpecTimed SpecReturn SpecRestore
  Wire SpecWire SpecServe SpecTurn WireLemmas WireNet Trace Decide Refresh Sessions Fair TimedShow TimedReturn TimedServe.
Local Open Scope Z_scope.

Section Turn.
Variable O : oracles.
Variable ns : nat -> net.
Variable ls : nat -> option nlabel.
Variable es : nat -> env.
Variable tau : nat -> Z.
Variable d c : Z.
Hypothesis SE : serving O ns ls es tau d c.
Hypothesis D0 : 0 <= d.
Hypothesis C0 : 0 <= c.

Let NE : nets O ns ls := se_nets _ _ _ _ _ _ _ SE.
Let EN : endless O (worlds ns) (labels O ns ls) := net_endless _ _ _ NE.
Notation reach k := (net_reach O ns ls k NE).
Notation dead k := (w_alive (n_world (ns k)) = false).
Notation main k q := (nth_error (w_threads (n_world (ns k))) 0 = Some q).

(** A client is served at one particular step. *)
Lemma turn_comes n k x : (k <= x)%nat -> (n_next (ns k) <= n)%nat -> (n < n_next (ns x))%nat ->
  exists i e, (k <= i)%nat /\ (i < x)%nat /\ ls i = Some (NMain e) /\ at_main (ns i) /\ n_next (ns i) = n.
Proof.
  intros L A. induction L as [|x L IH]; intros B; [lia|].
  destruct (Nat.lt_ge_cases n (n_next (ns x))) as [LT|GE].
  { destruct (IH LT) as (i & e & I1 & I2 & R). exists i, e. split; [exact I1|]. split; [lia|exact R]. }
  destruct (net_steps O ns ls es tau d c SE x) as [E|(l & LS & ST & _)]; [rewrite E in B; lia|].
  inversion ST; subst; match goal with Q : _ = ns (S x) |- _ => rewrite <- Q in B; cbn [n_next] in B end; try lia.
  - exists x, e. repeat split; try assumption; lia.
  - exists x, e. repeat split; try assumption; lia.
Qed.

Lemma main_goes a b act q : (a <= b)%nat -> main a (PDo act q) -> at_main (ns b) ->
  exists y, (a <= y)%nat /\ (y < b)%nat /\ main y (PDo act q) /\ goes (labels O ns ls) y 0.
Proof.
  intros L A M. revert A. induction L as [|b L IH] in M |- *.
  - intros A. unfold at_main in M. congruence.
  - intros A.
    assert ((exists y, (a <= y)%nat /\ (y <= b)%nat /\ main y (PDo act q) /\ goes (labels O ns ls) y 0)
            \/ main (S b) (PDo act q)) as [(y & Y1 & Y2 & Y)|X].
    { clear IH M. induction L as [|b L IH].
      - destruct (goes_dec (labels O ns ls) a 0) as [G|G]; [left; exists a; repeat split; auto|right].
        exact (at_next O (worlds ns) (labels O ns ls) EN a 0 _ A G).
      - destruct IH as [(y & Y1 & Y2 & Y)|X]; [left; exists y; repeat split; try apply Y; lia|].
        destruct (goes_dec (labels O ns ls) (S b) 0) as [G|G]; [left; exists (S b); repeat split; auto; lia|right].
        exact (at_next O (worlds ns) (labels O ns ls) EN (S b) 0 _ X G). }
    + exists y. repeat split; try apply Y; lia.
    + unfold at_main in M. congruence.
Qed.

(** Before it turns to the next client the main thread does all it has to do. *)
Lemma all_done b o : forall q a, (a <= b)%nat -> main a q -> at_main (ns b) -> In (AEmit o) (chain q) ->
  exists y, (a <= y)%nat /\ (y < b)%nat /\ observed (worlds ns) y = [o].
Proof.
  induction q; intros a0 L A M I; try (exfalso; exact I).
  cbn [chain] in I. destruct (main_goes a0 b a q L A M) as (y & Y1 & Y2 & Y3 & [e Y4]).
  pose proof (en_next _ _ _ EN y) as ST. rewrite Y4 in ST.
  destruct (done_next O (worlds ns) (labels O ns ls) EN y 0 a q e Y3 ST) as [W M'].
  destruct I as [->|I].
  - exists y. repeat split; try assumption. unfold observed. rewrite W, do_action_trace.
    apply skipn_trace.
  - destruct (IHq (S y) ltac:(lia) M' M I) as (z & Z1 & Z2 & Z3). exists z. repeat split; [lia|exact Z2|exact Z3].
Qed.

Lemma client_answered k j n req : has_sent (ns k) n req -> (n_next (ns k) <= n)%nat -> (k <= j)%nat ->
  (forall x, (k <= x)%nat -> (x <= j)%nat -> ~ next_breaks O (es x) (ns x)) ->
  deadline ns tau d c k n < tau (S j) ->
  dead j \/ exists i e x, (k <= i)%nat /\ (i < x)%nat /\ (x <= j)%nat /\ tau x <= deadline ns tau d c k n
    /\ turn ns ls i n e req
    /\ step O (worlds ns i) (LTick 0 (with_client e req)) = SNext (worlds ns (S i))
    /\ labels O ns ls i = Some (LTick 0 (with_client e req))
    /\ forall q o, main (S i) q -> In (AEmit o) (will_do q) ->
       exists y, (i < y)%nat /\ (y < x)%nat /\ observed (worlds ns) y = [o].
Proof.
  intros (ps & N & <-) A L NB T. unfold deadline, ahead in *.
  destruct (clients_served O ns ls es tau d c SE D0 C0 k j n) as [D|(x & X1 & X2 & X3 & X4)].
  - apply nth_error_Some. congruence.
  - exact L.
  - exact NB.
  - unfold ahead. rewrite Z.max_r by lia. exact T.
  - left. exact D.
  - right. unfold ahead in X4. rewrite Z.max_r in X4 by lia. destruct X3 as (LN & M & _).
    destruct (turn_comes n k x X1 A LN) as (i & e & I1 & I2 & LS & MI & NI). exists i, e, x.
    pose proof (told_stays O ns ls es tau d c SE k i n ps Ended I1 N ltac:(discriminate)) as N'.
    assert (labels O ns ls i = Some (LTick 0 (with_client e (List.concat ps)))) as LB.
    { unfold labels. rewrite LS. cbn [label_of]. rewrite NI, N'. reflexivity. }
    split; [exact I1|]. split; [exact I2|]. split; [exact X2|]. split; [exact X4|]. split; [|split; [|split; [exact LB|]]].
    + split; [exact LS|]. split; [exact MI|]. split; [exact NI|]. exists ps. auto.
    + pose proof (en_next _ _ _ EN i) as ST. rewrite LB in ST. exact ST.
    + intros q o Q I. destruct (all_done x o q (S i) ltac:(lia) Q M) as (y & Y1 & Y2 & Y3).
      { clear - I. induction q; cbn in *; try (destruct I; fail). destruct I as [I|I]; auto. }
      exists y. repeat split; try assumption; lia.
Qed.

Hypothesis CK : clocked (labels O ns ls) tau.

Lemma token_shown k j m n wu : has_sent (ns k) m ($"showtoken:" ++ wu ++ $" " ++ n) -> (n_next (ns k) <= m)%nat -> (k <= j)%nat ->
  ~ In " "%char wu -> utf8_valid (wu ++ $" " ++ n) = true ->
  (forall x, (k <= x)%nat -> (x <= j)%nat -> ~ next_breaks O (es x) (ns x)) ->
  valid_throughout (worlds ns) tau k j n ->
  deadline ns tau d c k m < tau (S j) ->
  dead j \/ shown_token ns ls tau k j (deadline ns tau d c k m) m n ($"showtoken:" ++ wu ++ $" " ++ n).
Proof.
  intros S0 A L NS U NB V T. set (req := $"showtoken:" ++ wu ++ $" " ++ n) in *.
  destruct (client_answered k j m req S0 A L NB T) as [D|(i & e & x & I1 & I2 & I3 & I4 & TU & ST & LB & AN)]; [left; exact D|right].
  destruct (V i I1 ltac:(lia)) as (a & HO & EX).
  pose proof (CK i 0%nat _ 0%nat LB) as CI. fold (env_now (with_client e req)) in CI.
  pose proof HO as ([n' i' ts] & IN & NM & ACT). cbn in NM, ACT. subst n' ts.
  pose proof (refines _ _ (reach i)) as R.
  assert (w_alive (worlds ns i) = true) as AL by (exact (step_alive _ _ _ _ ST)).
  destruct TU as (LS & MI & NI & SI).
  pose proof (show_active O (worlds ns i) (with_client e req) wu n R AL MI NS U i' a eq_refl IN) as SH.
  destruct (Z.ltb_spec (env_now (with_client e req)) (expiry a)) as [LT|GE]; [|lia].
  rewrite SH in ST. injection ST as ST.
  destruct (AN (do_all [AEmit (OReply req ($"access_token:" ++ access_token a))] PMain)
              (OReply req ($"access_token:" ++ access_token a))) as (y & Y1 & Y2 & Y3).
  - change (nth_error (w_threads (worlds ns (S i))) 0 = Some (do_all [AEmit (OReply req ($"access_token:" ++ access_token a))] PMain)).
    rewrite <- ST. cbn [emit w_threads set_thread]. exact (nth_list_set_same _ _ _ _ MI).
  - left. reflexivity.
  - exists i, y, e, a. split; [exact I1|]. split; [exact Y1|]. split; [lia|]. split; [|split; [|split; [exact HO|split; [exact EX|exact Y3]]]].
    + pose proof (forward O ns ls es tau d c SE (S y) x ltac:(lia)). lia.
    + split; [exact LS|]. split; [exact MI|]. split; [exact NI|exact SI].
Qed.

(** * Browsers *)

Lemma asking_step k m b uri : nth_error (n_browsers (ns k)) m = Some b -> b_read b = false -> browser_asks O b uri ->
  (exists b', nth_error (n_browsers (ns (S k))) m = Some b' /\ b_read b' = false /\ browser_asks O b' uri)
  \/ (ls k = Some (NRead m)
      /\ exists https bytes, nth_error (w_threads (n_world (ns (S k)))) (List.length (w_threads (n_world (ns k)))) = Some (PHttpStart https bytes)
           /\ parse_get O https bytes = Some uri).
Proof.
  intros N B D. destruct (net_steps O ns ls es tau d c SE k) as [E|(l & LS & ST & AL)]; [left; rewrite E; eauto|].
  rewrite LS. revert ST. generalize (ns (S k)) as s'. intros s' ST.
  destruct ST as [|n2 p ps2 N2|n2 f2 ps2 N2 NF|e ps2 M N2|e ps2 w' M N2 S2|https P|n2 p h ps2 b2 N2|n2 f2 h ps2 b2 N2 NF|n2 h c0 bytes w' N2 RB S2|tid e w' NM S2];
    cbn [n_browsers]; try (left; exists b; auto; fail).
  - left. exists b. split; [|auto]. rewrite nth_error_app1; [exact N|]. apply nth_error_Some. congruence.
  - left. destruct (Nat.eq_dec n2 m) as [->|NN]; [|exists b; rewrite nth_error_list_set_ne by congruence; auto].
    eexists. split; [eapply nth_list_set_same; exact N|]. assert (b = mkBrowser h (mkConn ps2 Open) b2) as -> by congruence.
    split; [exact B|]. apply got_iff in D. apply got_iff. cbn [b_https b_conn c_in c_fin] in D |- *.
    rewrite settled; [exact D|congruence].
  - left. destruct (Nat.eq_dec n2 m) as [->|NN]; [|exists b; rewrite nth_error_list_set_ne by congruence; auto].
    eexists. split; [eapply nth_list_set_same; exact N|]. assert (b = mkBrowser h (mkConn ps2 Open) b2) as -> by congruence.
    split; [exact B|]. apply got_iff in D. apply got_iff. cbn [b_https b_conn c_in c_fin] in D |- *.
    rewrite settled_fin; [exact D|congruence].
  - destruct (Nat.eq_dec n2 m) as [->|NN]; [right|left; exists b; rewrite nth_error_list_set_ne by congruence; auto].
    split; [reflexivity|]. exists h, bytes. cbn [n_world]. split.
    + destruct (step_ok _ _ _ _ (reach_inv _ _ (refines _ _ (reach k))) S2) as (_ & _ & TS & _).
      inversion TS as [| |h1 b1 PO HL]. cbn [w_threads emit add_thread]. rewrite nth_error_app2 by lia.
      rewrite Nat.sub_diag. reflexivity.
    + assert (b = mkBrowser h c0 false) as -> by congruence. apply got_iff in D.
      destruct (request_bytes_asked _ _ _ RB) as [A _]. unfold WireNet.asks, asked in A. rewrite D in A.
      cbn [fst snd b_https] in A. congruence.
Qed.

Lemma read_marks g m : ls g = Some (NRead m) -> exists b, nth_error (n_browsers (ns (S g))) m = Some b /\ b_read b = true.
Proof.
  intros LS. pose proof (ne_next _ _ _ NE g) as NX. rewrite LS in NX. apply net_step_iff in NX. destruct NX as [_ NX].
  inversion NX as [| | | | | | | |n2 h c0 bytes w' N2 RB S2|]. cbn [n_browsers].
  eexists. split; [eapply nth_list_set_same; exact N2|reflexivity].
Qed.

Lemma asking_read k j m b uri : (k <= j)%nat -> nth_error (n_browsers (ns k)) m = Some b -> b_read b = false ->
  browser_asks O b uri -> tau k + d < tau (S j) ->
  dead j \/ exists g https bytes, (k <= g)%nat /\ (g < j)%nat /\ ls g = Some (NRead m) /\ tau (S g) <= tau k + d
    /\ nth_error (w_threads (n_world (ns (S g)))) (List.length (w_threads (n_world (ns g)))) = Some (PHttpStart https bytes)
    /\ parse_get O https bytes = Some uri.
Proof.
  intros L N B D T. destruct (browser_read O ns ls es tau d c SE k j m b L N B) as [X|X].
  - destruct D as [_ [D|D]]; [left; congruence|right; exact D].
  - exact T.
  - left. exact X.
  - right. destruct X as (g & h0 & bs0 & G1 & G2 & G3 & G4 & _).
    assert (forall x, (k <= x)%nat ->
      (exists b', nth_error (n_browsers (ns x)) m = Some b' /\ b_read b' = false /\ browser_asks O b' uri)
      \/ exists y https bytes, (k <= y)%nat /\ (y < x)%nat /\ ls y = Some (NRead m)
           /\ nth_error (w_threads (n_world (ns (S y)))) (List.length (w_threads (n_world (ns y)))) = Some (PHttpStart https bytes)
           /\ parse_get O https bytes = Some uri) as X.
    { intros x LX. induction LX as [|x LX IH]; [left; eauto|].
      destruct IH as [(b' & N' & B' & D')|(y & h & bs & Y1 & Y2 & Y)].
      - destruct (asking_step x m b' uri N' B' D') as [R|(RX & h & bs & PX)]; [left; exact R|].
        right. exists x, h, bs. repeat split; try apply PX; try assumption; lia.
      - right. exists y, h, bs. repeat split; try apply Y; lia. }
    destruct (X (S g) ltac:(lia)) as [(b' & N' & B' & _)|(y & h & bs & Y1 & Y2 & Y3 & Y4 & Y5)].
    + exfalso. destruct (read_marks g m G3) as (b2 & N2 & B2). congruence.
    + exists y, h, bs. repeat split; try assumption; try lia.
      pose proof (forward O ns ls es tau d c SE (S y) (S g) ltac:(lia)). lia.
Qed.

Lemma threads_more k j : (k <= j)%nat -> (List.length (w_threads (worlds ns k)) <= List.length (w_threads (worlds ns j)))%nat.
Proof.
  induction 1 as [|j L IH]; [lia|]. etransitivity; [exact IH|].
  pose proof (en_next _ _ _ EN j) as N. destruct (labels O ns ls j) as [l|]; [|rewrite N; lia].
  destruct (step_ok _ _ _ _ (reach_inv _ _ (refines _ _ (reach j))) N) as (_ & _ & T & _).
  revert N T. generalize (worlds ns (S j)) as w'. intros w' _ T.
  unfold worlds in *.
  destruct T as [tid e p lk' p' os NT C|tid e p w' NT SY|https bytes X].
  - cbn. rewrite list_set_length. lia.
  - destruct SY; cbn; try (rewrite list_set_length; lia).
    destruct a; cbn; try (rewrite list_set_length; lia). rewrite app_length, list_set_length. lia.
  - cbn. rewrite app_length. lia.
Qed.

Lemma not_yet k g x : (k <= x)%nat -> (x <= g)%nat -> ~ goes (labels O ns ls) x (List.length (w_threads (worlds ns g))).
Proof.
  intros L1 L2 [e G]. pose proof (en_next _ _ _ EN x) as N. rewrite G in N.
  pose proof (threads_more x g L2) as M.
  assert (nth_error (w_threads (worlds ns x)) (List.length (w_threads (worlds ns g))) = None) as X by (apply nth_error_None; lia).
  destruct (step_ok _ _ _ _ (reach_inv _ _ (refines _ _ (reach x))) N) as (_ & _ & T & _).
  unfold worlds in *. inversion T; congruence.
Qed.

Lemma code_redeemed p k j m b uri n i cvr st ln u code lo hi :
  browsing O (worlds ns) (labels O ns ls) tau d p -> 0 <= p -> (k <= j)%nat ->
  nth_error (n_browsers (ns k)) m = Some b -> b_read b = false -> browser_asks O b uri ->
  brings O (worlds ns k) uri n i cvr st ln u code ->
  (forall x m, (k <= x)%nat -> (x <= j)%nat -> awaits (worlds ns x) m st -> m = n) ->
  (forall x res, (k <= x)%nat -> (x < j)%nat -> redeems_code (worlds ns) x code res ->
     good_answer O lo hi res \/ exists t m, res = PRTransport t m) ->
  tau (S j) + hi <= time_max ->
  tau k + 5 * d + 10 * p < tau (S j) ->
  dead j
  \/ exists g, (k <= g)%nat /\ (g < j)%nat /\ ls g = Some (NRead m)
     /\ (token_from O (worlds ns) k j n code
         \/ (out_of_reach (worlds ns) k j code /\ told_error (worlds ns) k j n)
         \/ meddled (worlds ns) (labels O ns ls) k j (List.length (w_threads (worlds ns g))) (mkEntry n i (TSPending cvr ln st u))).
Proof.
  intros BR P0 L N B AS BG U AN R T.
  destruct (asking_read k j m b uri L N B AS ltac:(lia)) as [D|(g & h & bytes & G1 & G2 & G3 & G4 & G5 & G6)]; [left; exact D|right].
  exists g. split; [exact G1|]. split; [exact G2|]. split; [exact G3|].
  change (n_world (ns g)) with (worlds ns g) in G5. change (n_world (ns (S g))) with (worlds ns (S g)) in G5.
  set (tid := List.length (w_threads (worlds ns g))) in *.
  assert (comes_back O (worlds ns k) h bytes n i cvr st ln u code) as CB.
  { destruct BG as [EN0 S1 E1 C1 (act & ru & CF & RU & SO)]. constructor; [exact EN0|].
    exists uri, act, ru. auto 10. }
  destruct (calm_until O (worlds ns) (labels O ns ls) tau d p BR k tid n i cvr st ln u j k (S g)) as [CA|ME]; try lia.
  - unfold calm. split; [apply BG|auto].
  - intros x X1 X2. apply (not_yet k); lia.
  - assert (comes_back O (worlds ns (S g)) h bytes n i cvr st ln u code) as CB'.
    { destruct CA as (I & CF & PH & PS). destruct CB as [_ (uri' & act & ru & X1 & X2 & X3 & X4 & X5 & X6 & X7)].
      constructor; [exact I|]. exists uri', act, ru. rewrite PH, PS. unfold configured in *. unfold conf in CF. rewrite CF. auto 10. }
    destruct (browser_token O (worlds ns) (labels O ns ls) tau d p BR D0 P0 (S g) tid h bytes n i cvr st ln u code CB' j) with (lo := lo) (hi := hi)
      as [X|[X|X]].
    + intros x m' X1 X2. apply U; lia.
    + intros x res X1 X2. apply AN; lia.
    + exact R.
    + exact G5.
    + lia.
    + lia.
    + left. destruct X as (x & y & body & v & a & X1 & X). exists x, y, body, v, a. split; [lia|exact X].
    + right; left. destruct X as [(xs & X1 & X2 & X3) (x & o & Y1 & Y)]. split.
      * exists xs. split; [exact X1|]. split; [exact X2|]. intros z I. destruct (X3 z I) as [Z1 Z]. split; [lia|exact Z].
      * exists x, o. split; [lia|exact Y].
    + right; right. destruct X as (x & X1 & X). exists x. split; [lia|exact X].
  - right; right. exact ME.
Qed.
End Turn.

(** * At any time *)

Lemma prompt_clocked O ws ls tau d p : prompt O ws ls tau d p -> clocked ls tau.
Proof. intros P k tid e i. apply (pr_clock _ _ _ _ _ _ P). Qed.

Lemma token_any_time O ns ls es tau d c d' p s k j m n a lo hi mg wu :
  serving O ns ls es tau d c -> 0 <= d -> 0 <= c ->
  prompt O (worlds ns) (labels O ns ls) tau d' p -> 0 <= d' -> 0 <= p ->
  undisturbed (worlds ns) (labels O ns ls) s n -> good_provider O (worlds ns) s n lo hi ->
  (forall i act, (s <= i)%nat -> configured (worlds ns i) n act -> mg <= margin act (conf (worlds ns i)) <= tau s - time_min) ->
  (forall i, tau i + hi <= time_max) ->
  12 * d' + p < mg -> 14 * d' + p < lo ->
  holds (worlds ns s) n (TSActive a) -> ongoing a = false -> last_attempt a = None -> refresh_token a <> None ->
  tau s + 12 * d' + p < expiry a -> expiry a <= time_max ->
  (s <= k)%nat -> (k <= j)%nat ->
  let req := $"showtoken:" ++ wu ++ $" " ++ n in
  has_sent (ns k) m req -> (n_next (ns k) <= m)%nat ->
  ~ In " "%char wu -> utf8_valid (wu ++ $" " ++ n) = true ->
  (forall x, (k <= x)%nat -> (x <= j)%nat -> ~ next_breaks O (es x) (ns x)) ->
  deadline ns tau d c k m < tau (S j) ->
  w_alive (worlds ns j) = false \/ shown_token ns ls tau k j (deadline ns tau d c k m) m n req.
Proof.
  intros SE D0 C0 PR D1 P0 UN GP MG TM S1 S2 H OG LA RT SL EX L1 L2 req HS NX SP U NB T.
  apply (token_shown O ns ls es tau d c SE D0 C0 (prompt_clocked _ _ _ _ _ _ PR)); try assumption.
  intros x X1 X2. apply (valid_for_ever O (worlds ns) (labels O ns ls) tau d' p s x n a lo hi mg); try assumption. lia.
Qed.

Lemma token_in_outages O ns ls es tau d c d' p s k j m n a lo hi mg b g wu :
  serving O ns ls es tau d c -> 0 <= d -> 0 <= c ->
  prompt O (worlds ns) (labels O ns ls) tau d' p -> 0 <= d' -> 0 <= p -> 0 <= b -> 0 <= g ->
  undisturbed (worlds ns) (labels O ns ls) s n -> flaky_provider O (worlds ns) tau s n lo hi b ->
  (forall i act, (s <= i)%nat -> configured (worlds ns i) n act ->
     mg <= margin act (conf (worlds ns i)) <= tau s - time_min /\ retry_gap act (conf (worlds ns i)) <= g) ->
  (forall i, tau i + hi <= time_max) ->
  b + g + 24 * d' + 3 * p < mg -> b + g + 26 * d' + 3 * p < lo ->
  holds (worlds ns s) n (TSActive a) -> ongoing a = false -> last_attempt a = None -> refresh_token a <> None ->
  tau s + b + g + 24 * d' + 3 * p < expiry a -> expiry a <= time_max ->
  (s <= k)%nat -> (k <= j)%nat ->
  let req := $"showtoken:" ++ wu ++ $" " ++ n in
  has_sent (ns k) m req -> (n_next (ns k) <= m)%nat ->
  ~ In " "%char wu -> utf8_valid (wu ++ $" " ++ n) = true ->
  (forall x, (k <= x)%nat -> (x <= j)%nat -> ~ next_breaks O (es x) (ns x)) ->
  deadline ns tau d c k m < tau (S j) ->
  w_alive (worlds ns j) = false \/ shown_token ns ls tau k j (deadline ns tau d c k m) m n req.
Proof.
  intros SE D0 C0 PR D1 P0 B0 G0 UN GP MG TM S1 S2 H OG LA RT SL EX L1 L2 req HS NX SP U NB T.
  apply (token_shown O ns ls es tau d c SE D0 C0 (prompt_clocked _ _ _ _ _ _ PR)); try assumption.
  intros x X1 X2. apply (valid_in_outages O (worlds ns) (labels O ns ls) tau d' p s x n a lo hi mg b g); try assumption. lia.
Qed.
