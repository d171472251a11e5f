(** When nobody dawdles clients and browsers are served in time. *)
From Verif Require Import Base BaseLemmas Time Utf8 Base64 Url Json Oracles Config Dump State Http Timers Server
  StateLemmas ConfigLemmas Steps Inv Reach Own SpecServer SpecTimers SpecSessions SpecFair SpecTimed SpecReturn
  Wire SpecWire SpecServe WireLemmas WireNet Trace Refresh Sessions Fair TimedReturn.
Local Open Scope Z_scope.

Lemma net_reach O ns ls k : nets O ns ls -> net_reachable O (ns k).
Proof.
  intros N. induction k as [|k IH]; [exact (ne_start _ _ _ N)|]. pose proof (ne_next _ _ _ N k) as X.
  destruct (ls k) as [l|]; [eapply nreach_step; eassumption|rewrite X; exact IH].
Qed.

(** The sockets can be forgotten. *)
Lemma net_endless O ns ls : nets O ns ls -> endless O (worlds ns) (labels O ns ls).
Proof.
  intros N. constructor; [apply refines; exact (ne_start _ _ _ N)|]. intros k. unfold worlds, labels.
  pose proof (ne_next _ _ _ N k) as X. destruct (ls k) as [l|]; [|rewrite X; reflexivity].
  apply net_step_iff in X. destruct X as [_ X]. inversion X as [|n p ps N2|n f ps N2 NF|e ps M N2|e ps w' M N2 S|https P|n p h ps b N2|n f h ps b N2 NF|n h c0 bytes w' N2 RB S|tid e w' NM S];
    subst; cbn [label_of n_world]; try reflexivity.
  - rewrite N2. reflexivity.
  - rewrite N2. exact S.
  - rewrite N2, RB. exact S.
  - exact S.
Qed.

(** How many things thread 0 has to do for a request. *)
Lemma main_chain O w e lk' p' os : csr O w e PMain lk' p' os -> (List.length (chain p') <= 3)%nat
  /\ (p' = PMain \/ exists a k, p' = PDo a k).
Proof.
  intros C. inversion C; subst; unfold reply; cbn [chain List.length]; split; try lia; eauto.
Qed.

(** It never has more than three things to do. *)
Lemma main_three O w : reachable O w -> forall q, nth_error (w_threads w) 0 = Some q -> (List.length (chain q) <= 3)%nat.
Proof.
  revert w. apply (reach_ind O (fun w => forall q, nth_error (w_threads w) 0 = Some q -> (List.length (chain q) <= 3)%nat)).
  - intros e c0 hp hsp pk C CO q Q. cbn in Q. injection Q as <-. cbn. lia.
  - intros w l w' R I I' A IH ST T q Q.
    destruct (nth_error (w_threads w) 0) as [p|] eqn:P.
    2:{ apply nth_error_None in P. pose proof (ro_len _ (reach_roles _ _ R)). lia. }
    assert ((exists e, l = LTick 0 e) \/ forall e, l <> LTick 0 e) as [[e ->]|NL].
    { destruct l as [[|t] e|h b]; [left; eauto|right|right]; intros; discriminate. }
    2:{ pose proof (tstep_other _ _ _ _ _ _ T NL P) as Q'. rewrite Q in Q'. injection Q' as ->. exact (IH _ eq_refl). }
    destruct (main_role _ _ _ R P) as [->|(a & k & ->)].
    + inversion T as [tid2 e2 p lk' p' os NP CS|tid2 e2 p w2 NP SY|]; subst.
      * rewrite P in NP. injection NP as <-.
        change (nth_error (list_set 0 p' (w_threads w)) 0 = Some q) in Q. rewrite (nth_list_set_same _ _ _ _ P) in Q. injection Q as <-.
        exact (proj1 (main_chain _ _ _ _ _ _ CS)).
      * rewrite P in NP. injection NP as <-. inversion SY.
    + specialize (IH _ eq_refl). cbn [chain List.length] in IH. unfold step in ST. rewrite A, P in ST. cbn in ST. injection ST as <-.
      enough (nth_error (w_threads (do_action (set_thread w 0 k) a)) 0 = Some k) as E by (rewrite E in Q; injection Q as <-; lia).
      assert (nth_error (list_set 0 k (w_threads w)) 0 = Some k) as E by (eapply nth_list_set_same; exact P). destruct a; try exact E.
      change (nth_error (list_set 0 k (w_threads w) ++ [PRefStart i]) 0 = Some k).
      rewrite nth_error_app1; [exact E|]. apply nth_error_Some. congruence.
Qed.

Section Serve.
Variable O : oracles.
Variable ns : nat -> net.
Variable ls : nat -> option nlabel.
Variable es : nat -> env.
Variable tau : nat -> Z.
Variable d c : Z.
Hypothesis SE : serving O ns ls es tau d c.
Hypothesis D0 : 0 <= d.

Let NE : nets O ns ls := se_nets _ _ _ _ _ _ _ SE.
Let EN : endless O (worlds ns) (labels O ns ls) := net_endless _ _ _ NE.
Notation reach k := (net_reach O ns ls k NE).
Notation alive k := (w_alive (n_world (ns k)) = true).
Notation dead k := (w_alive (n_world (ns k)) = false).
Notation main k q := (nth_error (w_threads (n_world (ns k))) 0 = Some q).

Lemma forward k j : (k <= j)%nat -> tau k <= tau j.
Proof. induction 1 as [|j L IH]; [lia|]. pose proof (se_forward _ _ _ _ _ _ _ SE j). lia. Qed.

Lemma net_steps k : ns (S k) = ns k \/ exists l, ls k = Some l /\ nstep O (ns k) l (ns (S k)) /\ alive k.
Proof.
  pose proof (ne_next _ _ _ NE k) as X. destruct (ls k) as [l|]; [right|left; exact X].
  apply net_step_iff in X. destruct X as [A X]. eauto.
Qed.

Lemma dead_stays k j : (k <= j)%nat -> dead k -> dead j.
Proof.
  induction 1 as [|j L IH]; [auto|]. intros X. specialize (IH X).
  destruct (net_steps j) as [E|(l & _ & _ & A)]; [rewrite E; exact IH|congruence].
Qed.

(** A client that has said all stays so. *)
Lemma told_stays k j n ps f : (k <= j)%nat -> nth_error (n_clients (ns k)) n = Some (mkConn ps f) -> f <> Open ->
  nth_error (n_clients (ns j)) n = Some (mkConn ps f).
Proof.
  intros L A F. induction L as [|j L IH]; [exact A|].
  destruct (net_steps j) as [E|(l & _ & X & _)]; [rewrite E; exact IH|].
  inversion X as [|n2 p ps2 N2|n2 f2 ps2 N2 NF|e ps2 M N2|e ps2 w' M N2 S|https P|n2 p h ps2 b N2|n2 f2 h ps2 b N2 NF|n2 h c0 bytes w' N2 RB S|tid e w' NM S];
    cbn [n_clients]; try exact IH.
  - rewrite nth_error_app1; [exact IH|]. apply nth_error_Some. congruence.
  - rewrite nth_error_list_set_ne; [exact IH|]. intros ->. congruence.
  - rewrite nth_error_list_set_ne; [exact IH|]. intros ->. congruence.
Qed.

Lemma clients_grow k j : (k <= j)%nat -> (List.length (n_clients (ns k)) <= List.length (n_clients (ns j)))%nat.
Proof.
  induction 1 as [|j L IH]; [lia|].
  destruct (net_steps j) as [E|(l & _ & X & _)]; [rewrite E; exact IH|].
  inversion X; cbn [n_clients]; rewrite ?app_length, ?list_set_length; lia.
Qed.

Lemma next_grows k j : (k <= j)%nat -> (n_next (ns k) <= n_next (ns j))%nat.
Proof.
  induction 1 as [|j L IH]; [lia|].
  destruct (net_steps j) as [E|(l & _ & X & _)]; [rewrite E; exact IH|].
  inversion X; cbn [n_next]; lia.
Qed.

(** When [c] has passed all clients have said what they want. *)
Lemma all_told k x n : (n < List.length (n_clients (ns k)))%nat -> (k <= x)%nat -> tau k + c < tau (S x) ->
  exists ps f, nth_error (n_clients (ns x)) n = Some (mkConn ps f) /\ f <> Open.
Proof.
  intros L LX T.
  assert (forall i, (k <= i)%nat -> exists cn, nth_error (n_clients (ns i)) n = Some cn) as EX.
  { intros i LI. pose proof (clients_grow k i LI). destruct (nth_error (n_clients (ns i)) n) as [cn|] eqn:E; [eauto|].
    apply nth_error_None in E. lia. }
  destruct (EX x LX) as ([ps f] & E). exists ps, f. split; [exact E|]. intros ->.
  enough (tau (S x) <= tau k + c) by lia. apply (se_sent _ _ _ _ _ _ _ SE n k x LX).
  intros i I1 I2. destruct (EX i I1) as ([ps2 f2] & E2). destruct f2; [eauto| |];
    pose proof (told_stays i x n _ _ I2 E2 ltac:(discriminate)) as E3; congruence.
Qed.

(** ** Thread 0 finishes what it has begun *)

Lemma first_after k j b : (k <= j)%nat -> tau k + b < tau (S j) -> 0 <= b ->
  exists x, (k <= x)%nat /\ (x <= j)%nat /\ tau x <= tau k + b /\ tau k + b < tau (S x).
Proof.
  induction 1 as [|j L IH]; intros T B; [exists k; repeat split; lia|].
  destruct (Z.lt_ge_cases (tau k + b) (tau (S j))) as [X|X].
  - destruct (IH X B) as (x & X1 & X2 & X3 & X4). exists x. repeat split; try assumption. lia.
  - exists (S j). repeat split; try lia.
Qed.

Lemma other_keeps k q : main k q -> ~ goes (labels O ns ls) k 0 -> main (S k) q.
Proof. intros A G. exact (at_next O (worlds ns) (labels O ns ls) EN k 0 q A G). Qed.

Lemma same_next k l : nstep O (ns k) l (ns (S k)) -> (forall e, l <> NMain e) -> n_next (ns (S k)) = n_next (ns k).
Proof. intros X NM. inversion X; subst; cbn [n_next]; try reflexivity; exfalso; eapply NM; reflexivity. Qed.

(** One thing at a time. *)
Lemma one_action k j a q : (k <= j)%nat -> main k (PDo a q) -> tau k + d < tau (S j) ->
  dead j \/ exists g, (k < g)%nat /\ (g <= j)%nat /\ main g q /\ n_next (ns g) = n_next (ns k) /\ tau g <= tau k + d.
Proof.
  intros L A T.
  assert (forall x, (k <= x)%nat -> (x <= j)%nat ->
    (forall i, (k <= i)%nat -> (i <= x)%nat -> alive i /\ main i (PDo a q)) /\ n_next (ns x) = n_next (ns k)
    \/ dead x
    \/ exists g, (k < g)%nat /\ (g <= x)%nat /\ main g q /\ n_next (ns g) = n_next (ns k) /\ tau g <= tau k + d) as X.
  { intros x LX. induction LX as [|x LX IH]; intros LJ.
    - destruct (w_alive (n_world (ns k))) eqn:AL; [left|right; left; reflexivity]. split; [|reflexivity].
      intros i I1 I2. assert (i = k) as -> by lia. auto.
    - destruct (IH ltac:(lia)) as [[F N]|[D|(g & G1 & G2 & G)]].
      2:{ right; left. apply (dead_stays x); [lia|exact D]. }
      2:{ right; right. exists g. split; [exact G1|]. split; [lia|exact G]. }
      destruct (F x LX (le_n _)) as [AX MX].
      destruct (goes_dec (labels O ns ls) x 0) as [[e G]|NG].
      + pose proof (en_next _ _ _ EN x) as ST. rewrite G in ST. unfold worlds in ST.
        right; right. exists (S x). split; [lia|]. split; [lia|].
        destruct (done_next O (worlds ns) (labels O ns ls) EN x 0 a q e MX ST) as [_ M']. split; [exact M'|]. split.
        * rewrite <- N. unfold labels in G. destruct (ls x) as [l|] eqn:LS; [|discriminate G].
          pose proof (ne_next _ _ _ NE x) as NX. rewrite LS in NX. apply net_step_iff in NX. destruct NX as [_ NX].
          apply (same_next x l NX). intros e1 ->. inversion NX; subst; unfold worlds in *; congruence.
        * apply (se_action _ _ _ _ _ _ _ SE a q k x LX). intros i I1 I2. apply F; assumption.
      + pose proof (other_keeps x _ MX NG) as M'.
        destruct (w_alive (n_world (ns (S x)))) eqn:AL; [left|right; left; reflexivity]. split.
        * intros i I1 I2. destruct (Nat.eq_dec i (S x)) as [->|NI]; [auto|apply F; lia].
        * rewrite <- N. destruct (net_steps x) as [E|(l & LS & NX & _)]; [rewrite E; reflexivity|].
          apply (same_next x l NX). intros e1 ->. inversion NX; subst; congruence. }
  destruct (X j L (le_n _)) as [[F _]|[D|G]]; [exfalso|left; exact D|right; exact G].
  pose proof (se_action _ _ _ _ _ _ _ SE a q k j L F). lia.
Qed.

Lemma finishes : forall q k j, (k <= j)%nat -> main k q ->
  tau k + Z.of_nat (List.length (chain q)) * d < tau (S j) ->
  dead j \/ exists g, (k <= g)%nat /\ (g <= j)%nat /\ at_main (ns g) /\ n_next (ns g) = n_next (ns k)
    /\ tau g <= tau k + Z.of_nat (List.length (chain q)) * d.
Proof.
  induction q; intros k j L A T; pose proof (main_role _ _ _ (refines _ _ (reach k)) A) as M;
    try (exfalso; destruct M as [M|(? & ? & M)]; discriminate M).
  - cbn [chain List.length] in *. destruct (one_action k j a q L A) as [D|(g & G1 & G2 & G3 & G4 & G5)]; [nia|left; exact D|].
    destruct (IHq g j G2 G3) as [D|(h & H1 & H2 & H3 & H4 & H5)]; [nia|left; exact D|].
    right. exists h. repeat split; [lia|exact H2|exact H3|congruence|nia].
  - right. cbn [chain List.length] in *. exists k. repeat split; [lia|exact L|exact A|lia].
Qed.

(** ** The next client is served *)

Lemma one_turn k j ps f : (k <= j)%nat -> at_main (ns k) ->
  nth_error (n_clients (ns k)) (n_next (ns k)) = Some (mkConn ps f) -> f <> Open ->
  (forall x, (k <= x)%nat -> (x <= j)%nat -> ~ next_breaks O (es x) (ns x)) ->
  tau k + d < tau (S j) ->
  dead j \/ exists g q, (k < g)%nat /\ (g <= j)%nat /\ main g q /\ (List.length (chain q) <= 3)%nat
    /\ n_next (ns g) = S (n_next (ns k)) /\ tau g <= tau k + d.
Proof.
  intros L A N F NB T.
  assert (forall x, (k <= x)%nat -> (x <= j)%nat ->
    (forall i, (k <= i)%nat -> (i <= x)%nat -> alive i /\ at_main (ns i) /\ n_next (ns i) = n_next (ns k))
    \/ dead x
    \/ exists g q, (k < g)%nat /\ (g <= x)%nat /\ main g q /\ (List.length (chain q) <= 3)%nat
        /\ n_next (ns g) = S (n_next (ns k)) /\ tau g <= tau k + d) as X.
  { intros x LX. induction LX as [|x LX IH]; intros LJ.
    - destruct (w_alive (n_world (ns k))) eqn:AL; [left|right; left; reflexivity].
      intros i I1 I2. assert (i = k) as -> by lia. auto.
    - destruct (IH ltac:(lia)) as [G|[D|(g & q & G1 & G2 & G)]].
      2:{ right; left. apply (dead_stays x); [lia|exact D]. }
      2:{ right; right. exists g, q. split; [exact G1|]. split; [lia|exact G]. }
      destruct (G x LX (le_n _)) as (AX & MX & NX).
      assert (tau (S x) <= tau k + d) as TX.
      { apply (se_read _ _ _ _ _ _ _ SE (n_next (ns k)) k x LX). intros i I1 I2. destruct (G i I1 I2) as (Y1 & Y2 & Y3).
        split; [exact Y1|]. split; [exact Y2|]. split; [exact Y3|]. split.
        - exists ps, f. split; [|exact F]. exact (told_stays k i _ _ _ I1 N F).
        - apply NB; lia. }
      assert (at_main (ns (S x)) /\ n_next (ns (S x)) = n_next (ns k)
        \/ exists q, main (S x) q /\ (List.length (chain q) <= 3)%nat /\ n_next (ns (S x)) = S (n_next (ns k))) as [[M' N']|(q & Q1 & Q2 & Q3)].
      { destruct (net_steps x) as [E|(l & LS & ST & _)]; [left; rewrite E; auto|].
        inversion ST as [|n2 p ps2 N2|n2 f2 ps2 N2 NF|e ps2 M N2|e ps2 w' M N2 S2|https P|n2 p h ps2 b N2|n2 f2 h ps2 b N2 NF|n2 h c0 bytes w' N2 RB S2|tid e w' NM S2];
          unfold at_main in *; cbn [n_world n_next]; try (left; split; assumption).
        - right. exists PMain. split; [exact MX|]. split; [cbn; lia|congruence].
        - right. destruct (step_ok _ _ _ _ (reach_inv _ _ (refines _ _ (reach x))) S2) as (_ & _ & TS & _).
          inversion TS as [tid2 e2 p lk' p' os NP CS|tid2 e2 p w2 NP SY|]; subst.
          + rewrite M in NP. injection NP as <-. exists p'. split; [|split; [exact (proj1 (main_chain _ _ _ _ _ _ CS))|congruence]].
            exact (nth_list_set_same _ _ _ _ M).
          + rewrite M in NP. injection NP as <-. inversion SY.
        - left. split; [|exact NX].
          pose proof (other_keeps x PMain MX) as OK. rewrite <- H0 in OK. apply OK. intros [e2 G2].
          unfold labels in G2. rewrite LS in G2. rewrite <- H in G2. cbn [label_of] in G2. rewrite N2, RB in G2. discriminate G2.
        - left. split; [|exact NX]. assert (tid <> 0%nat) as NT by (intros ->; congruence).
          pose proof (other_keeps x PMain MX) as OK. rewrite <- H0 in OK. apply OK. intros [e2 G2].
          unfold labels in G2. rewrite LS in G2. rewrite <- H in G2. cbn [label_of] in G2. congruence. }
      + destruct (w_alive (n_world (ns (S x)))) eqn:AL; [left|right; left; reflexivity].
        intros i I1 I2. destruct (Nat.eq_dec i (S x)) as [->|NI]; [auto|apply G; lia].
      + right; right. exists (S x), q. repeat split; try assumption; lia. }
  destruct (X j L (le_n _)) as [G|[D|G]]; [exfalso|left; exact D|right; exact G].
  enough (tau (S j) <= tau k + d) by lia.
  apply (se_read _ _ _ _ _ _ _ SE (n_next (ns k)) k j L). intros i I1 I2. destruct (G i I1 I2) as (Y1 & Y2 & Y3).
  split; [exact Y1|]. split; [exact Y2|]. split; [exact Y3|]. split.
  - exists ps, f. split; [|exact F]. exact (told_stays k i _ _ _ I1 N F).
  - apply NB; lia.
Qed.

Lemma attended_by g n : (n < n_next (ns g))%nat -> at_main (ns g) -> attended (ns g) n.
Proof.
  intros L M. split; [exact L|]. split; [exact M|]. intros ps N.
  rewrite (sv_heard _ (reach_served _ _ (reach g))). apply in_flat_map. exists (mkConn ps Ended). split; [|left; reflexivity].
  apply (nth_error_In _ n). rewrite <- N. clear N. revert L. generalize (n_next (ns g)) as m. generalize (n_clients (ns g)) as l.
  clear. intros l m. revert l n. induction m as [|m IH]; intros l n L; [lia|]. destruct l as [|a l]; [reflexivity|].
  destruct n as [|n]; [reflexivity|]. cbn. apply IH. lia.
Qed.

Lemma all_turns j n : forall b k, (k <= j)%nat -> at_main (ns k) -> (n < n_next (ns k) + b)%nat ->
  (forall m, (m <= n)%nat -> exists ps f, nth_error (n_clients (ns k)) m = Some (mkConn ps f) /\ f <> Open) ->
  (forall x, (k <= x)%nat -> (x <= j)%nat -> ~ next_breaks O (es x) (ns x)) ->
  tau k + Z.of_nat b * (4 * d) < tau (S j) ->
  dead j \/ exists x, (k <= x)%nat /\ (x <= j)%nat /\ attended (ns x) n /\ tau x <= tau k + Z.of_nat b * (4 * d).
Proof.
  induction b as [|b IH]; intros k L M B TOLD NB T.
  - right. exists k. repeat split; [lia|exact L|lia|exact M|apply attended_by; [lia|exact M]|lia].
  - destruct (Nat.lt_ge_cases n (n_next (ns k))) as [LT|GE].
    { right. exists k. split; [lia|]. split; [exact L|]. split; [apply attended_by; assumption|nia]. }
    destruct (TOLD _ GE) as (ps & f & N & F).
    destruct (one_turn k j ps f L M N F NB) as [D|(g & q & G1 & G2 & G3 & G4 & G5 & G6)]; [nia|left; exact D|].
    destruct (finishes q g j G2 G3) as [D|(h & H1 & H2 & H3 & H4 & H5)]; [nia|left; exact D|].
    assert (k <= h)%nat as LH by lia.
    destruct (IH h H2 H3) as [D|(x & X1 & X2 & X3 & X4)]; [lia| | |nia|left; exact D|].
    + intros m LM. destruct (TOLD m LM) as (ps2 & f2 & N2 & F2). exists ps2, f2. split; [|exact F2].
      exact (told_stays k h _ _ _ LH N2 F2).
    + intros x X1 X2. apply NB; lia.
    + right. exists x. repeat split; [lia|exact X2|apply X3|apply X3|apply X3|nia].
Qed.

Hypothesis C0 : 0 <= c.

Lemma clients_served k j n : (n < List.length (n_clients (ns k)))%nat -> (k <= j)%nat ->
  (forall x, (k <= x)%nat -> (x <= j)%nat -> ~ next_breaks O (es x) (ns x)) ->
  tau k + c + 3 * d + Z.max 0 (ahead (ns k) n + 1) * (4 * d) < tau (S j) ->
  dead j \/ exists x, (k <= x)%nat /\ (x <= j)%nat /\ attended (ns x) n
     /\ tau x <= tau k + c + 3 * d + Z.max 0 (ahead (ns k) n + 1) * (4 * d).
Proof.
  intros L LJ NB T. unfold ahead in *.
  set (b := Z.to_nat (Z.of_nat n - Z.of_nat (n_next (ns k)) + 1)) in *.
  assert (Z.max 0 (Z.of_nat n - Z.of_nat (n_next (ns k)) + 1) = Z.of_nat b) as EB by lia.
  rewrite EB in *. assert (0 <= Z.of_nat b) as B0 by lia.
  destruct (first_after k j c LJ) as (x & X1 & X2 & X3 & X4); [nia|exact C0|].
  assert (exists q, main x q) as [q Q].
  { destruct (nth_error (w_threads (n_world (ns x))) 0) as [q|] eqn:E; [eauto|].
    apply nth_error_None in E. pose proof (ro_len _ (reach_roles _ _ (refines _ _ (reach x)))). lia. }
  pose proof (main_three _ _ (refines _ _ (reach x)) _ Q) as Q3.
  destruct (finishes q x j X2 Q) as [D|(g & G1 & G2 & G3 & G4 & G5)]; [nia|left; exact D|].
  destruct (all_turns j n b g G2 G3) as [D|(y & Y1 & Y2 & Y3 & Y4)].
  - pose proof (next_grows k g ltac:(lia)). lia.
  - intros m LM. destruct (all_told k x m) as (ps & f & N & F); [lia|exact X1|exact X4|].
    exists ps, f. split; [|exact F]. exact (told_stays x g _ _ _ G1 N F).
  - intros y Y1 Y2. apply NB; lia.
  - nia.
  - left. exact D.
  - right. exists y. split; [lia|]. split; [exact Y2|]. split; [exact Y3|nia].
Qed.

(** ** Browsers *)

Lemma due_step k n b : nth_error (n_browsers (ns k)) n = Some b -> b_read b = false -> due b ->
  (exists b', nth_error (n_browsers (ns (S k))) n = Some b' /\ b_read b' = false /\ due b')
  \/ (ls k = Some (NRead n)
      /\ exists https bytes, nth_error (w_threads (n_world (ns (S k)))) (List.length (w_threads (n_world (ns k)))) = Some (PHttpStart https bytes)).
Proof.
  intros N B D. destruct (net_steps k) as [E|(l & LS & ST & AL)]; [left; rewrite E; eauto|].
  rewrite LS. revert ST. generalize (ns (S k)) as s'. intros s' ST.
  destruct ST as [|n2 p ps2 N2|n2 f2 ps2 N2 NF|e ps2 M N2|e ps2 w' M N2 S2|https P|n2 p h ps2 b2 N2|n2 f2 h ps2 b2 N2 NF|n2 h c0 bytes w' N2 RB S2|tid e w' NM S2];
    cbn [n_browsers]; try (left; exists b; auto; fail).
  - left. exists b. split; [|auto]. rewrite nth_error_app1; [exact N|]. apply nth_error_Some. congruence.
  - left. destruct (Nat.eq_dec n2 n) as [->|NN]; [|exists b; rewrite nth_error_list_set_ne by congruence; auto].
    eexists. split; [eapply nth_list_set_same; exact N|]. assert (b = mkBrowser h (mkConn ps2 Open) b2) as -> by congruence.
    split; [exact B|]. apply (due_iff O) in D. apply (due_iff O). cbn [b_https b_conn c_in c_fin] in D |- *. rewrite (settled _ _ _ _ _ D). exact D.
  - left. destruct (Nat.eq_dec n2 n) as [->|NN]; [|exists b; rewrite nth_error_list_set_ne by congruence; auto].
    eexists. split; [eapply nth_list_set_same; exact N|]. assert (b = mkBrowser h (mkConn ps2 Open) b2) as -> by congruence.
    split; [exact B|]. left. exact NF.
  - destruct (Nat.eq_dec n2 n) as [->|NN]; [right|left; exists b; rewrite nth_error_list_set_ne by congruence; auto].
    split; [reflexivity|]. exists h, bytes. cbn [n_world].
    destruct (step_ok _ _ _ _ (reach_inv _ _ (refines _ _ (reach k))) S2) as (_ & _ & TS & _).
    inversion TS as [| |h1 b1 PO HL]. cbn [w_threads emit add_thread]. rewrite nth_error_app2 by lia.
    rewrite Nat.sub_diag. reflexivity.
Qed.

Lemma browser_read k j n b : (k <= j)%nat -> nth_error (n_browsers (ns k)) n = Some b -> b_read b = false -> due b ->
  tau k + d < tau (S j) ->
  dead j \/ exists g https bytes, (k <= g)%nat /\ (g < j)%nat /\ ls g = Some (NRead n) /\ tau (S g) <= tau k + d
    /\ nth_error (w_threads (n_world (ns (S g)))) (List.length (w_threads (n_world (ns g)))) = Some (PHttpStart https bytes).
Proof.
  intros L N B D T.
  assert (forall x, (k <= x)%nat -> (x <= j)%nat ->
    (forall i, (k <= i)%nat -> (i <= x)%nat -> alive i /\ exists b, nth_error (n_browsers (ns i)) n = Some b /\ b_read b = false /\ due b)
    \/ dead x
    \/ exists g https bytes, (k <= g)%nat /\ (g < x)%nat /\ ls g = Some (NRead n) /\ tau (S g) <= tau k + d
        /\ nth_error (w_threads (n_world (ns (S g)))) (List.length (w_threads (n_world (ns g)))) = Some (PHttpStart https bytes)) as X.
  { intros x LX. induction LX as [|x LX IH]; intros LJ.
    - destruct (w_alive (n_world (ns k))) eqn:AL; [left|right; left; reflexivity].
      intros i I1 I2. assert (i = k) as -> by lia. eauto.
    - destruct (IH ltac:(lia)) as [G|[DX|(g & h & bs & G1 & G2 & G)]].
      2:{ right; left. apply (dead_stays x); [lia|exact DX]. }
      2:{ right; right. exists g, h, bs. split; [exact G1|]. split; [lia|exact G]. }
      destruct (G x LX (le_n _)) as (AX & b1 & N1 & B1 & D1).
      destruct (due_step x n b1 N1 B1 D1) as [BX|[RX (h & bs & PX)]].
      + destruct (w_alive (n_world (ns (S x)))) eqn:AL; [left|right; left; reflexivity].
        intros i I1 I2. destruct (Nat.eq_dec i (S x)) as [->|NI]; [auto|apply G; lia].
      + right; right. exists x, h, bs. repeat split; try assumption; [lia|].
        apply (se_browser _ _ _ _ _ _ _ SE n k x LX). exact G. }
  destruct (X j L (le_n _)) as [G|[DX|G]]; [exfalso|left; exact DX|right; exact G].
  pose proof (se_browser _ _ _ _ _ _ _ SE n k j L G). lia.
Qed.

Lemma browsers_answered p k j n b : browsing O (worlds ns) (labels O ns ls) tau d p ->
  (k <= j)%nat -> nth_error (n_browsers (ns k)) n = Some b -> b_read b = false -> due b ->
  tau k + 3 * d < tau (S j) ->
  dead j \/ answered ns ls k j n.
Proof.
  intros BR L N B D T. destruct (browser_read k j n b L N B D) as [DJ|(g & h & bs & G1 & G2 & G3 & G4 & G5)]; [lia|left; exact DJ|].
  right. set (tid := List.length (w_threads (n_world (ns g)))) in *.
  destruct (browser_answered O (worlds ns) (labels O ns ls) tau d p BR D0 (S g) j tid h bs G5) as (x & r & X1 & X2 & [e X3] & X4); [lia|lia|].
  unfold labels in X3. destruct (ls x) as [l|] eqn:LX; [|discriminate X3].
  assert (l = NTick tid e) as ->.
  { destruct l as [| | |e0| | | |m|t e0]; cbn [label_of] in X3; try discriminate X3.
    - destruct (nth_error (n_clients (ns x)) (n_next (ns x))) as [[ps f]|]; [|discriminate X3]. destruct f; try discriminate X3.
      exfalso. injection X3 as X3 _. pose proof (ro_len _ (reach_roles _ _ (refines _ _ (reach g)))). subst tid. lia.
    - destruct (nth_error (n_browsers (ns x)) m) as [b1|]; [|discriminate X3]. destruct (request_bytes O b1); discriminate X3.
    - congruence. }
  exists g, x, e, r. repeat split; try assumption; lia.
Qed.
End Serve.
