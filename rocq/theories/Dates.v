(** The dates [pizauth status] shows (C92). *)
From Verif Require Import Base BaseLemmas Time Oracles Config State Server SpecServer SpecRestore Reach Basic SpecDates.
From Coq Require Import Lia ZArith Permutation.
From Coq Require Sorting.Sorted.
Local Open Scope Z_scope.

Lemma shown_dated O e off k i txt : in_step e off -> date_shown O (e_clk e k) i txt -> dated O off i txt.
Proof.
  intros IS D. destruct (IS k) as [[T1 T2] E].
  assert (wall (e_clk e k) i = i + off) as W by (unfold wall; lia).
  unfold dated. unfold date_shown, beyond in D. rewrite W in D.
  destruct (Z.leb_spec time_min (i + off)) as [L1|L1]; destruct (Z.leb_spec (i + off) time_max) as [L2|L2]; cbn [andb];
    destruct D as [[B ->]|[NB F]]; try reflexivity; try exact F; exfalso.
  - lia.
  - apply NB. right. lia.
  - apply NB. left. lia.
  - apply NB. left. lia.
Qed.

Lemma status_told O e off k j1 j2 ts txt : in_step e off ->
  status_ok O (e_clk e k) (e_clk e j1) (e_clk e j2) ts txt -> told O off (ri1 (e_clk e k)) ts txt.
Proof.
  intros IS S. destruct S as [|cv st u|cv i st u t D|a t1 t2 E D1 D2|a i t E L D|a E L]; cbn [told].
  - reflexivity.
  - reflexivity.
  - exists t. split; [exact (shown_dated _ _ _ _ _ _ IS D)|reflexivity].
  - destruct (Z.ltb_spec (ri1 (e_clk e k)) (expiry a)); [|lia]. exists t1, t2.
    split; [exact (shown_dated _ _ _ _ _ _ IS D1)|]. split; [exact (shown_dated _ _ _ _ _ _ IS D2)|reflexivity].
  - destruct (Z.ltb_spec (ri1 (e_clk e k)) (expiry a)); [lia|]. rewrite L. exists t.
    split; [exact (shown_dated _ _ _ _ _ _ IS D)|reflexivity].
  - destruct (Z.ltb_spec (ri1 (e_clk e k)) (expiry a)); [lia|]. rewrite L. reflexivity.
Qed.

Lemma in_combine {A B} (l : list A) (m : list B) k x y :
  nth_error l k = Some x -> nth_error m k = Some y -> In (x, y) (combine l m).
Proof.
  revert m k. induction l as [|a l IH]; intros [|b m] [|k]; cbn; try discriminate.
  - intros [= <-] [= <-]. left. reflexivity.
  - intros E1 E2. right. eapply IH; eassumption.
Qed.

Lemma all_told O w e off : reachable O w -> asked w e $"status:" -> in_step e off -> ~ breaks_down O w (LTick 0 e) ->
  exists lines, just_answers O w e $"status:" ($"ok:" ++ join [nl] lines)
    /\ List.length lines = List.length (details (w_lk w))
    /\ (forall n ts, holds w n ts -> exists k txt, In (n ++ $": " ++ txt) lines /\ told O off (ri1 (e_clk e k)) ts txt)
    /\ (forall l, In l lines -> exists n ts k txt, l = n ++ $": " ++ txt /\ holds w n ts /\ told O off (ri1 (e_clk e k)) ts txt).
Proof.
  intros R (A & N & C) IS NB. destruct (status_lists O w e R A N C NB) as (txts & lines & S & L & P & _ & K).
  exists lines. split; [exact S|]. split.
  { rewrite (Permutation_length P), map_length, combine_length, L. apply Nat.min_id. }
  split.
  - intros n ts (e0 & I0 & <- & <-). apply In_nth_error in I0. destruct I0 as [k N0].
    destruct (nth_error txts k) as [t|] eqn:NT.
    2: { apply nth_error_None in NT. assert (k < List.length (details (w_lk w)))%nat by (apply nth_error_Some; congruence). lia. }
    exists (3 * k)%nat, t. split; [|exact (status_told _ _ _ _ _ _ _ _ IS (K k e0 t N0 NT))].
    apply (Permutation_in _ (Permutation_sym P)). apply in_map_iff. exists (e0, t). split; [reflexivity|].
    eapply in_combine; eassumption.
  - intros l Hl. apply (Permutation_in _ P) in Hl. apply in_map_iff in Hl. destruct Hl as ([e0 t] & <- & I0).
    cbn [fst snd]. apply In_nth_error in I0. destruct I0 as [k NC].
    assert (nth_error (details (w_lk w)) k = Some e0 /\ nth_error txts k = Some t) as [N0 NT].
    { clear - NC. revert txts k NC. induction (details (w_lk w)) as [|x l IH]; intros [|y m] [|k]; cbn; try discriminate.
      - intros [= -> ->]. auto.
      - apply IH. }
    exists (d_name e0), (d_ts e0), (3 * k)%nat, t. split; [reflexivity|].
    split; [exists e0; split; [eapply nth_error_In; exact N0|auto]|].
    exact (status_told _ _ _ _ _ _ _ _ IS (K k e0 t N0 NT)).
Qed.

Lemma dated_same O off i d1 d2 : dated O off i d1 -> dated O off i d2 -> d1 = d2.
Proof. unfold dated. destruct ((time_min <=? i + off) && (i + off <=? time_max)); congruence. Qed.

Lemma told_same O off e1 e2 k1 k2 ts t1 t2 : same_side e1 e2 ts ->
  told O off (ri1 (e_clk e1 k1)) ts t1 -> told O off (ri1 (e_clk e2 k2)) ts t2 -> t1 = t2.
Proof.
  destruct ts as [|cv [i|] st u|a]; cbn [told same_side]; intros SS.
  - congruence.
  - intros (d1 & D1 & ->) (d2 & D2 & ->). rewrite (dated_same _ _ _ _ _ D1 D2). reflexivity.
  - congruence.
  - assert ((ri1 (e_clk e1 k1) <? expiry a) = (ri1 (e_clk e2 k2) <? expiry a)) as ->.
    { destruct SS as [SS|SS]; pose proof (proj1 (SS k1)); pose proof (proj2 (SS k2));
        destruct (Z.ltb_spec (ri1 (e_clk e1 k1)) (expiry a)); destruct (Z.ltb_spec (ri1 (e_clk e2 k2)) (expiry a)); lia. }
    destruct (ri1 (e_clk e2 k2) <? expiry a).
    + intros (d1 & d2 & D1 & D2 & ->) (d1' & d2' & D1' & D2' & ->).
      rewrite (dated_same _ _ _ _ _ D1 D1'), (dated_same _ _ _ _ _ D2 D2'). reflexivity.
    + destruct (last_attempt a) as [i|]; [|congruence].
      intros (d1 & D1 & ->) (d2 & D2 & ->). rewrite (dated_same _ _ _ _ _ D1 D2). reflexivity.
Qed.

Lemma dates_stay O w1 e1 w2 e2 off n ts :
  reachable O w1 -> asked w1 e1 $"status:" -> in_step e1 off -> ~ breaks_down O w1 (LTick 0 e1) ->
  reachable O w2 -> asked w2 e2 $"status:" -> in_step e2 off -> ~ breaks_down O w2 (LTick 0 e2) ->
  holds w1 n ts -> holds w2 n ts -> same_side e1 e2 ts ->
  exists line lines1 lines2,
    just_answers O w1 e1 $"status:" ($"ok:" ++ join [nl] lines1)
    /\ just_answers O w2 e2 $"status:" ($"ok:" ++ join [nl] lines2)
    /\ In (n ++ $": " ++ line) lines1 /\ In (n ++ $": " ++ line) lines2.
Proof.
  intros R1 A1 I1 B1 R2 A2 I2 B2 H1 H2 SS.
  destruct (all_told O w1 e1 off R1 A1 I1 B1) as (ls1 & J1 & _ & K1 & _).
  destruct (all_told O w2 e2 off R2 A2 I2 B2) as (ls2 & J2 & _ & K2 & _).
  destruct (K1 n ts H1) as (k1 & t1 & L1 & T1). destruct (K2 n ts H2) as (k2 & t2 & L2 & T2).
  pose proof (told_same _ _ _ _ _ _ _ _ _ SS T1 T2) as <-. exists t1, ls1, ls2. auto.
Qed.
