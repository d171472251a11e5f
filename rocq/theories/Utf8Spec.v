(** Utf8.v does what SpecUtf8.v says. *)
From Verif Require Import Base BaseLemmas Utf8 UrlLemmas Utf8Lemmas SpecUtf8.
Local Open Scope N_scope.
Local Open Scope list_scope.

Lemma between_chr lo hi n : n < 256 -> between lo hi (ascii_of_N n) = ((lo <=? n) && (n <=? hi)).
Proof. intros L. unfold between. rewrite N_ascii_embedding by exact L. reflexivity. Qed.

Lemma split64 x y : y < 64 -> (x * 64 + y) / 64 = x /\ (x * 64 + y) mod 64 = y.
Proof.
  intros L. split.
  - rewrite N.div_add_l by lia. rewrite N.div_small by exact L. lia.
  - rewrite N.add_comm, N.mod_add by lia. apply N.mod_small, L.
Qed.

(** The four shapes of an encoding. *)
Inductive shape : list N -> Prop :=
| sh1 a : a < 128 -> shape [a]
| sh2 a b : 194 <= a < 224 -> 128 <= b < 192 -> shape [a; b]
| sh3 a b c : 224 <= a < 240 -> 128 <= b < 192 -> 128 <= c < 192 ->
    (a = 224 -> 160 <= b) -> (a = 237 -> b < 160) -> shape [a; b; c]
| sh4 a b c d : 240 <= a < 245 -> 128 <= b < 192 -> 128 <= c < 192 -> 128 <= d < 192 ->
    (a = 240 -> 144 <= b) -> (a = 244 -> b < 144) -> shape [a; b; c; d].

Lemma mod64 x : x mod 64 < 64. Proof. apply N.mod_lt. lia. Qed.

Lemma encoding_shape c : scalar c -> exists l, shape l /\ encoding c = map ascii_of_N l.
Proof.
  intros (L & NS). unfold encoding.
  pose proof (mod64 c) as M0. pose proof (mod64 (c / 64)) as M1. pose proof (mod64 (c / 4096)) as M2.
  pose proof (N.div_mod' c 64) as D0. pose proof (N.div_mod' (c / 64) 64) as D1. pose proof (N.div_mod' (c / 4096) 64) as D2.
  assert (c / 64 / 64 = c / 4096) as E1 by (rewrite N.div_div by lia; reflexivity).
  assert (c / 4096 / 64 = c / 262144) as E2 by (rewrite N.div_div by lia; reflexivity).
  rewrite E1 in D1. rewrite E2 in D2.
  set (x0 := c mod 64) in *. set (x1 := c / 64 mod 64) in *. set (x2 := c / 4096 mod 64) in *. set (x3 := c / 262144) in *.
  set (y2 := c / 4096) in *. set (y1 := c / 64) in *. clearbody x0 x1 x2 x3 y2 y1.
  destruct (N.ltb_spec c 128); [eexists; split; [apply sh1; eassumption|reflexivity]|].
  destruct (N.ltb_spec c 2048); [eexists; split; [apply sh2 with (a := 192 + y1) (b := 128 + x0); lia|reflexivity]|].
  destruct (N.ltb_spec c 65536); (eexists; split; [|reflexivity]).
  - apply sh3; lia.
  - apply sh4; lia.
Qed.

Lemma shape_encoding l : shape l -> exists c, scalar c /\ encoding c = map ascii_of_N l.
Proof.
  intros S. destruct S as [a A|a b A B|a b c A B C E1 E2|a b c d A B C D E1 E2].
  - exists a. split; [split; lia|]. unfold encoding. destruct (N.ltb_spec a 128); [reflexivity|lia].
  - exists ((a - 192) * 64 + (b - 128)). destruct (split64 (a - 192) (b - 128)) as [Q R]; [lia|].
    split; [split; lia|]. unfold encoding. rewrite Q, R. destruct (N.ltb_spec ((a - 192) * 64 + (b - 128)) 128); [lia|].
    destruct (N.ltb_spec ((a - 192) * 64 + (b - 128)) 2048); [|lia].
    replace (192 + (a - 192)) with a by lia. replace (128 + (b - 128)) with b by lia. reflexivity.
  - set (v := ((a - 224) * 64 + (b - 128)) * 64 + (c - 128)).
    destruct (split64 ((a - 224) * 64 + (b - 128)) (c - 128)) as [Q R]; [lia|].
    destruct (split64 (a - 224) (b - 128)) as [Q' R']; [lia|].
    exists v. assert (v / 4096 = a - 224) as Q2 by (change 4096 with (64 * 64); rewrite <- N.div_div by lia; unfold v; rewrite Q, Q'; reflexivity).
    assert (v = ((a - 224) * 64 + (b - 128)) * 64 + (c - 128)) as EV by reflexivity.
    fold v in Q, R. unfold encoding. rewrite Q2, Q, R, R'. clearbody v.
    split; [split; lia|]. destruct (N.ltb_spec v 128); [lia|]. destruct (N.ltb_spec v 2048); [lia|]. destruct (N.ltb_spec v 65536); [|lia].
    replace (224 + (a - 224)) with a by lia. replace (128 + (b - 128)) with b by lia. replace (128 + (c - 128)) with c by lia. reflexivity.
  - set (v := (((a - 240) * 64 + (b - 128)) * 64 + (c - 128)) * 64 + (d - 128)).
    destruct (split64 (((a - 240) * 64 + (b - 128)) * 64 + (c - 128)) (d - 128)) as [Q R]; [lia|].
    destruct (split64 ((a - 240) * 64 + (b - 128)) (c - 128)) as [Q' R']; [lia|].
    destruct (split64 (a - 240) (b - 128)) as [Q'' R'']; [lia|].
    exists v. assert (v / 4096 = (a - 240) * 64 + (b - 128)) as Q2
      by (change 4096 with (64 * 64); rewrite <- N.div_div by lia; unfold v; rewrite Q, Q'; reflexivity).
    assert (v / 262144 = a - 240) as Q3
      by (change 262144 with (4096 * 64); rewrite <- N.div_div by lia; rewrite Q2, Q''; reflexivity).
    assert (v = (((a - 240) * 64 + (b - 128)) * 64 + (c - 128)) * 64 + (d - 128)) as EV by reflexivity.
    fold v in Q, R. unfold encoding. rewrite Q3, Q2, Q, R, R', R''. clearbody v.
    split; [split; lia|]. destruct (N.ltb_spec v 128); [lia|]. destruct (N.ltb_spec v 2048); [lia|]. destruct (N.ltb_spec v 65536); [lia|].
    replace (240 + (a - 240)) with a by lia. replace (128 + (b - 128)) with b by lia. replace (128 + (c - 128)) with c by lia.
    replace (128 + (d - 128)) with d by lia. reflexivity.
Qed.

(** Tests by bytes. *)
Definition byte (c : ascii) : N := N_of_ascii c.

Lemma byte_lt c : byte c < 256. Proof. apply N_ascii_bounded. Qed.

Lemma chr_byte c : ascii_of_N (byte c) = c. Proof. apply ascii_N_embedding. Qed.

Lemma between_iff lo hi c : between lo hi c = true <-> lo <= byte c <= hi.
Proof. unfold between, byte. rewrite andb_true_iff, !N.leb_le. reflexivity. Qed.

Lemma shape_bytes l s : shape l -> s = map ascii_of_N l -> map byte s = l.
Proof.
  intros S ->. rewrite map_map. rewrite <- (map_id l) at 2. apply map_ext_in. intros x I. apply N_ascii_embedding.
  destruct S as [a A|a b A B|a b c A B C _ _|a b c d A B C D _ _]; cbn in I;
    repeat (destruct I as [<-|I]; [lia|]); destruct I.
Qed.

Ltac bw := repeat (rewrite between_chr by lia).

Ltac leb_cases :=
  repeat (match goal with |- context [?a <=? ?b] => destruct (N.leb_spec a b); try lia; cbn [andb orb] end).

Lemma shape_len l r : shape l -> utf8_char_len (map ascii_of_N l ++ r) = Some (List.length l).
Proof.
  intros S. destruct S as [a A|a b A B|a b c A B C E1 E2|a b c d A B C D E1 E2]; cbn [map app utf8_char_len List.length]; unfold cont; bw;
    leb_cases; reflexivity.
Qed.

Lemma len_shape s n : utf8_char_len s = Some n -> exists l r, shape l /\ s = map ascii_of_N l ++ r /\ List.length l = n.
Proof.
  destruct s as [|a [|b [|c [|d r]]]]; cbn [utf8_char_len]; unfold cont; intros H; try discriminate.
  - destruct (between 0 127 a) eqn:A; [|discriminate]. apply between_iff in A. injection H as <-.
    exists [byte a], []. cbn [map app]. rewrite chr_byte. split; [apply sh1; lia|split; reflexivity].
  - destruct (between 0 127 a) eqn:A.
    { apply between_iff in A. injection H as <-. exists [byte a], [b]. cbn [map app]. rewrite chr_byte. split; [apply sh1; lia|split; reflexivity]. }
    destruct (between 194 223 a && between 128 191 b) eqn:B; [|discriminate]. apply andb_true_iff in B as [B1 B2].
    apply between_iff in B1, B2. injection H as <-. exists [byte a; byte b], []. cbn [map app]. rewrite !chr_byte.
    split; [apply sh2; lia|split; reflexivity].
  - destruct (between 0 127 a) eqn:A.
    { apply between_iff in A. injection H as <-. exists [byte a], [b; c]. cbn [map app]. rewrite chr_byte. split; [apply sh1; lia|split; reflexivity]. }
    destruct (between 194 223 a && between 128 191 b) eqn:B.
    { apply andb_true_iff in B as [B1 B2]. apply between_iff in B1, B2. injection H as <-. exists [byte a; byte b], [c]. cbn [map app]. rewrite !chr_byte.
      split; [apply sh2; lia|split; reflexivity]. }
    match type of H with (if ?t then _ else _) = _ => destruct t eqn:T end; [|discriminate].
    rewrite andb_true_iff, !orb_true_iff, !andb_true_iff, !between_iff in T. injection H as <-.
    exists [byte a; byte b; byte c], []. cbn [map app]. rewrite !chr_byte. split; [apply sh3; lia|split; reflexivity].
  - destruct (between 0 127 a) eqn:A.
    { apply between_iff in A. injection H as <-. exists [byte a], (b :: c :: d :: r). cbn [map app]. rewrite chr_byte. split; [apply sh1; lia|split; reflexivity]. }
    destruct (between 194 223 a && between 128 191 b) eqn:B.
    { apply andb_true_iff in B as [B1 B2]. apply between_iff in B1, B2. injection H as <-. exists [byte a; byte b], (c :: d :: r). cbn [map app]. rewrite !chr_byte.
      split; [apply sh2; lia|split; reflexivity]. }
    match type of H with (if ?t then _ else _) = _ => destruct t eqn:T end.
    { rewrite andb_true_iff, !orb_true_iff, !andb_true_iff, !between_iff in T. injection H as <-.
      exists [byte a; byte b; byte c], (d :: r). cbn [map app]. rewrite !chr_byte. split; [apply sh3; lia|split; reflexivity]. }
    match type of H with (if ?t then _ else _) = _ => destruct t eqn:T2 end; [|discriminate].
    rewrite !andb_true_iff, !orb_true_iff, !andb_true_iff, !between_iff in T2. injection H as <-.
    exists [byte a; byte b; byte c; byte d], r. cbn [map app]. rewrite !chr_byte. split; [apply sh4; lia|split; reflexivity].
Qed.

Lemma encoding_len c r : scalar c -> utf8_char_len (encoding c ++ r) = Some (List.length (encoding c)).
Proof. intros S. destruct (encoding_shape c S) as (l & SL & ->). rewrite shape_len by exact SL. rewrite map_length. reflexivity. Qed.

Lemma len_encoding s n :
  utf8_char_len s = Some n -> exists c r, scalar c /\ s = encoding c ++ r /\ List.length (encoding c) = n.
Proof.
  intros H. destruct (len_shape _ _ H) as (l & r & S & -> & L). destruct (shape_encoding l S) as (c & SC & E).
  exists c, r. rewrite E, map_length. auto.
Qed.

Lemma encoding_nonempty c : encoding c <> [].
Proof. unfold encoding. destruct (c <? 128); [discriminate|]. destruct (c <? 2048); [discriminate|]. destruct (c <? 65536); discriminate. Qed.

Lemma utf8_is_text s : utf8_valid s = true <-> is_text s.
Proof.
  unfold utf8_valid, is_text, text_of. split.
  - remember (List.length s) as n eqn:E. assert (List.length s <= n)%nat as L by lia. clear E. revert s L.
    induction n as [|n IH]; intros s L H.
    { destruct s; [|cbn in L; lia]. exists []. split; [constructor|reflexivity]. }
    destruct s as [|a s]; [exists []; split; [constructor|reflexivity]|]. cbn [utf8_valid_fuel] in H.
    destruct (utf8_char_len (a :: s)) as [k|] eqn:K; [|discriminate].
    destruct (len_encoding _ _ K) as (c & r & SC & ES & LK).
    rewrite ES, <- LK, skipn_here in H.
    assert (List.length r <= n)%nat as LR.
    { pose proof (encoding_nonempty c) as NE. apply (f_equal (@List.length _)) in ES. rewrite app_length in ES.
      destruct (encoding c); [congruence|]. cbn in *. lia. }
    destruct (IH r LR H) as (cs & F & ->). exists (c :: cs). split; [constructor; assumption|]. rewrite ES. reflexivity.
  - intros (cs & F & ->). change (utf8_valid (List.concat (map encoding cs)) = true).
    induction F as [|c cs SC _ IH]; [reflexivity|]. cbn [map List.concat].
    apply utf8_app; [|exact IH]. unfold utf8_valid. pose proof (encoding_len c [] SC) as E. rewrite app_nil_r in E.
    destruct (encoding c) as [|x p] eqn:EC; [reflexivity|]. cbn [List.length utf8_valid_fuel]. rewrite E.
    rewrite <- (app_nil_r (x :: p)) at 2. rewrite skipn_here. destruct (List.length p); reflexivity.
Qed.

(** Lossy decoding. *)
Lemma begins_shape p : begins_char p <-> exists l m, shape (l ++ m) /\ p = map ascii_of_N l.
Proof.
  unfold begins_char. split.
  - intros (c & r & S & E). destruct (encoding_shape c S) as (l & SL & EL). rewrite E in EL. symmetry in EL.
    apply map_eq_app in EL as (l1 & l2 & -> & E1 & E2). eauto.
  - intros (l & m & S & ->). destruct (shape_encoding _ S) as (c & SC & E). exists c, (map ascii_of_N m).
    rewrite E, map_app. auto.
Qed.

Lemma bad_begins s : s <> [] -> utf8_char_len s = None ->
  exists p r, s = p ++ r /\ List.length p = utf8_bad_len s /\ p <> [] /\ (List.length p = 1%nat \/ begins_char p).
Proof.
  intros NE H. destruct s as [|a s1]; [congruence|]. clear NE. cbn [utf8_bad_len].
  assert (forall k : nat, k = 1%nat -> exists p r, a :: s1 = p ++ r /\ List.length p = k /\ p <> [] /\ (List.length p = 1%nat \/ begins_char p)) as ONE
    by (intros k ->; exists [a], s1; repeat split; [discriminate|left; reflexivity]).
  destruct (between 194 223 a); [apply ONE; reflexivity|].
  destruct (between 224 239 a) eqn:A3.
  { destruct s1 as [|b s2]; [apply ONE; reflexivity|].
    match goal with |- context [if ?t then _ else _] => destruct t eqn:T end; [|apply ONE; reflexivity].
    unfold cont in T. rewrite !orb_true_iff, !andb_true_iff, !between_iff in T.
    exists [a; b], s2. repeat split; [discriminate|]. right. apply begins_shape. exists [byte a; byte b], [128].
    split; [apply sh3; lia|]. cbn [map]. rewrite !chr_byte. reflexivity. }
  destruct (between 240 244 a) eqn:A4; [|apply ONE; reflexivity].
  destruct s1 as [|b s2]; [apply ONE; reflexivity|].
  match goal with |- context [if ?t then _ else _] => destruct t eqn:T end; [|apply ONE; reflexivity].
  unfold cont in T. rewrite !orb_true_iff, !andb_true_iff, !between_iff in T.
  assert (begins_char [a; b]) as B2.
  { apply begins_shape. exists [byte a; byte b], [128; 128]. split; [apply sh4; lia|]. cbn [map]. rewrite !chr_byte. reflexivity. }
  destruct s2 as [|c s3]; [exists [a; b], []; repeat split; [discriminate|right; exact B2]|].
  destruct (cont c) eqn:C; [|exists [a; b], (c :: s3); repeat split; [discriminate|right; exact B2]].
  unfold cont in C. apply between_iff in C.
  exists [a; b; c], s3. repeat split; [discriminate|]. right. apply begins_shape. exists [byte a; byte b; byte c], [128].
  split; [apply sh4; lia|]. cbn [map]. rewrite !chr_byte. reflexivity.
Qed.

Lemma bad_longest q r : utf8_char_len (q ++ r) = None -> begins_char q -> q ++ r <> [] -> (List.length q <= utf8_bad_len (q ++ r))%nat.
Proof.
  intros H B NE. apply begins_shape in B as (l & m & S & ->). rewrite map_length.
  destruct m as [|x m].
  { rewrite app_nil_r in S. rewrite shape_len in H by exact S. discriminate. }
  assert (forall s, s <> [] -> (1 <= utf8_bad_len s)%nat) as ONE.
  { intros s N. destruct s as [|a s1]; [congruence|]. cbn [utf8_bad_len].
    repeat match goal with |- context [if ?t then _ else _] => destruct t | |- context [match ?t with [] => _ | _ :: _ => _ end] => destruct t end; lia. }
  pose proof (ONE _ NE) as O1. clear ONE.
  inversion S as [a A EQ|a b A B EQ|a b c A B C E1 E2 EQ|a b c d A B C D E1 E2 EQ]; clear S;
    destruct l as [|x1 [|x2 [|x3 [|x4 l]]]]; cbn [app List.length] in *; try lia; try discriminate;
    injection EQ; intros; subst; try discriminate;
    try (match goal with K : _ = [] |- _ => apply (f_equal (@List.length _)) in K; rewrite app_length in K; cbn in K; lia end);
    try (match goal with K : [] = _ |- _ => apply (f_equal (@List.length _)) in K; rewrite app_length in K; cbn in K; lia end);
    cbn [map app utf8_bad_len]; unfold cont; bw; leb_cases; cbn; try lia;
    (destruct r as [|y r]; [lia|destruct (between 128 191 y); lia]).
Qed.

Lemma repaired_inv s cs : repaired s cs ->
  (s = [] /\ cs = [])
  \/ (exists c s' cs', s = encoding c ++ s' /\ cs = c :: cs' /\ scalar c /\ repaired s' cs')
  \/ (exists p s' cs', s = p ++ s' /\ cs = 65533 :: cs' /\ p <> [] /\ (forall c r, scalar c -> s <> encoding c ++ r)
        /\ (List.length p = 1%nat \/ begins_char p)
        /\ (forall q r, s = q ++ r -> begins_char q -> (List.length q <= List.length p)%nat) /\ repaired s' cs').
Proof.
  intros R. destruct R as [|c s cs SC R|p s cs PN NC BP LQ R].
  - left. auto.
  - right. left. exists c, s, cs. auto.
  - right. right. exists p, s, cs. auto 8.
Qed.

Lemma fuel_lossy n : forall s, (List.length s <= n)%nat ->
  (exists cs, repaired s cs) /\ (forall cs, repaired s cs -> Forall scalar cs /\ utf8_lossy_fuel n s = text_of cs).
Proof.
  induction n as [|n IH]; intros s L.
  - destruct s; [|cbn in L; lia]. split; [exists []; constructor|].
    intros cs R. destruct (repaired_inv _ _ R) as [(_ & ->)|[(c & s' & cs' & E & _)|(p & s' & cs' & E & _ & PN & _)]].
    + split; [constructor|reflexivity].
    + destruct (encoding c) eqn:EC; [destruct (encoding_nonempty c EC)|discriminate].
    + destruct p; [congruence|discriminate].
  - destruct s as [|a s0]; [split; [exists []; constructor|]|].
    { intros cs R. destruct (repaired_inv _ _ R) as [(_ & ->)|[(c & s' & cs' & E & _)|(p & s' & cs' & E & _ & PN & _)]].
      + split; [constructor|reflexivity].
      + destruct (encoding c) eqn:EC; [destruct (encoding_nonempty c EC)|discriminate].
      + destruct p; [congruence|discriminate]. }
    cbn [utf8_lossy_fuel]. remember (a :: s0) as s eqn:ES. assert (s <> []) as NE by (rewrite ES; discriminate).
    assert (forall p r : str, p <> [] -> s = p ++ r -> (List.length r <= n)%nat) as LR.
    { intros p r PN E. apply (f_equal (@List.length _)) in E. rewrite app_length in E. destruct p; [congruence|]. cbn in E. lia. }
    clear a s0 ES. destruct (utf8_char_len s) as [k|] eqn:K.
    + destruct (len_encoding _ _ K) as (c & r & SC & ES & LK).
      destruct (IH r (LR _ _ (encoding_nonempty c) ES)) as ((cs & RC) & U).
      assert (skipn k s = r) as SK by (rewrite <- LK, ES; apply skipn_here).
      assert (firstn k s = encoding c) as FK by (rewrite <- LK, ES, firstn_app, Nat.sub_diag, firstn_all, firstn_O, app_nil_r; reflexivity).
      rewrite SK, FK.
      split; [exists (c :: cs); rewrite ES; constructor; assumption|].
      intros cs' R. destruct (repaired_inv _ _ R) as [(E0 & _)|[(c' & s' & cs2 & E & -> & SC' & R')|(p & s' & cs2 & E & -> & PN & NC & _)]];
        [|symmetry in E|symmetry in E].
      * congruence.
      * pose proof K as K1. rewrite <- E, encoding_len in K1 by exact SC'. injection K1 as K1.
        assert (encoding c' = encoding c /\ s' = r) as [EE ->].
        { rewrite ES in E. assert (firstn k (encoding c' ++ s') = firstn k (encoding c ++ r)) as F by (rewrite E; reflexivity).
          rewrite <- K1 in F at 1. rewrite <- LK in F. rewrite !firstn_app, !Nat.sub_diag, !firstn_all, !firstn_O, !app_nil_r in F.
          split; [exact F|]. rewrite F in E. apply app_inv_head in E. exact E. }
        destruct (U _ R') as (F & T). split; [constructor; assumption|]. rewrite T. unfold text_of. cbn [map List.concat]. rewrite EE. reflexivity.
      * exfalso. exact (NC c r SC ES).
    + destruct (bad_begins s NE K) as (p & r & ES & LP & PN & BP).
      destruct (IH r (LR _ _ PN ES)) as ((cs & RC) & U).
      assert (skipn (utf8_bad_len s) s = r) as SK by (rewrite <- LP, ES; apply skipn_here). rewrite SK.
      split.
      { exists (65533 :: cs). rewrite ES. constructor; [exact PN| |exact BP| |exact RC].
        - intros c r' SC E. rewrite <- ES in E. rewrite E, encoding_len in K by exact SC. discriminate.
        - intros q r' E B. rewrite <- ES in E. rewrite LP. rewrite E. apply bad_longest; [rewrite <- E; exact K|exact B|rewrite <- E; exact NE]. }
      intros cs' R. destruct (repaired_inv _ _ R) as [(E0 & _)|[(c' & s' & cs2 & E & -> & SC' & R')|(p' & s' & cs2 & E & -> & PN' & NC & BP' & LQ & R')]];
        [|symmetry in E|symmetry in E].
      * congruence.
      * rewrite <- E, encoding_len in K by exact SC'. discriminate.
      * assert (p' = p /\ s' = r) as [-> ->].
        { assert (List.length p' <= List.length p)%nat as L1.
          { destruct BP' as [L1|B]; [destruct p; [congruence|cbn; lia]|]. rewrite LP, <- E. apply bad_longest; [rewrite E; exact K|exact B|rewrite E; exact NE]. }
          assert (List.length p <= List.length p')%nat as L2.
          { destruct BP as [L2|B]; [destruct p'; [congruence|cbn; lia]|]. exact (LQ p r ES B). }
          assert (List.length p' = List.length p) as LL by lia. rewrite ES in E.
          assert (firstn (List.length p') (p' ++ s') = firstn (List.length p) (p ++ r)) as F by (rewrite E, LL; reflexivity).
          rewrite !firstn_app, !Nat.sub_diag, !firstn_all, !firstn_O, !app_nil_r in F. split; [exact F|]. rewrite F in E. apply app_inv_head in E. exact E. }
        destruct (U _ R') as (F & T). split; [constructor; [split; lia|exact F]|]. rewrite T. reflexivity.
Qed.

Lemma lossy_repairs s : exists cs, repaired s cs /\ Forall scalar cs /\ utf8_lossy s = text_of cs.
Proof. destruct (fuel_lossy _ s (Nat.le_refl _)) as ((cs & R) & U). exists cs. split; [exact R|]. exact (U cs R). Qed.

Lemma repaired_lossy s cs : repaired s cs -> utf8_lossy s = text_of cs.
Proof. intros R. destruct (fuel_lossy _ s (Nat.le_refl _)) as (_ & U). exact (proj2 (U cs R)). Qed.

Lemma cons_eq {A} (a b : A) l m : a :: l = b :: m -> a = b /\ l = m.
Proof. intros H. injection H as -> ->. split; reflexivity. Qed.

Lemma text_of_inj cs : Forall scalar cs -> forall ds, Forall scalar ds -> text_of cs = text_of ds -> cs = ds.
Proof.
  intros F. induction F as [|c cs SC F IH]; intros ds FD E.
  - destruct ds as [|d ds]; [reflexivity|]. unfold text_of in E. cbn [map List.concat] in E.
    destruct (encoding d) eqn:ED; [destruct (encoding_nonempty d ED)|discriminate].
  - destruct ds as [|d ds].
    { unfold text_of in E. cbn [map List.concat] in E. destruct (encoding c) eqn:ED; [destruct (encoding_nonempty c ED)|discriminate]. }
    apply Forall_cons_iff in FD as [SD FD]. change (encoding c ++ text_of cs = encoding d ++ text_of ds) in E.
    pose proof (encoding_len c (text_of cs) SC) as K1. pose proof (encoding_len d (text_of ds) SD) as K2. rewrite E, K2 in K1. injection K1 as K1.
    assert (encoding c = encoding d) as EE.
    { apply (f_equal (firstn (List.length (encoding d)))) in E. rewrite K1 in E at 1.
      rewrite !firstn_app, !Nat.sub_diag, !firstn_all, !firstn_O, !app_nil_r in E. exact E. }
    rewrite EE in E. apply app_inv_head in E. f_equal; [|exact (IH _ FD E)].
    clear - SC SD EE. unfold scalar, encoding in *. apply (f_equal (map byte)) in EE. rewrite !map_map in EE.
    assert (forall n, n < 256 -> byte (ascii_of_N n) = n) as BC by (intros; apply N_ascii_embedding; assumption).
    pose proof (mod64 c) as M0. pose proof (mod64 (c / 64)) as M1. pose proof (mod64 (c / 4096)) as M2.
    pose proof (N.div_mod' c 64) as D0. pose proof (N.div_mod' (c / 64) 64) as D1. pose proof (N.div_mod' (c / 4096) 64) as D2.
    assert (c / 64 / 64 = c / 4096) as E1 by (rewrite N.div_div by lia; reflexivity).
    assert (c / 4096 / 64 = c / 262144) as E2 by (rewrite N.div_div by lia; reflexivity).
    rewrite E1 in D1. rewrite E2 in D2.
    pose proof (mod64 d) as M0'. pose proof (mod64 (d / 64)) as M1'. pose proof (mod64 (d / 4096)) as M2'.
    pose proof (N.div_mod' d 64) as D0'. pose proof (N.div_mod' (d / 64) 64) as D1'. pose proof (N.div_mod' (d / 4096) 64) as D2'.
    assert (d / 64 / 64 = d / 4096) as E1' by (rewrite N.div_div by lia; reflexivity).
    assert (d / 4096 / 64 = d / 262144) as E2' by (rewrite N.div_div by lia; reflexivity).
    rewrite E1' in D1'. rewrite E2' in D2'.
    set (x0 := c mod 64) in *. set (x1 := c / 64 mod 64) in *. set (x2 := c / 4096 mod 64) in *. set (x3 := c / 262144) in *.
    set (y2 := c / 4096) in *. set (y1 := c / 64) in *. clearbody x0 x1 x2 x3 y2 y1. clear E1 E2.
    set (u0 := d mod 64) in *. set (u1 := d / 64 mod 64) in *. set (u2 := d / 4096 mod 64) in *. set (u3 := d / 262144) in *.
    set (v2 := d / 4096) in *. set (v1 := d / 64) in *. clearbody u0 u1 u2 u3 v2 v1. clear E1' E2'.
    destruct (N.ltb_spec c 128); [|destruct (N.ltb_spec c 2048); [|destruct (N.ltb_spec c 65536)]];
    (destruct (N.ltb_spec d 128); [|destruct (N.ltb_spec d 2048); [|destruct (N.ltb_spec d 65536)]]);
    cbn [map] in EE; try discriminate EE; rewrite !BC in EE by lia; repeat (apply cons_eq in EE as [? EE]); lia.
Qed.

Lemma lossy_text_id s : is_text s -> utf8_lossy s = s.
Proof.
  intros (cs & F & ->). apply repaired_lossy. induction F as [|c cs SC F IH]; [constructor|].
  change (repaired (encoding c ++ text_of cs) (c :: cs)). constructor; assumption.
Qed.
