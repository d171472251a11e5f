(** Lemmas on UTF-8: cutting at ASCII bytes, gluing, and lossy decoding. *)
From Verif Require Import Base BaseLemmas Utf8 Base64 Url UrlLemmas.

Definition ascii7 (c : ascii) : Prop := between 0 127 c = true.

(** One well-formed character. *)
Definition uchar (p : str) : Prop :=
  p <> [] /\ (forall r, utf8_char_len (p ++ r) = Some (List.length p))
  /\ ((exists c, p = [c] /\ ascii7 c) \/ Forall (fun c => ~ ascii7 c) p).

Lemma char_split s n : utf8_char_len s = Some n -> exists p r, s = p ++ r /\ List.length p = n /\ uchar p.
Proof.
  assert (forall lo hi c, (127 < lo)%N -> between lo hi c = true -> ~ ascii7 c) as HI.
  { unfold ascii7, between. intros lo hi c L B B'. apply andb_true_iff in B as [B _]. apply andb_true_iff in B' as [_ B'].
    apply N.leb_le in B, B'. lia. }
  assert (forall c, cont c = true -> ~ ascii7 c) as CO by (intros c; apply HI; reflexivity).
  unfold utf8_char_len. destruct s as [|a s]; [discriminate|].
  destruct (between 0 127 a) eqn:A.
  { intros [= <-]. exists [a], s. split; [reflexivity|]. split; [reflexivity|]. split; [discriminate|].
    split; [|left; exists a; split; [reflexivity|exact A]].
    intros r. unfold utf8_char_len. cbn [app]. rewrite A. reflexivity. }
  destruct s as [|b s]; [discriminate|]. destruct (between 194 223 a && cont b) eqn:B.
  { intros [= <-]. exists [a; b], s. split; [reflexivity|]. split; [reflexivity|]. split; [discriminate|]. split.
    - intros r. unfold utf8_char_len. cbn [app]. rewrite A, B. reflexivity.
    - right. apply andb_true_iff in B as [_ B2]. constructor; [unfold ascii7; rewrite A; discriminate|].
      constructor; [apply CO, B2|constructor]. }
  destruct s as [|c s]; [discriminate|].
  match goal with |- (if ?x then _ else _) = _ -> _ => destruct x eqn:C end.
  { intros [= <-]. exists [a; b; c], s. split; [reflexivity|]. split; [reflexivity|]. split; [discriminate|]. split.
    - intros r. unfold utf8_char_len. cbn [app]. rewrite A, B, C. reflexivity.
    - right. apply andb_true_iff in C as [C1 C2]. constructor; [unfold ascii7; rewrite A; discriminate|].
      constructor; [|constructor; [apply CO, C2|constructor]].
      rewrite !orb_true_iff, !andb_true_iff in C1.
      destruct C1 as [[[[_ C1]|[_ C1]]|[_ C1]]|[_ C1]]; try (apply CO, C1); eapply HI; try exact C1; reflexivity. }
  destruct s as [|d s]; [discriminate|].
  match goal with |- (if ?x then _ else _) = _ -> _ => destruct x eqn:D end; [|discriminate].
  intros [= <-]. exists [a; b; c; d], s. split; [reflexivity|]. split; [reflexivity|]. split; [discriminate|]. split.
  - intros r. unfold utf8_char_len. cbn [app]. rewrite A, B, C, D. reflexivity.
  - right. rewrite !andb_true_iff in D. destruct D as [[D1 D2] D3]. constructor; [unfold ascii7; rewrite A; discriminate|].
    constructor; [|constructor; [apply CO, D2|constructor; [apply CO, D3|constructor]]].
    rewrite !orb_true_iff, !andb_true_iff in D1.
    destruct D1 as [[[_ D1]|[_ D1]]|[_ D1]]; try (apply CO, D1); eapply HI; try exact D1; reflexivity.
Qed.

Inductive uvalid : str -> Prop :=
| uv_nil : uvalid []
| uv_char p s : uchar p -> uvalid s -> uvalid (p ++ s).

Lemma skipn_here {A} (p r : list A) : skipn (List.length p) (p ++ r) = r.
Proof. rewrite skipn_app, skipn_all, Nat.sub_diag. reflexivity. Qed.

Lemma uvalid_fuel n : forall s, List.length s <= n -> (utf8_valid_fuel n s = true <-> uvalid s).
Proof.
  induction n as [|n IH]; intros s L.
  - destruct s; [|simpl in L; lia]. split; [constructor|reflexivity].
  - destruct s as [|c s]; [split; [constructor|reflexivity]|]. cbn [utf8_valid_fuel]. split.
    + destruct (utf8_char_len (c :: s)) as [k|] eqn:E; [|discriminate].
      destruct (char_split _ _ E) as (p & r & S & K & U). rewrite S, <- K, skipn_here. intros H.
      constructor; [exact U|]. apply IH; [|exact H].
      assert (List.length (c :: s) = List.length p + List.length r) as LL by (rewrite S; apply app_length).
      destruct U as (NE & _). destruct p; [congruence|]. simpl in *. lia.
    + intros H. inversion H as [E|p r U R E]. rewrite (proj1 (proj2 U)). rewrite skipn_here.
      apply IH; [|exact R].
      assert (List.length (p ++ r) = List.length (c :: s)) as LL by (rewrite E; reflexivity).
      rewrite app_length in LL. destruct U as (NE & _). destruct p; [congruence|]. simpl in *. lia.
Qed.

Lemma utf8_valid_iff s : utf8_valid s = true <-> uvalid s.
Proof. apply uvalid_fuel. apply Nat.le_refl. Qed.

Lemma uvalid_app a b : uvalid a -> uvalid b -> uvalid (a ++ b).
Proof. intros A B. induction A as [|p s U _ IH]; [exact B|]. rewrite <- app_assoc. constructor; assumption. Qed.

Lemma app_cases {A} (a b c d : list A) :
  a ++ b = c ++ d -> (exists x, c = a ++ x /\ b = x ++ d) \/ (exists y ys, a = c ++ y :: ys /\ d = (y :: ys) ++ b).
Proof.
  revert c. induction a as [|x a IH]; intros c E.
  - left. exists c. split; [reflexivity|exact E].
  - destruct c as [|y c].
    + right. exists x, a. split; [reflexivity|symmetry; exact E].
    + injection E as <- E. destruct (IH c E) as [(z & -> & ->)|(y & ys & -> & ->)].
      * left. exists z. split; reflexivity.
      * right. exists y, ys. split; reflexivity.
Qed.

Lemma uvalid_cut t : uvalid t -> forall p c s, t = p ++ c :: s -> ascii7 c -> uvalid p /\ uvalid s.
Proof.
  intros U. induction U as [|q t Q U IH]; intros p c s E A; [destruct p; discriminate|].
  destruct (app_cases _ _ _ _ E) as [(x & -> & ->)|(y & ys & -> & F)].
  - destruct (IH x c s eq_refl A) as [X S]. split; [constructor; assumption|exact S].
  - injection F as <- ->. destruct Q as (NE & L & [(d & D & AD)|N]).
    + destruct p as [|z p]; [|destruct p; discriminate]. simpl in D. injection D as <- ->.
      split; [constructor|exact U].
    + exfalso. rewrite Forall_app in N. destruct N as [_ N]. inversion N as [|? ? N1 _]. apply N1, A.
Qed.

Lemma uchar7 c : ascii7 c -> uchar [c].
Proof.
  intros A. split; [discriminate|]. split; [|left; eauto]. intros r. simpl. unfold ascii7 in A. rewrite A. reflexivity.
Qed.

(** * The same for [utf8_valid] *)

Lemma utf8_app a b : utf8_valid a = true -> utf8_valid b = true -> utf8_valid (a ++ b) = true.
Proof. rewrite !utf8_valid_iff. apply uvalid_app. Qed.

Lemma utf8_cons c s : ascii7 c -> utf8_valid s = true -> utf8_valid (c :: s) = true.
Proof. rewrite !utf8_valid_iff. intros A S. apply (uv_char [c] s); [apply uchar7, A|exact S]. Qed.

Lemma utf8_cut p c s : utf8_valid (p ++ c :: s) = true -> ascii7 c -> utf8_valid p = true /\ utf8_valid s = true.
Proof. rewrite !utf8_valid_iff. intros U A. eapply uvalid_cut; [exact U|reflexivity|exact A]. Qed.

Lemma utf8_lossy_text s : utf8_valid (utf8_lossy s) = true.
Proof.
  unfold utf8_lossy. generalize (List.length s). intros n. revert s. induction n as [|n IH]; intros s; [reflexivity|].
  cbn [utf8_lossy_fuel]. destruct s as [|c s]; [reflexivity|]. destruct (utf8_char_len (c :: s)) as [k|] eqn:E.
  - destruct (char_split _ _ E) as (p & r & S & K & U). rewrite S, <- K.
    rewrite firstn_app, firstn_all, Nat.sub_diag, app_nil_r, skipn_here.
    apply utf8_app; [|apply IH]. apply utf8_valid_iff. rewrite <- (app_nil_r p). constructor; [exact U|constructor].
  - apply utf8_app; [reflexivity|apply IH].
Qed.

Lemma utf8_join sep l : utf8_valid sep = true -> Forall (fun s => utf8_valid s = true) l -> utf8_valid (join sep l) = true.
Proof.
  intros S F. induction F as [|x l X F IH]; [reflexivity|]. destruct l as [|y l]; [exact X|].
  change (join sep (x :: y :: l)) with (x ++ sep ++ join sep (y :: l)).
  apply utf8_app; [exact X|]. apply utf8_app; [exact S|exact IH].
Qed.

(** Dropping an ASCII byte. *)
Lemma utf8_drop p c s : utf8_valid (p ++ c :: s) = true -> ascii7 c -> utf8_valid (p ++ s) = true.
Proof. intros U A. destruct (utf8_cut _ _ _ U A). apply utf8_app; assumption. Qed.

(** Text may be cut off at either end of text. *)
Lemma uchar_shape p : uchar p -> exists c r, p = c :: r /\ cont c = false /\ Forall (fun x => cont x = true) r.
Proof.
  intros (NE & L & _). specialize (L []). rewrite app_nil_r in L.
  assert (forall lo hi c, between lo hi c = true -> (lo <= N_of_ascii c <= hi)%N) as BT.
  { intros lo hi c B. unfold between in B. apply andb_true_iff in B as [B1 B2]. apply N.leb_le in B1, B2. lia. }
  assert (forall lo hi c, between lo hi c = true -> (hi < 128 \/ 191 < lo)%N -> cont c = false) as NC.
  { intros lo hi c B R. apply BT in B. unfold cont, between. apply andb_false_iff.
    destruct R; [left; apply N.leb_gt|right; apply N.leb_gt]; lia. }
  assert (forall lo hi c, between lo hi c = true -> (128 <= lo)%N -> (hi <= 191)%N -> cont c = true) as CT.
  { intros lo hi c B R1 R2. apply BT in B. unfold cont, between. apply andb_true_iff. split; apply N.leb_le; lia. }
  destruct p as [|a [|b [|c [|d [|e p]]]]]; [destruct (NE eq_refl)|..]; cbn [utf8_char_len List.length] in L.
  - exists a, []. split; [reflexivity|]. split; [|constructor]. destruct (between 0 127 a) eqn:B; [|discriminate].
    apply (NC _ _ _ B). left. reflexivity.
  - exists a, [b]. split; [reflexivity|]. destruct (between 0 127 a); [discriminate|].
    destruct (between 194 223 a && cont b) eqn:B; [|discriminate]. apply andb_true_iff in B as [B1 B2].
    split; [apply (NC _ _ _ B1); right; reflexivity|]. constructor; [exact B2|constructor].
  - exists a, [b; c]. split; [reflexivity|]. destruct (between 0 127 a); [discriminate|].
    destruct (between 194 223 a && cont b); [discriminate|].
    match type of L with (if ?x then _ else _) = _ => destruct x eqn:B; [|discriminate] end.
    apply andb_true_iff in B as [B B3].
    assert (cont a = false /\ cont b = true) as [E1 E2].
    { apply orb_true_iff in B as [B|B]; [apply orb_true_iff in B as [B|B]; [apply orb_true_iff in B as [B|B]|]|];
        apply andb_true_iff in B as [B1 B2];
        (split; [apply (NC _ _ _ B1); right; reflexivity|first [exact B2|apply (CT _ _ _ B2); lia]]). }
    split; [exact E1|]. repeat constructor; assumption.
  - exists a, [b; c; d]. split; [reflexivity|]. destruct (between 0 127 a); [discriminate|].
    destruct (between 194 223 a && cont b); [discriminate|].
    match type of L with (if ?x then _ else _) = _ => destruct x; [discriminate|] end.
    match type of L with (if ?x then _ else _) = _ => destruct x eqn:B; [|discriminate] end.
    apply andb_true_iff in B as [B B4]. apply andb_true_iff in B as [B B3].
    assert (cont a = false /\ cont b = true) as [E1 E2].
    { apply orb_true_iff in B as [B|B]; [apply orb_true_iff in B as [B|B]|];
        apply andb_true_iff in B as [B1 B2];
        (split; [apply (NC _ _ _ B1); right; reflexivity|first [exact B2|apply (CT _ _ _ B2); lia]]). }
    split; [exact E1|]. repeat constructor; assumption.
  - exfalso. destruct (between 0 127 a); [discriminate|].
    repeat match type of L with (if ?x then _ else _) = _ => destruct x; [discriminate|] end. discriminate.
Qed.

Lemma uchar_first p x p' x' : uchar p -> uchar p' -> p ++ x = p' ++ x' -> p = p' /\ x = x'.
Proof.
  intros (_ & L & _) (_ & L' & _) E. pose proof (L x) as A. pose proof (L' x') as B. rewrite E, B in A. injection A as A.
  apply (f_equal (firstn (List.length p))) in E as E1. rewrite firstn_app, firstn_all, Nat.sub_diag, firstn_O, app_nil_r in E1.
  rewrite <- A, firstn_app, firstn_all, Nat.sub_diag, firstn_O, app_nil_r in E1. subst p'. split; [reflexivity|].
  exact (app_inv_head _ _ _ E).
Qed.

Lemma uvalid_cancel a t : uvalid a -> uvalid (a ++ t) -> uvalid t.
Proof.
  intros A. induction A as [|p s P A IH]; intros U; [exact U|]. rewrite <- app_assoc in U. apply IH.
  inversion U as [E|p' s' P' U' E].
  - destruct P as (NE & _). destruct p; [destruct (NE eq_refl)|discriminate].
  - destruct (uchar_first _ _ _ _ P' P E) as [_ <-]. exact U'.
Qed.

Lemma uvalid_cancel_r b : uvalid b -> forall x, uvalid x -> forall t, x = t ++ b -> uvalid t.
Proof.
  intros B x X. induction X as [|p s P X IH]; intros t E.
  - destruct t; [constructor|discriminate].
  - apply app_cases in E as [(y & -> & ->)|(y & ys & -> & ->)].
    + apply uv_char; [exact P|]. apply IH. reflexivity.
    + destruct t as [|z t]; [constructor|]. exfalso.
      destruct (uchar_shape _ P) as (c & r & EP & _ & F). cbn [app] in EP. injection EP as _ EP.
      rewrite <- EP in F. apply Forall_app in F as [_ F]. inversion F as [|? ? CY _]; subst.
      inversion B as [EB|q s' Q _ EB]. destruct (uchar_shape _ Q) as (c' & r' & -> & NC & _). cbn [app] in EB. injection EB as EB _.
      subst c'. congruence.
Qed.

Lemma utf8_trim a t b : utf8_valid a = true -> utf8_valid b = true -> utf8_valid (a ++ t ++ b) = true -> utf8_valid t = true.
Proof.
  rewrite !utf8_valid_iff. intros A B U. apply (uvalid_cancel _ _ A) in U. exact (uvalid_cancel_r b B _ U t eq_refl).
Qed.
