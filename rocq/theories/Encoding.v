(** base64url and forms follow their definitions (C50, C85). *)
From Verif Require Import Base BaseLemmas Utf8 Base64 Url UrlLemmas SpecUtf8 Utf8Spec SpecEncoding.
From Coq Require Import Lia ZifyN ZifyNat.
Local Open Scope list_scope.

(** * base64url *)

Lemma bits_length c : List.length (bits_of_byte c) = 8.
Proof. destruct c; reflexivity. Qed.

Lemma app_same_length {A} (x y r s : list A) : List.length x = List.length y -> x ++ r = y ++ s -> x = y /\ r = s.
Proof.
  revert y. induction x as [|a x IH]; intros [|b y] L E; try discriminate L; [auto|].
  injection E as -> E. injection L as L. destruct (IH y L E) as [-> ->]. auto.
Qed.

Lemma sextets_unique b l : sextets b l -> forall l', sextets b l' -> l = l'.
Proof.
  induction 1 as [|x r l L S IH|x L]; intros l' S'.
  - inversion S' as [|y r' l1 L' S1 E|y L' E]; subst; [reflexivity| |].
    + destruct y; [discriminate L'|discriminate E].
    + cbn in L'. lia.
  - inversion S' as [E|y r' l1 L' S1 E|y L' E]; subst.
    + destruct x; [discriminate L|discriminate E].
    + destruct (app_same_length y x r' r) as [-> ->]; [congruence|exact E|].
      f_equal. apply IH. exact S1.
    + rewrite app_length, L in L'. lia.
  - inversion S' as [E|y r' l1 L' S1 E|y L' E]; subst.
    + cbn in L. lia.
    + rewrite app_length, L' in L. lia.
    + reflexivity.
Qed.

Lemma char_at n : (n < 64)%N ->
  nth_error $"ABCDEFGHIJKLMNOPQRSTUVWXYZabcdefghijklmnopqrstuvwxyz0123456789-_" (N.to_nat n) = Some (b64_char n).
Proof.
  intros L. 
  assert (match nth_error $"ABCDEFGHIJKLMNOPQRSTUVWXYZabcdefghijklmnopqrstuvwxyz0123456789-_" (N.to_nat n) with
          | Some c => Ascii.eqb c (b64_char n) | None => false end = true) as H.
  { revert n L. apply six_sweep. vm_compute. reflexivity. }
  destruct (nth_error _ _); [|discriminate H]. apply Ascii.eqb_eq in H. subst. reflexivity.
Qed.

Definition bn (b : bool) : N := if b then 1%N else 0%N.

Lemma byte_value b0 b1 b2 b3 b4 b5 b6 b7 :
  N_of_ascii (Ascii b0 b1 b2 b3 b4 b5 b6 b7)
  = (128 * bn b7 + 64 * bn b6 + 32 * bn b5 + 16 * bn b4 + 8 * bn b3 + 4 * bn b2 + 2 * bn b1 + bn b0)%N.
Proof. destruct b0, b1, b2, b3, b4, b5, b6, b7; reflexivity. Qed.

Lemma number6 a b c d e f :
  N.of_nat (number 0 [a; b; c; d; e; f]) = (32 * bn a + 16 * bn b + 8 * bn c + 4 * bn d + 2 * bn e + bn f)%N.
Proof. destruct a, b, c, d, e, f; reflexivity. Qed.

Lemma bn_le b : (bn b <= 1)%N.
Proof. destruct b; cbn; lia. Qed.

Lemma sextet_char a b c d e f n :
  n = (32 * bn a + 16 * bn b + 8 * bn c + 4 * bn d + 2 * bn e + bn f)%N ->
  nth_error $"ABCDEFGHIJKLMNOPQRSTUVWXYZabcdefghijklmnopqrstuvwxyz0123456789-_" (number 0 [a; b; c; d; e; f])
  = Some (b64_char n).
Proof.
  intros ->. rewrite <- number6. rewrite <- (Nnat.Nat2N.id (number 0 _)) at 1. apply char_at.
  rewrite number6. pose proof (bn_le a). pose proof (bn_le b). pose proof (bn_le c). pose proof (bn_le d).
  pose proof (bn_le e). pose proof (bn_le f). lia.
Qed.

Ltac bit_bounds := repeat match goal with |- context [bn ?x] => lazymatch goal with
  | H : (bn x <= 1)%N |- _ => fail | _ => pose proof (bn_le x) end end.

(** Digits of a number given by its digits. *)
Lemma by_digits p q r s :
  (q < 64 -> r < 64 -> s < 64 ->
   let n := 262144 * p + 4096 * q + 64 * r + s in
   n / 262144 = p /\ n / 4096 mod 64 = q /\ n / 64 mod 64 = r /\ n mod 64 = s)%N.
Proof.
  intros Q R S. cbv zeta. repeat split.
  - symmetry. apply (N.div_unique _ _ _ (4096 * q + 64 * r + s)%N); lia.
  - assert ((262144 * p + 4096 * q + 64 * r + s) / 4096 = 64 * p + q)%N as ->
      by (symmetry; apply (N.div_unique _ _ _ (64 * r + s)%N); lia).
    symmetry. apply (N.mod_unique _ _ p); lia.
  - assert ((262144 * p + 4096 * q + 64 * r + s) / 64 = 4096 * p + 64 * q + r)%N as ->
      by (symmetry; apply (N.div_unique _ _ _ s); lia).
    symmetry. apply (N.mod_unique _ _ (64 * p + q)%N); lia.
  - symmetry. apply (N.mod_unique _ _ (4096 * p + 64 * q + r)%N); lia.
Qed.

Lemma b64_is_base64url s : base64url s (b64_encode s).
Proof.
  induction s as [|a|a b|a b c s IH] using list3_ind.
  - exists []. split; constructor.
  - destruct a as [a0 a1 a2 a3 a4 a5 a6 a7]. eexists. split.
    + cbn [bits flat_map bits_of_byte app]. apply (sx_full [_; _; _; _; _; _]); [reflexivity|].
      apply (sx_last [_; _]). cbn. lia.
    + cbn [b64_encode app repeat List.length Nat.sub]. rewrite byte_value.
      set (p := (32 * bn a7 + 16 * bn a6 + 8 * bn a5 + 4 * bn a4 + 2 * bn a3 + bn a2)%N).
      set (q := (32 * bn a1 + 16 * bn a0)%N).
      assert (q < 64)%N as LQ by (unfold q; bit_bounds; lia).
      match goal with |- context [b64_char (?n / 262144)] =>
        assert (n = 262144 * p + 4096 * q + 64 * 0 + 0)%N as -> by (unfold p, q; lia) end.
      destruct (by_digits p q 0 0 LQ) as (-> & -> & _ & _); [lia|lia|].
      constructor; [apply sextet_char; reflexivity|].
      constructor; [apply sextet_char; unfold q, bn; lia|constructor].
  - destruct a as [a0 a1 a2 a3 a4 a5 a6 a7], b as [b0 b1 b2 b3 b4 b5 b6 b7]. eexists. split.
    + cbn [bits flat_map bits_of_byte app]. apply (sx_full [_; _; _; _; _; _]); [reflexivity|].
      apply (sx_full [_; _; _; _; _; _]); [reflexivity|].
      apply (sx_last [_; _; _; _]). cbn. lia.
    + cbn [b64_encode app repeat List.length Nat.sub]. rewrite !byte_value.
      set (p := (32 * bn a7 + 16 * bn a6 + 8 * bn a5 + 4 * bn a4 + 2 * bn a3 + bn a2)%N).
      set (q := (32 * bn a1 + 16 * bn a0 + 8 * bn b7 + 4 * bn b6 + 2 * bn b5 + bn b4)%N).
      set (r := (32 * bn b3 + 16 * bn b2 + 8 * bn b1 + 4 * bn b0)%N).
      assert (q < 64)%N as LQ by (unfold q; bit_bounds; lia).
      assert (r < 64)%N as LR by (unfold r; bit_bounds; lia).
      match goal with |- context [b64_char (?n / 262144)] =>
        assert (n = 262144 * p + 4096 * q + 64 * r + 0)%N as -> by (unfold p, q, r; lia) end.
      destruct (by_digits p q r 0 LQ LR) as (-> & -> & -> & _); [lia|].
      constructor; [apply sextet_char; reflexivity|].
      constructor; [apply sextet_char; reflexivity|].
      constructor; [apply sextet_char; unfold r, bn; lia|constructor].
  - destruct IH as (l & S & F).
    destruct a as [a0 a1 a2 a3 a4 a5 a6 a7], b as [b0 b1 b2 b3 b4 b5 b6 b7], c as [c0 c1 c2 c3 c4 c5 c6 c7].
    eexists. split.
    + cbn [bits flat_map bits_of_byte app]. apply (sx_full [_; _; _; _; _; _]); [reflexivity|].
      apply (sx_full [_; _; _; _; _; _]); [reflexivity|]. apply (sx_full [_; _; _; _; _; _]); [reflexivity|].
      apply (sx_full [_; _; _; _; _; _]); [reflexivity|]. exact S.
    + cbn [b64_encode]. rewrite !byte_value.
      set (p := (32 * bn a7 + 16 * bn a6 + 8 * bn a5 + 4 * bn a4 + 2 * bn a3 + bn a2)%N).
      set (q := (32 * bn a1 + 16 * bn a0 + 8 * bn b7 + 4 * bn b6 + 2 * bn b5 + bn b4)%N).
      set (r := (32 * bn b3 + 16 * bn b2 + 8 * bn b1 + 4 * bn b0 + 2 * bn c7 + bn c6)%N).
      set (t := (32 * bn c5 + 16 * bn c4 + 8 * bn c3 + 4 * bn c2 + 2 * bn c1 + bn c0)%N).
      assert (q < 64)%N as LQ by (unfold q; bit_bounds; lia).
      assert (r < 64)%N as LR by (unfold r; bit_bounds; lia).
      assert (t < 64)%N as LT by (unfold t; bit_bounds; lia).
      match goal with |- context [b64_char (?n / 262144)] =>
        assert (n = 262144 * p + 4096 * q + 64 * r + t)%N as -> by (unfold p, q, r, t; lia) end.
      destruct (by_digits p q r t LQ LR LT) as (-> & -> & -> & ->).
      repeat (constructor; [apply sextet_char; reflexivity|]). exact F.
Qed.

Lemma base64url_iff s t : b64_encode s = t <-> base64url s t.
Proof.
  split; [intros <-; apply b64_is_base64url|]. intros (l & S & F).
  destruct (b64_is_base64url s) as (l' & S' & F'). rewrite <- (sextets_unique _ _ S _ S') in F'. clear S S'.
  revert F'. generalize (b64_encode s). revert t F.
  induction l as [|x l IH]; intros t F u F'; inversion F; inversion F'; subst; [reflexivity|].
  f_equal; [congruence|]. apply IH; assumption.
Qed.

(** * Forms *)

Lemma hex_val_iff c n : hex_val c = Some n <-> hexadecimal c (N.to_nat n) /\ (n < 16)%N.
Proof.
  split.
  - intros H.
    assert (match hex_val c with
            | Some n => (match nth_error $"0123456789abcdef" (N.to_nat n) with Some d => Ascii.eqb d c | None => false end
                         || match nth_error $"0123456789ABCDEF" (N.to_nat n) with Some d => Ascii.eqb d c | None => false end)
                        && (n <? 16)%N
            | None => true end = true) as X.
    { revert c H. intros c _. revert c. apply byte_sweep. vm_compute. reflexivity. }
    rewrite H in X. apply andb_true_iff in X as [X L]. apply N.ltb_lt in L. split; [|exact L].
    apply orb_true_iff in X as [X|X]; [left|right].
    + destruct (nth_error _ _); [|discriminate X]. apply Ascii.eqb_eq in X. subst. reflexivity.
    + destruct (nth_error _ _); [|discriminate X]. apply Ascii.eqb_eq in X. subst. reflexivity.
  - intros [H L]. rewrite <- (Nnat.N2Nat.id n). revert H. generalize (N.to_nat n).
    intros x H. do 16 (destruct x as [|x]; [destruct H as [H|H]; injection H as <-; reflexivity|]).
    destruct H as [H|H]; cbn in H; destruct x; discriminate H.
Qed.

Lemma hexadecimal_val c x : hexadecimal c x <-> hex_val c = Some (N.of_nat x).
Proof.
  rewrite hex_val_iff, Nnat.Nat2N.id. split; [|tauto]. intros H. split; [exact H|].
  assert (x < 16)%nat; [|lia].
  destruct H as [H|H];
    [change 16 with (List.length $"0123456789abcdef")|change 16 with (List.length $"0123456789ABCDEF")];
    apply nth_error_Some; rewrite H; discriminate.
Qed.

Lemma hex_byte x y : ascii_of_N (N.of_nat x * 16 + N.of_nat y) = ascii_of_nat (16 * x + y).
Proof. unfold ascii_of_nat. f_equal. lia. Qed.

Lemma decode_percent s :
  form_decode_bytes ("%"%char :: s)
  = match s with
    | a :: b :: s2 =>
        match hex_val a, hex_val b with
        | Some x, Some y => ascii_of_N (x * 16 + y) :: form_decode_bytes s2
        | _, _ => "%"%char :: form_decode_bytes s
        end
    | _ => "%"%char :: form_decode_bytes s
    end.
Proof. destruct s as [|a [|b s]]; reflexivity. Qed.

Lemma unescaped_decode s r : unescaped s r -> form_decode_bytes s = r.
Proof.
  induction 1 as [|s r U IH|a b x y s r A B U IH|s r N U IH|c s r P Q U IH].
  - reflexivity.
  - cbn [form_decode_bytes]. rewrite Ascii.eqb_refl, IH. reflexivity.
  - apply hexadecimal_val in A, B. rewrite decode_percent, A, B, hex_byte, IH. reflexivity.
  - rewrite decode_percent, IH. destruct s as [|a [|b s]]; try reflexivity.
    destruct (hex_val a) as [x|] eqn:A; [|reflexivity]. destruct (hex_val b) as [y|] eqn:B; [|reflexivity].
    exfalso. apply hex_val_iff in A as [A _], B as [B _]. exact (N a b s _ _ eq_refl A B).
  - cbn [form_decode_bytes]. apply Ascii.eqb_neq in P, Q. rewrite P, Q, IH. reflexivity.
Qed.

Lemma decode_unescaped n s : List.length s <= n -> unescaped s (form_decode_bytes s).
Proof.
  revert s. induction n as [|n IH]; intros [|c s] L; try constructor; [cbn in L; lia|].
  cbn [List.length] in L.
  destruct (Ascii.eqb c "+"%char) eqn:P.
  { apply Ascii.eqb_eq in P. subst c. apply ue_space, IH. lia. }
  destruct (Ascii.eqb c "%"%char) eqn:Q.
  - apply Ascii.eqb_eq in Q. subst c. rewrite decode_percent.
    destruct s as [|a [|b s]].
    + apply ue_percent; [intros; discriminate|]. apply IH. cbn. lia.
    + apply ue_percent; [intros; discriminate|]. apply IH. cbn in *. lia.
    + destruct (hex_val a) as [x|] eqn:A; [destruct (hex_val b) as [y|] eqn:B|].
      * apply hex_val_iff in A as [A _], B as [B _].
        rewrite <- (Nnat.N2Nat.id x), <- (Nnat.N2Nat.id y), hex_byte. apply ue_hex; [exact A|exact B|].
        apply IH. cbn in *. lia.
      * apply ue_percent; [|apply IH; lia]. intros a' b' s' x' y' [= <- <- <-] _ H.
        apply hexadecimal_val in H. congruence.
      * apply ue_percent; [|apply IH; lia]. intros a' b' s' x' y' [= <- <- <-] H _.
        apply hexadecimal_val in H. congruence.
  - cbn [form_decode_bytes]. rewrite P, Q. apply Ascii.eqb_neq in P, Q. apply ue_other; [exact P|exact Q|].
    apply IH. lia.
Qed.

Lemma read_as_iff s t : form_decode s = t <-> read_as s t.
Proof.
  unfold form_decode. split.
  - intros <-. destruct (lossy_repairs (form_decode_bytes s)) as (cs & R & _ & E).
    exists (form_decode_bytes s), cs. split; [apply (decode_unescaped (List.length s)); lia|]. auto.
  - intros (bs & cs & U & R & ->). rewrite (unescaped_decode _ _ U). apply repaired_lossy. exact R.
Qed.

Lemma split_all_cut c s : cut c s (split_all c s).
Proof.
  induction s as [|x s IH]; cbn [split_all]; [apply cut_none; intros []|].
  destruct (Ascii.eqb x c) eqn:E.
  - apply Ascii.eqb_eq in E. subst x. apply (cut_more c []); [intros []|exact IH].
  - apply Ascii.eqb_neq in E. destruct IH as [s N|a s l N IH].
    + apply cut_none. intros [H|H]; contradiction.
    + apply (cut_more c (x :: a)); [|exact IH]. intros [H|H]; contradiction.
Qed.

Lemma cut_split c s l : cut c s l -> split_all c s = l.
Proof.
  induction 1 as [s N|a s l N C IH]; [apply split_all_clean; exact N|].
  rewrite split_all_app, (split_all_clean c a N), IH. reflexivity.
Qed.

Lemma pair_read_iff s p : parse_segment s = p <-> pair_read s p.
Proof.
  unfold parse_segment. split.
  - intros <-. destruct (split_first "="%char s) as [[a b]|] eqn:E.
    + apply (proj1 (split_first_some _ _ _ _)) in E as [-> N].
      apply pr_both; [exact N|apply read_as_iff; reflexivity|apply read_as_iff; reflexivity].
    + apply (proj1 (split_first_none _ _)) in E. apply pr_name; [exact E|apply read_as_iff; reflexivity].
  - intros P. destruct P as [a b k v N K V|a k N K].
    + rewrite split_first_app by exact N. apply read_as_iff in K, V. congruence.
    + apply split_first_none in N. rewrite N. apply read_as_iff in K. congruence.
Qed.

Lemma pairs_read_iff l ps :
  map parse_segment (filter (fun seg => match seg with [] => false | _ => true end) l) = ps <-> pairs_read l ps.
Proof.
  revert ps. induction l as [|s l IH]; intros ps; cbn [filter map].
  - split; [intros <-; constructor|]. intros H. inversion H. reflexivity.
  - destruct s as [|c s].
    + split.
      * intros E. apply prs_empty. apply IH. exact E.
      * intros H. inversion H; subst; [apply IH; assumption|contradiction].
    + cbn [map]. split.
      * intros <-. apply prs_pair; [discriminate|apply pair_read_iff; reflexivity|apply IH; reflexivity].
      * intros H. inversion H as [| |s0 p l0 qs NE P R]; subst. f_equal; [apply pair_read_iff; exact P|].
        apply IH. exact R.
Qed.

Lemma form_read_iff q ps : form_parse q = ps <-> form_read q ps.
Proof.
  unfold form_parse, form_read. split.
  - intros E. exists (split_all "&"%char q). split; [apply split_all_cut|]. apply pairs_read_iff. exact E.
  - intros (l & C & P). rewrite (cut_split _ _ _ C). apply pairs_read_iff. exact P.
Qed.

(** ** Written by anybody *)

Lemma escaping_read bad s e :
  In "+"%char bad -> In "%"%char bad -> escaping bad s e -> unescaped e s.
Proof.
  intros P Q. induction 1 as [|c s e N E IH|s e E IH|a b x y s e A B E IH]; try (constructor; assumption).
  apply ue_other; [intros ->; contradiction|intros ->; contradiction|exact IH].
Qed.

Lemma hexadecimal_plain c x : hexadecimal c x -> ~ In c $"+%&=#".
Proof.
  intros H. apply hexadecimal_val in H. intros I.
  assert (match hex_val c with Some _ => negb (existsb (Ascii.eqb c) $"+%&=#") | None => true end = true) as X.
  { clear H I. revert c. apply byte_sweep. vm_compute. reflexivity. }
  rewrite H in X. apply negb_true_iff in X.
  assert (existsb (Ascii.eqb c) $"+%&=#" = true) by (apply existsb_exists; exists c; split; [exact I|apply Ascii.eqb_refl]).
  congruence.
Qed.

Lemma escaping_clean bad s e d :
  escaping bad s e -> In d bad -> In d $"&=#" -> ~ In d e.
Proof.
  intros E B D. 
  assert (d <> "+"%char /\ d <> "%"%char) as [D1 D2]
    by (cbn in D; destruct D as [<-|[<-|[<-|[]]]]; split; discriminate).
  assert (In d $"+%&=#") as D3 by (cbn in D; destruct D as [<-|[<-|[<-|[]]]]; vm_compute; tauto).
  induction E as [|c s e N E IH|s e E IH|a b x y s e A A' E IH]; cbn [In].
  - tauto.
  - intros [->|H]; contradiction.
  - intros [H|H]; [congruence|contradiction].
  - intros [H|[H|[H|H]]]; [congruence| | |contradiction]; subst.
    + exact (hexadecimal_plain _ _ A D3).
    + exact (hexadecimal_plain _ _ A' D3).
Qed.

Lemma text_read s e : is_text s -> unescaped e s -> read_as e s.
Proof.
  intros T U. apply read_as_iff. unfold form_decode. rewrite (unescaped_decode _ _ U). apply lossy_text_id. exact T.
Qed.

Lemma written_pair_read p q :
  written_pair p q -> is_text (fst p) -> is_text (snd p) -> q <> [] /\ ~ In "&"%char q /\ pair_read q p.
Proof.
  intros W K V. destruct W as [k v k' v' EK EV|k k' NE EK]; cbn [fst snd] in K, V.
  - split; [destruct k'; discriminate|]. split.
    + intros I. apply in_app_or in I as [I|[I|I]]; [|discriminate I|].
      * exact (escaping_clean _ _ _ "&"%char EK (ltac:(vm_compute; tauto)) (ltac:(vm_compute; tauto)) I).
      * exact (escaping_clean _ _ _ "&"%char EV (ltac:(vm_compute; tauto)) (ltac:(vm_compute; tauto)) I).
    + apply pr_both.
      * exact (escaping_clean _ _ _ "="%char EK (ltac:(vm_compute; tauto)) (ltac:(vm_compute; tauto))).
      * apply text_read; [exact K|]. apply (escaping_read $"+%&=#"); [vm_compute; tauto|vm_compute; tauto|exact EK].
      * apply text_read; [exact V|]. apply (escaping_read $"+%&#"); [vm_compute; tauto|vm_compute; tauto|exact EV].
  - split; [exact NE|]. split.
    + exact (escaping_clean _ _ _ "&"%char EK (ltac:(vm_compute; tauto)) (ltac:(vm_compute; tauto))).
    + apply pr_name.
      * exact (escaping_clean _ _ _ "="%char EK (ltac:(vm_compute; tauto)) (ltac:(vm_compute; tauto))).
      * apply text_read; [exact K|]. apply (escaping_read $"+%&=#"); [vm_compute; tauto|vm_compute; tauto|exact EK].
Qed.

Lemma writing_read ps q :
  writing ps q -> Forall (fun p => is_text (fst p) /\ is_text (snd p)) ps -> form_read q ps.
Proof.
  induction 1 as [|ps q W IH|p q W|p ps q r W R IH]; intros F.
  - exists [[]]. split; [apply cut_none; intros []|]. apply prs_empty, prs_end.
  - destruct (IH F) as (l & C & P). exists ([] :: l).
    split; [apply (cut_more "&"%char []); [intros []|exact C]|]. apply prs_empty. exact P.
  - inversion F as [|? ? [K V] _]; subst. destruct (written_pair_read p q W K V) as (NE & NA & P).
    exists [q]. split; [apply cut_none; exact NA|]. apply prs_pair; [exact NE|exact P|constructor].
  - inversion F as [|? ? [K V] F']; subst. destruct (written_pair_read p q W K V) as (NE & NA & P).
    destruct (IH F') as (l & C & PR). exists (q :: l).
    split; [apply cut_more; assumption|]. apply prs_pair; assumption.
Qed.
