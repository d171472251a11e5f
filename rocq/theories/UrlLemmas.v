(** Form encoding, base64 and UTF-8: what goes in comes out. *)
From Verif Require Import Base BaseLemmas Utf8 Base64 Url.

(** * Sweeping all bytes *)

Definition bools : list bool := [true; false].

Definition all_bytes : list ascii :=
  flat_map (fun a => flat_map (fun b => flat_map (fun c => flat_map (fun d =>
  flat_map (fun e => flat_map (fun f => flat_map (fun g => map (fun h =>
    Ascii a b c d e f g h) bools) bools) bools) bools) bools) bools) bools) bools.

Lemma in_bools b : In b bools.
Proof. destruct b; simpl; auto. Qed.

Lemma in_all_bytes c : In c all_bytes.
Proof.
  destruct c as [a b c d e f g h]. unfold all_bytes.
  repeat (apply in_flat_map; eexists; split; [apply in_bools|]).
  apply in_map. apply in_bools.
Qed.

Lemma byte_sweep (P : ascii -> bool) : forallb P all_bytes = true -> forall c, P c = true.
Proof. intros H c. rewrite forallb_forall in H. apply H, in_all_bytes. Qed.

(** * Form encoding *)

Lemma form_byte_dec c r : form_decode_bytes (form_byte c ++ r) = c :: form_decode_bytes r.
Proof.
  unfold form_byte. destruct (form_unreserved c) eqn:U.
  - simpl. assert (Ascii.eqb c "+" = false /\ Ascii.eqb c "%" = false) as [-> ->]; [|reflexivity].
    pose proof (byte_sweep (fun c => negb (form_unreserved c) || (negb (Ascii.eqb c "+") && negb (Ascii.eqb c "%")))
                 ltac:(vm_compute; reflexivity) c) as H. cbv beta in H. rewrite U in H. simpl in H.
    apply andb_true_iff in H as [H1 H2]. rewrite negb_true_iff in H1, H2. auto.
  - destruct (N_of_ascii c =? 32)%N eqn:S.
    + simpl. apply N.eqb_eq in S. rewrite <- (ascii_N_embedding c), S. reflexivity.
    + change (form_decode_bytes (["%"%char; hex_digit (N_of_ascii c / 16); hex_digit (N_of_ascii c mod 16)] ++ r))
        with (match hex_val (hex_digit (N_of_ascii c / 16)), hex_val (hex_digit (N_of_ascii c mod 16)) with
              | Some x, Some y => ascii_of_N (x * 16 + y) :: form_decode_bytes r
              | _, _ => "%"%char :: form_decode_bytes (hex_digit (N_of_ascii c / 16) :: hex_digit (N_of_ascii c mod 16) :: r)
              end).
      pose proof (byte_sweep (fun c => match hex_val (hex_digit (N_of_ascii c / 16)), hex_val (hex_digit (N_of_ascii c mod 16)) with
              | Some x, Some y => Ascii.eqb (ascii_of_N (x * 16 + y)) c | _, _ => false end)
                 ltac:(vm_compute; reflexivity) c) as H. cbv beta in H.
      destruct (hex_val (hex_digit (N_of_ascii c / 16))) as [x|]; [|discriminate].
      destruct (hex_val (hex_digit (N_of_ascii c mod 16))) as [y|]; [|discriminate].
      apply Ascii.eqb_eq in H. rewrite H. reflexivity.
Qed.

Lemma form_encode_dec_app s r : form_decode_bytes (form_encode s ++ r) = s ++ form_decode_bytes r.
Proof.
  induction s as [|c s IH]; [reflexivity|]. change (form_encode (c :: s)) with (form_byte c ++ form_encode s).
  rewrite <- app_assoc, form_byte_dec, IH. reflexivity.
Qed.

Lemma form_encode_dec s : form_decode_bytes (form_encode s) = s.
Proof. rewrite <- (app_nil_r (form_encode s)), form_encode_dec_app. simpl. apply app_nil_r. Qed.

Lemma form_byte_clean c x : In x (form_byte c) -> x <> "&"%char /\ x <> "="%char /\ x <> "#"%char.
Proof.
  intros I.
  pose proof (byte_sweep (fun c => forallb (fun x => negb (Ascii.eqb x "&") && negb (Ascii.eqb x "=") && negb (Ascii.eqb x "#")) (form_byte c))
               ltac:(vm_compute; reflexivity) c) as H. cbv beta in H.
  rewrite forallb_forall in H. specialize (H x I). rewrite !andb_true_iff, !negb_true_iff in H.
  destruct H as [[H1 H2] H3]. apply Ascii.eqb_neq in H1, H2, H3. auto.
Qed.

Lemma form_encode_clean s x : In x (form_encode s) -> x <> "&"%char /\ x <> "="%char /\ x <> "#"%char.
Proof. intros I. apply in_flat_map in I as (c & _ & I). eapply form_byte_clean. exact I. Qed.

Lemma form_encode_unreserved s : forallb form_unreserved s = true -> form_encode s = s.
Proof.
  induction s as [|c s IH]; simpl; [reflexivity|]. intros H. apply andb_true_iff in H as [H1 H2].
  unfold form_byte at 1. rewrite H1. simpl. f_equal. apply IH. exact H2.
Qed.

(** * Queries, on bytes *)

Definition raw_segment (seg : str) : str * str :=
  match split_first "="%char seg with
  | Some (k, v) => (form_decode_bytes k, form_decode_bytes v)
  | None => (form_decode_bytes seg, [])
  end.

Definition nonempty (s : str) : bool := match s with [] => false | _ => true end.

Definition raw_parse (q : str) : list (str * str) := map raw_segment (filter nonempty (split_all "&"%char q)).

Definition raw_pairs (u : url) : list (str * str) :=
  raw_parse (match u_query u with Some q => q | None => [] end).

Lemma split_all_app c a b : split_all c (a ++ c :: b) = split_all c a ++ split_all c b.
Proof.
  induction a as [|x a IH]; simpl.
  - rewrite Ascii.eqb_refl. reflexivity.
  - destruct (Ascii.eqb x c); [rewrite IH; reflexivity|]. rewrite IH.
    destruct (split_all c a) as [|p ps] eqn:E; [|reflexivity].
    exfalso. destruct a as [|y a]; simpl in E; [discriminate|].
    destruct (Ascii.eqb y c); [discriminate|]. destruct (split_all c a); discriminate.
Qed.

Lemma split_all_clean c a : ~ In c a -> split_all c a = [a].
Proof.
  induction a as [|x a IH]; simpl; [reflexivity|]. intros H.
  destruct (Ascii.eqb_spec x c) as [->|N]; [exfalso; auto|]. rewrite IH by auto. reflexivity.
Qed.

Lemma form_pair_amp p : ~ In "&"%char (form_pair p).
Proof.
  unfold form_pair. intros I. apply in_app_or in I as [I|I].
  - destruct (form_encode_clean _ _ I). congruence.
  - apply in_app_or in I as [[I|[]]|I]; [discriminate|]. destruct (form_encode_clean _ _ I). congruence.
Qed.

Lemma raw_segment_pair p : raw_segment (form_pair p) = p.
Proof.
  unfold raw_segment, form_pair.
  change (form_encode (fst p) ++ $"=" ++ form_encode (snd p))
    with (form_encode (fst p) ++ "="%char :: form_encode (snd p)).
  rewrite split_first_app.
  - rewrite !form_encode_dec. symmetry. apply surjective_pairing.
  - intros I. destruct (form_encode_clean _ _ I) as (_ & H & _). congruence.
Qed.

Lemma form_pair_nonempty p : nonempty (form_pair p) = true.
Proof.
  unfold form_pair. destruct (form_encode (fst p)); reflexivity.
Qed.

(** Splitting off the pairs appended to a query. *)
Lemma append_pairs_split q ps :
  filter nonempty (split_all "&"%char (append_pairs q ps))
  = filter nonempty (split_all "&"%char q) ++ map form_pair ps.
Proof.
  revert q. induction ps as [|p ps IH]; intros q; simpl; [symmetry; apply app_nil_r|].
  rewrite IH. destruct q as [|x q].
  - simpl. rewrite (split_all_clean _ _ (form_pair_amp p)). simpl. rewrite form_pair_nonempty. reflexivity.
  - change ((x :: q) ++ $"&" ++ form_pair p) with ((x :: q) ++ "&"%char :: form_pair p).
    rewrite split_all_app, filter_app, (split_all_clean _ _ (form_pair_amp p)), <- app_assoc. f_equal.
    cbn [filter]. rewrite form_pair_nonempty. reflexivity.
Qed.

Lemma raw_pairs_extend u ps : raw_pairs (extend_pairs u ps) = raw_pairs u ++ ps.
Proof.
  unfold raw_pairs, raw_parse. cbn [u_query extend_pairs].
  rewrite append_pairs_split, map_app. f_equal.
  rewrite map_map. rewrite <- (map_id ps) at 2. apply map_ext. apply raw_segment_pair.
Qed.

(** * UTF-8 *)

Lemma utf8_char_len_pos s n : utf8_char_len s = Some n -> 1 <= n <= 4.
Proof.
  unfold utf8_char_len. destruct s as [|a s]; [discriminate|].
  destruct (between 0 127 a); [intros [= <-]; lia|].
  destruct s as [|b s]; [discriminate|]. destruct (between 194 223 a && cont b); [intros [= <-]; lia|].
  destruct s as [|c s]; [discriminate|].
  match goal with |- (if ?b then _ else _) = _ -> _ => destruct b end; [intros [= <-]; lia|].
  destruct s as [|d s]; [discriminate|].
  match goal with |- (if ?b then _ else _) = _ -> _ => destruct b end; [intros [= <-]; lia|discriminate].
Qed.

Lemma utf8_lossy_valid_fuel n s : utf8_valid_fuel n s = true -> utf8_lossy_fuel n s = s.
Proof.
  revert s. induction n as [|n IH]; intros s; cbn [utf8_valid_fuel utf8_lossy_fuel].
  - destruct s; [reflexivity|discriminate].
  - destruct s as [|c s]; [reflexivity|].
    destruct (utf8_char_len (c :: s)) as [k|]; [|discriminate].
    intros H. rewrite IH by exact H. apply firstn_skipn.
Qed.

Lemma utf8_lossy_valid s : utf8_valid s = true -> utf8_lossy s = s.
Proof. apply utf8_lossy_valid_fuel. Qed.

(** [query_pairs] of a URL whose parameters are text is what went in. *)
Lemma parse_segment_pair p :
  utf8_valid (fst p) = true -> utf8_valid (snd p) = true -> parse_segment (form_pair p) = p.
Proof.
  intros H1 H2. pose proof (raw_segment_pair p) as R. unfold raw_segment, parse_segment in *.
  destruct (split_first "="%char (form_pair p)) as [[k v]|] eqn:S.
  - unfold form_decode. destruct p as [a b]. injection R as -> ->. simpl in *.
    rewrite !utf8_lossy_valid by assumption. reflexivity.
  - unfold form_decode. destruct p as [a b]. injection R as -> <-. simpl in *.
    rewrite !utf8_lossy_valid by assumption. reflexivity.
Qed.

Lemma query_pairs_extend u ps :
  Forall (fun p => utf8_valid (fst p) = true /\ utf8_valid (snd p) = true) ps ->
  query_pairs (extend_pairs u ps) = query_pairs u ++ ps.
Proof.
  intros F. unfold query_pairs, form_parse. cbn [u_query extend_pairs].
  change (fun seg : list ascii => match seg with [] => false | _ => true end) with nonempty.
  rewrite append_pairs_split, map_app. f_equal. rewrite map_map.
  induction F as [|p ps [H1 H2] F IH]; [reflexivity|]. simpl. rewrite parse_segment_pair by assumption.
  f_equal. exact IH.
Qed.

Lemma utf8_valid_ascii s : forallb (between 0 127) s = true -> utf8_valid s = true.
Proof.
  unfold utf8_valid. assert (forall n, List.length s <= n -> forallb (between 0 127) s = true -> utf8_valid_fuel n s = true) as K.
  { induction s as [|c s IH]; intros n L H; [destruct n; reflexivity|].
    simpl in L. destruct n as [|n]; [lia|]. cbn [forallb] in H. apply andb_true_iff in H as [H1 H2].
    cbn [utf8_valid_fuel]. unfold utf8_char_len. rewrite H1. cbn [skipn]. apply IH; [lia|exact H2]. }
  apply K. lia.
Qed.

(** * Base64 *)

Definition b64_alphabet (c : ascii) : bool :=
  let n := N_of_ascii c in
  (((65 <=? n) && (n <=? 90)) || ((97 <=? n) && (n <=? 122)) || ((48 <=? n) && (n <=? 57))
   || (n =? 45) || (n =? 95))%N.

(** All six-bit values. *)
Definition sixes : list N := map N.of_nat (seq 0 64).

Lemma in_sixes n : (n < 64)%N -> In n sixes.
Proof.
  intros H. unfold sixes. apply in_map_iff. exists (N.to_nat n). split; [apply N2Nat.id|].
  apply in_seq. lia.
Qed.

Lemma six_sweep (P : N -> bool) : forallb P sixes = true -> forall n, (n < 64)%N -> P n = true.
Proof. intros H n L. rewrite forallb_forall in H. apply H, in_sixes, L. Qed.

(** The inverse of [b64_char], for the proofs. *)
Definition b64_val (c : ascii) : N :=
  let n := N_of_ascii c in
  if ((65 <=? n) && (n <=? 90))%N then n - 65
  else if ((97 <=? n) && (n <=? 122))%N then n - 71
  else if ((48 <=? n) && (n <=? 57))%N then n + 4
  else if (n =? 45)%N then 62 else 63.

Lemma b64_char_val n : (n < 64)%N -> b64_val (b64_char n) = n.
Proof.
  intros L. pose proof (six_sweep (fun n => N.eqb (b64_val (b64_char n)) n) ltac:(vm_compute; reflexivity) n L) as H.
  apply N.eqb_eq. exact H.
Qed.

Lemma b64_char_alphabet n : (n < 64)%N -> b64_alphabet (b64_char n) = true.
Proof. apply (six_sweep (fun n => b64_alphabet (b64_char n))). vm_compute. reflexivity. Qed.

Lemma b64_char_inj n m : (n < 64)%N -> (m < 64)%N -> b64_char n = b64_char m -> n = m.
Proof. intros L M E. rewrite <- (b64_char_val n L), <- (b64_char_val m M), E. reflexivity. Qed.

Lemma alphabet_unreserved c : b64_alphabet c = true -> form_unreserved c = true.
Proof.
  intros H. pose proof (byte_sweep (fun c => negb (b64_alphabet c) || form_unreserved c) ltac:(vm_compute; reflexivity) c) as S.
  cbv beta in S. rewrite H in S. exact S.
Qed.

Lemma alphabet_ascii c : b64_alphabet c = true -> between 0 127 c = true.
Proof.
  intros H. pose proof (byte_sweep (fun c => negb (b64_alphabet c) || between 0 127 c) ltac:(vm_compute; reflexivity) c) as S.
  cbv beta in S. rewrite H in S. exact S.
Qed.

Lemma byte_lt c : (N_of_ascii c < 256)%N.
Proof. apply N_ascii_bounded. Qed.

(** Induction three bytes at a time. *)
Lemma list3_ind {A} (P : list A -> Prop) :
  P [] -> (forall a, P [a]) -> (forall a b, P [a; b]) ->
  (forall a b c s, P s -> P (a :: b :: c :: s)) -> forall s, P s.
Proof.
  intros H0 H1 H2 H3. fix IH 1. intros [|a [|b [|c s]]];
    [exact H0|apply H1|apply H2|apply H3, IH].
Qed.

Section B64.
Local Open Scope N_scope.

Lemma six_a x y z : x < 256 -> y < 256 -> z < 256 -> (x * 65536 + y * 256 + z) / 262144 < 64.
Proof. intros. apply N.div_lt_upper_bound; lia. Qed.

Lemma b64_encode_alphabet s : forallb b64_alphabet (b64_encode s) = true.
Proof.
  induction s as [|a|a b|a b c s IH] using list3_ind; cbn [b64_encode forallb].
  - reflexivity.
  - pose proof (byte_lt a). rewrite !b64_char_alphabet; try reflexivity;
      solve [apply N.mod_lt; lia|apply N.div_lt_upper_bound; lia].
  - pose proof (byte_lt a). pose proof (byte_lt b). rewrite !b64_char_alphabet; try reflexivity;
      solve [apply N.mod_lt; lia|apply N.div_lt_upper_bound; lia].
  - pose proof (byte_lt a). pose proof (byte_lt b). pose proof (byte_lt c).
    rewrite !b64_char_alphabet; try exact IH; solve [apply N.mod_lt; lia|apply N.div_lt_upper_bound; lia].
Qed.

Lemma digits64 n : n < 16777216 ->
  n = 262144 * (n / 262144) + 4096 * (n / 4096 mod 64) + 64 * (n / 64 mod 64) + n mod 64.
Proof.
  intros L.
  pose proof (N.div_mod n 64). pose proof (N.div_mod (n / 64) 64). pose proof (N.div_mod (n / 64 / 64) 64).
  rewrite !N.div_div in * by lia. change (64 * 64) with 4096 in *. change (64 * 64 * 64) with 262144 in *.
  change (4096 * 64) with 262144 in *. lia.
Qed.

Lemma three_bytes a b c a' b' c' :
  a < 256 -> b < 256 -> c < 256 -> a' < 256 -> b' < 256 -> c' < 256 ->
  a * 65536 + b * 256 + c = a' * 65536 + b' * 256 + c' -> a = a' /\ b = b' /\ c = c'.
Proof. lia. Qed.

Lemma b64_group x y :
  x < 16777216 -> y < 16777216 ->
  b64_char (x / 262144) = b64_char (y / 262144) ->
  b64_char (x / 4096 mod 64) = b64_char (y / 4096 mod 64) ->
  b64_char (x / 64 mod 64) = b64_char (y / 64 mod 64) ->
  b64_char (x mod 64) = b64_char (y mod 64) -> x = y.
Proof.
  intros LX LY E1 E2 E3 E4.
  apply b64_char_inj in E1; try (apply N.div_lt_upper_bound; lia).
  apply b64_char_inj in E2; try (apply N.mod_lt; lia).
  apply b64_char_inj in E3; try (apply N.mod_lt; lia).
  apply b64_char_inj in E4; try (apply N.mod_lt; lia).
  rewrite (digits64 x LX), (digits64 y LY), E1, E2, E3, E4. reflexivity.
Qed.

Lemma byte_inj a b : N_of_ascii a = N_of_ascii b -> a = b.
Proof. intros E. rewrite <- (ascii_N_embedding a), <- (ascii_N_embedding b), E. reflexivity. Qed.

Lemma b64_encode_inj s : forall s', b64_encode s = b64_encode s' -> s = s'.
Proof.
  induction s as [|a|a b|a b c s IH] using list3_ind; intros [|a' [|b' [|c' s']]] E;
    cbn [b64_encode] in E; try discriminate; try reflexivity.
  - injection E as E1 E2. pose proof (byte_lt a). pose proof (byte_lt a').
    assert (N_of_ascii a * 65536 = N_of_ascii a' * 65536) as X.
    { apply b64_group; try lia; try assumption.
      - f_equal. replace (N_of_ascii a * 65536) with (N_of_ascii a * 1024 * 64) by lia.
        replace (N_of_ascii a' * 65536) with (N_of_ascii a' * 1024 * 64) by lia.
        rewrite !N.div_mul by lia. replace (N_of_ascii a * 1024) with (N_of_ascii a * 16 * 64) by lia.
        replace (N_of_ascii a' * 1024) with (N_of_ascii a' * 16 * 64) by lia. rewrite !N.mod_mul by lia. reflexivity.
      - f_equal. replace (N_of_ascii a * 65536) with (N_of_ascii a * 1024 * 64) by lia.
        replace (N_of_ascii a' * 65536) with (N_of_ascii a' * 1024 * 64) by lia.
        rewrite !N.mod_mul by lia. reflexivity. }
    f_equal. apply byte_inj. lia.
  - injection E as E1 E2 E3. pose proof (byte_lt a). pose proof (byte_lt a'). pose proof (byte_lt b). pose proof (byte_lt b').
    assert (N_of_ascii a * 65536 + N_of_ascii b * 256 = N_of_ascii a' * 65536 + N_of_ascii b' * 256) as X.
    { apply b64_group; try lia; try assumption.
      f_equal. replace (N_of_ascii a * 65536 + N_of_ascii b * 256) with ((N_of_ascii a * 1024 + N_of_ascii b * 4) * 64) by lia.
      replace (N_of_ascii a' * 65536 + N_of_ascii b' * 256) with ((N_of_ascii a' * 1024 + N_of_ascii b' * 4) * 64) by lia.
      rewrite !N.mod_mul by lia. reflexivity. }
    assert (N_of_ascii a = N_of_ascii a' /\ N_of_ascii b = N_of_ascii b') as [Y Z] by lia.
    apply byte_inj in Y, Z. congruence.
  - injection E as E1 E2 E3 E4 E5. pose proof (byte_lt a). pose proof (byte_lt a'). pose proof (byte_lt b).
    pose proof (byte_lt b'). pose proof (byte_lt c). pose proof (byte_lt c').
    assert (N_of_ascii a * 65536 + N_of_ascii b * 256 + N_of_ascii c
            = N_of_ascii a' * 65536 + N_of_ascii b' * 256 + N_of_ascii c') as X
      by (apply b64_group; try lia; assumption).
    apply three_bytes in X as (X1 & X2 & X3); try assumption. apply byte_inj in X1, X2, X3.
    rewrite (IH s' E5). congruence.
Qed.
End B64.

Lemma b64_encode_length s :
  List.length (b64_encode s) = (List.length s / 3) * 4 + match List.length s mod 3 with 0 => 0 | 1 => 2 | _ => 3 end.
Proof.
  induction s as [|a|a b|a b c s IH] using list3_ind; try reflexivity.
  cbn [b64_encode List.length]. rewrite IH.
  replace (S (S (S (List.length s)))) with (List.length s + 1 * 3) by lia.
  rewrite Nat.div_add, Nat.mod_add by lia. lia.
Qed.
