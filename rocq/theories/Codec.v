(** The dump encoding is faithful (C37). *)
From Verif Require Import Base BaseLemmas Time Utf8 Config Dump SpecDump.
Local Open Scope N_scope.

Lemma obind_inv {A B} (m : outcome A) (f : A -> outcome B) y : bind m f = Val y -> exists x, m = Val x /\ f x = Val y.
Proof. destruct m; simpl; intros E; [eauto|discriminate|discriminate]. Qed.

(** * Encoding then decoding *)

Lemma le_bytes_length k n : List.length (le_bytes k n) = k.
Proof. revert n. induction k as [|k IH]; intros n; simpl; [reflexivity|]. rewrite IH. reflexivity. Qed.

Lemma le_val_bytes k n : n < 256 ^ N.of_nat k -> le_val (le_bytes k n) = n.
Proof.
  revert n. induction k as [|k IH]; intros n L; cbn [le_bytes le_val].
  - change (256 ^ N.of_nat 0) with 1 in L. lia.
  - rewrite N_ascii_embedding by (apply N.mod_lt; lia).
    rewrite IH; [|rewrite Nat2N.inj_succ, N.pow_succ_r' in L; apply N.div_lt_upper_bound; lia].
    pose proof (N.div_mod' n 256). lia.
Qed.

Lemma dec_bytes_app b r : dec_bytes (List.length b) (b ++ r) = Some (b, r).
Proof.
  unfold dec_bytes. rewrite app_length. destruct (Nat.leb_spec (List.length b) (List.length b + List.length r)); [|lia].
  rewrite firstn_app, firstn_all, Nat.sub_diag, skipn_app, skipn_all, Nat.sub_diag. simpl. rewrite app_nil_r. reflexivity.
Qed.

Lemma dec_u64_enc n r : n < 2 ^ 64 -> dec_u64 (enc_u64 n ++ r) = Some (n, r).
Proof.
  intros L. unfold dec_u64, dbind, enc_u64. rewrite <- (le_bytes_length 8 n) at 1. rewrite dec_bytes_app.
  unfold dret. rewrite le_val_bytes by exact L. reflexivity.
Qed.

Lemma dec_u32_enc n r : n < 2 ^ 32 -> dec_u32 (enc_u32 n ++ r) = Some (n, r).
Proof.
  intros L. unfold dec_u32, dbind, enc_u32. rewrite <- (le_bytes_length 4 n) at 1. rewrite dec_bytes_app.
  unfold dret. rewrite le_val_bytes by exact L. reflexivity.
Qed.

Lemma dec_len_enc k r : N.of_nat k < 2 ^ 64 -> (k <= List.length r)%nat -> dec_len (enc_u64 (N.of_nat k) ++ r) = Some (k, r).
Proof.
  intros L K. unfold dec_len. rewrite dec_u64_enc by exact L.
  destruct (N.leb_spec (N.of_nat k) (N.of_nat (List.length r))); [|lia]. rewrite Nat2N.id. reflexivity.
Qed.

Lemma dec_str_enc s r : text s -> dec_str (enc_str s ++ r) = Some (s, r).
Proof.
  intros [U L]. unfold dec_str, enc_str, dbind. rewrite <- app_assoc, dec_len_enc; [|exact L|rewrite app_length; lia].
  rewrite dec_bytes_app, U. reflexivity.
Qed.

Lemma enc_str_length s : (8 <= List.length (enc_str s))%nat.
Proof. unfold enc_str, enc_u64. rewrite app_length, le_bytes_length. lia. Qed.

Lemma dec_opt_enc {A} (f : A -> str) d (ok : A -> Prop) o r :
  (forall x r, ok x -> d (f x ++ r) = Some (x, r)) -> opt_all ok o -> dec_opt d (enc_opt f o ++ r) = Some (o, r).
Proof.
  intros H K. unfold dec_opt, dec_u8, dbind. destruct o as [x|]; cbn.
  - unfold dbind. rewrite H by (apply K; reflexivity). reflexivity.
  - reflexivity.
Qed.

Lemma dec_n_enc {A} (f : A -> str) d (ok : A -> Prop) l r :
  (forall x r, ok x -> d (f x ++ r) = Some (x, r)) -> Forall ok l ->
  dec_n d (List.length l) (flat_map f l ++ r) = Some (l, r).
Proof.
  intros H. induction l as [|x l IH]; intros F; [reflexivity|]. inversion F as [|? ? K F']; subst.
  cbn [flat_map List.length dec_n]. unfold dbind. rewrite <- app_assoc, H by exact K. rewrite IH by exact F'. reflexivity.
Qed.

Lemma flat_map_length_ge {A} (f : A -> str) l :
  (forall x, (1 <= List.length (f x))%nat) -> (List.length l <= List.length (flat_map f l))%nat.
Proof.
  intros H. induction l as [|x l IH]; simpl; [lia|]. rewrite app_length. specialize (H x). lia.
Qed.

Lemma dec_list_enc {A} (f : A -> str) d (ok : A -> Prop) l r :
  (forall x r, ok x -> d (f x ++ r) = Some (x, r)) -> (forall x, (1 <= List.length (f x))%nat) ->
  Forall ok l -> few l -> dec_list d (enc_list f l ++ r) = Some (l, r).
Proof.
  intros H G F L. unfold dec_list, enc_list, dbind. rewrite <- app_assoc, dec_len_enc; [|exact L|].
  - eapply dec_n_enc; eassumption.
  - rewrite app_length. pose proof (flat_map_length_ge f l G). lia.
Qed.

Lemma dec_time_enc t b r : (t <= time_max)%Z -> enc_time t = Val b -> dec_time (b ++ r) = Some (t, r).
Proof.
  unfold enc_time. destruct (Z.ltb_spec t 0) as [L|L]; [discriminate|]. intros M E.
  assert (b = enc_u64 (Z.to_N (t / nanos)) ++ enc_u32 (Z.to_N (t mod nanos))) as -> by congruence. clear E.
  unfold dec_time, dbind. rewrite <- app_assoc.
  assert (0 <= t mod nanos < nanos)%Z as B by (apply Z.mod_pos_bound; reflexivity).
  assert (0 <= t / nanos < two63)%Z as B'.
  { split; [apply Z.div_pos; [exact L|reflexivity]|]. apply Z.div_lt_upper_bound; [reflexivity|]. unfold time_max in M. lia. }
  rewrite dec_u64_enc.
  2:{ apply N2Z.inj_lt. rewrite Z2N.id by lia. change (Z.of_N (2 ^ 64)) with two64. unfold two63, two64 in *. lia. }
  rewrite dec_u32_enc.
  2:{ apply N2Z.inj_lt. rewrite Z2N.id by lia. change (Z.of_N (2 ^ 32)) with (4294967296)%Z. unfold nanos in *. lia. }
  rewrite !Z2N.id by lia.
  assert (t / nanos * nanos + t mod nanos = t)%Z as -> by (pose proof (Z.div_mod t nanos ltac:(discriminate)); lia).
  destruct (Z.leb_spec t time_max); [reflexivity|lia].
Qed.

Lemma enc_pair_str_length p : (1 <= List.length (enc_pair enc_str enc_str p))%nat.
Proof. unfold enc_pair. rewrite app_length. pose proof (enc_str_length (fst p)). lia. Qed.

Lemma dec_pair_enc p r :
  text (fst p) /\ text (snd p) -> dec_pair dec_str dec_str (enc_pair enc_str enc_str p ++ r) = Some (p, r).
Proof.
  intros [A B]. unfold dec_pair, enc_pair, dbind. rewrite <- app_assoc, dec_str_enc by exact A.
  rewrite dec_str_enc by exact B. destruct p. reflexivity.
Qed.

Lemma dec_account_dump_enc d r : text_account d -> dec_account_dump (enc_account_dump d ++ r) = Some (d, r).
Proof.
  intros (H1 & H2 & H3 & H4 & H5 & H6 & H7 & H8 & H9).
  unfold dec_account_dump, enc_account_dump, dbind. rewrite <- !app_assoc.
  rewrite dec_str_enc by exact H1.
  rewrite (dec_list_enc _ _ (fun kv => text (fst kv) /\ text (snd kv)))
    by (auto using dec_pair_enc, enc_pair_str_length).
  rewrite dec_str_enc by exact H4.
  rewrite (dec_opt_enc enc_str dec_str text) by (auto using dec_str_enc).
  rewrite dec_str_enc by exact H6.
  rewrite (dec_list_enc enc_str dec_str text);
    [|intros; apply dec_str_enc; assumption|intros x; pose proof (enc_str_length x); lia|exact H7|exact H8].
  rewrite dec_str_enc by exact H9. destruct d. reflexivity.
Qed.

Lemma dec_tokenstate_enc t b r : text_token t -> enc_tokenstate_dump t = Val b -> dec_tokenstate_dump (b ++ r) = Some (t, r).
Proof.
  intros T E. unfold dec_tokenstate_dump, dbind. destruct t as [|tok ob ex rt]; unfold enc_tokenstate_dump in E.
  - assert (b = enc_u32 0) as -> by congruence. rewrite dec_u32_enc by reflexivity. reflexivity.
  - destruct T as (T1 & T2 & T3 & T4). apply obind_inv in E as (bo & EO & E). apply obind_inv in E as (be & EE & E).
    assert (b = enc_u32 1 ++ enc_str tok ++ bo ++ be ++ enc_opt enc_str rt) as -> by congruence. clear E.
    rewrite <- !app_assoc. rewrite dec_u32_enc by reflexivity.
    change (1 =? 0) with false. change (1 =? 1) with true. cbv beta iota.
    rewrite dec_str_enc by exact T1. rewrite (dec_time_enc _ _ _ T2 EO), (dec_time_enc _ _ _ T3 EE).
    rewrite (dec_opt_enc enc_str dec_str text) by (auto using dec_str_enc). reflexivity.
Qed.

Lemma dec_entries_enc l : forall b r,
  Forall (fun p => text (fst p) /\ text_account (fst (snd p)) /\ text_token (snd (snd p))) l ->
  enc_entries l = Val b -> dec_n dec_entry (List.length l) (b ++ r) = Some (l, r) /\ (List.length l <= List.length b)%nat.
Proof.
  induction l as [|[n [ad ts]] l IH]; intros b r F E.
  - assert (b = []) as -> by (cbn in E; congruence). split; [reflexivity|apply le_n].
  - cbn [enc_entries] in E. apply obind_inv in E as (bt & ET & E). apply obind_inv in E as (bl & EL & E).
    assert (b = enc_str n ++ enc_account_dump ad ++ bt ++ bl) as -> by congruence. clear E.
    inversion F as [|? ? (T1 & T2 & T3) F']; subst. cbn [fst snd] in *.
    destruct (IH bl r F' EL) as [IH1 IH2]. split.
    + cbn [List.length dec_n]. unfold dbind at 1. unfold dec_entry at 1. unfold dbind.
      rewrite <- !app_assoc, dec_str_enc, dec_account_dump_enc by assumption.
      rewrite (dec_tokenstate_enc _ _ _ T3 ET). unfold dret at 1. fold (dret (A := list (str * (account_dump * tokenstate_dump)))).
      rewrite IH1. reflexivity.
    + rewrite app_length. pose proof (enc_str_length n). rewrite !app_length. simpl. lia.
Qed.

Lemma fold_insert_fresh {A} (l m : list (str * A)) :
  NoDup (map fst m ++ map fst l) ->
  fold_left (fun m kv => map_insert (fst kv) (snd kv) m) l m = m ++ l.
Proof.
  revert m. induction l as [|[k v] l IH]; intros m N; simpl; [symmetry; apply app_nil_r|].
  assert (map_insert k v m = m ++ [(k, v)]) as E.
  { simpl in N. apply NoDup_remove_2 in N. clear IH. induction m as [|[k' v'] m IHm]; simpl; [reflexivity|].
    destruct (str_eqb_spec k k') as [->|D]; [exfalso; apply N; left; reflexivity|].
    destruct (str_eqb_spec k' k) as [->|D']; [congruence|].
    rewrite IHm; [reflexivity|]. intros I. apply N. right. exact I. }
  rewrite E, IH, <- app_assoc; [reflexivity|]. rewrite map_app, <- app_assoc. exact N.
Qed.

Lemma decode_encode d b r : dump_ok d -> serialize d = Val b -> dec_dump (b ++ r) = Some (d, r).
Proof.
  intros [H1 H2 H3 H4] E. unfold serialize in E. apply obind_inv in E as (es & EE & E).
  assert (b = enc_u64 (d_version d) ++ enc_u64 (N.of_nat (List.length (d_accounts d))) ++ es) as -> by congruence. clear E.
  destruct (dec_entries_enc _ es r H4 EE) as [D L].
  unfold dec_dump, dec_list, dbind. rewrite <- !app_assoc, dec_u64_enc by exact H1.
  rewrite dec_len_enc; [|exact H2|rewrite app_length; lia]. rewrite D. unfold dret, map_of_list.
  rewrite fold_insert_fresh by exact H3. destruct d. reflexivity.
Qed.

(** C37 *)
Lemma codec_faithful d b : dump_ok d -> serialize d = Val b -> forall junk, deserialize (b ++ junk) = Some d.
Proof. intros H E junk. unfold deserialize. rewrite (decode_encode d b junk H E). reflexivity. Qed.

Lemma codec_injective d d' b : dump_ok d -> dump_ok d' -> serialize d = Val b -> serialize d' = Val b -> d = d'.
Proof.
  intros H H' E E'. pose proof (codec_faithful _ _ H E []) as A. pose proof (codec_faithful _ _ H' E' []) as B. congruence.
Qed.

(** * When serialising fails *)

Lemma enc_time_cases t : (exists b, enc_time t = Val b /\ (0 <= t)%Z) \/ (exists m, enc_time t = Err m /\ (t < 0)%Z).
Proof. unfold enc_time. destruct (Z.ltb_spec t 0); [right|left]; eauto. Qed.

Lemma enc_entries_cases l :
  ((exists b, enc_entries l = Val b) /\ forall n ad tok ob ex rt, In (n, (ad, DActive tok ob ex rt)) l -> (0 <= ob /\ 0 <= ex)%Z)
  \/ ((exists m, enc_entries l = Err m) /\ exists n ad tok ob ex rt, In (n, (ad, DActive tok ob ex rt)) l /\ (ob < 0 \/ ex < 0)%Z).
Proof.
  induction l as [|[n [ad ts]] l IH]; cbn [enc_entries].
  - left. split; [eauto|]. intros ? ? ? ? ? ? [].
  - destruct ts as [|tok ob ex rt]; cbn [enc_tokenstate_dump bind].
    + destruct IH as [((b & ->) & H)|((m & ->) & n' & ad' & tok' & ob' & ex' & rt' & I & H)]; cbn [bind].
      * left. split; [eauto|]. intros ? ? ? ? ? ? [X|I]; [discriminate|eauto].
      * right. split; [eauto|]. do 6 eexists. split; [right; exact I|exact H].
    + destruct (enc_time_cases ob) as [(bo & -> & PO)|(m & -> & PO)]; cbn [bind].
      2:{ right. split; [eauto|]. do 6 eexists. split; [left; reflexivity|auto]. }
      destruct (enc_time_cases ex) as [(be & -> & PE)|(m & -> & PE)]; cbn [bind].
      2:{ right. split; [eauto|]. do 6 eexists. split; [left; reflexivity|auto]. }
      destruct IH as [((b & ->) & H)|((m & ->) & n' & ad' & tok' & ob' & ex' & rt' & I & H)]; cbn [bind].
      * left. split; [eauto|]. intros ? ? ? ? ? ? [X|I]; [injection X as <- <- <- <- <- <-; auto|eauto].
      * right. split; [eauto|]. do 6 eexists. split; [right; exact I|exact H].
Qed.

Lemma serialize_fails d : (exists m, serialize d = Err m) <-> before_epoch d.
Proof.
  unfold serialize, before_epoch. destruct (enc_entries_cases (d_accounts d)) as [((b & ->) & H)|((m & ->) & H)]; cbn [bind].
  - split; [intros (m & E); discriminate|]. intros (n & ad & tok & ob & ex & rt & I & X). apply H in I. lia.
  - split; eauto.
Qed.

Lemma serialize_no_panic d : serialize d <> Panic.
Proof.
  unfold serialize. destruct (enc_entries_cases (d_accounts d)) as [((b & ->) & H)|((m & ->) & H)]; discriminate.
Qed.

(** * Decoding looks at nothing but what it consumes *)

Definition local {A} (d : decoder A) : Prop :=
  forall s x r, d s = Some (x, r) -> exists p, s = p ++ r /\ p <> [] /\ forall r', d (p ++ r') = Some (x, r').

Lemma local_bytes k : (0 < k)%nat -> local (dec_bytes k).
Proof.
  intros K s x r E. unfold dec_bytes in E. destruct (Nat.leb_spec k (List.length s)) as [L|L]; [|discriminate].
  injection E as <- <-. exists (firstn k s). split; [symmetry; apply firstn_skipn|].
  assert (List.length (firstn k s) = k) as LK by (apply firstn_length_le, L). split.
  - intros N. rewrite N in LK. simpl in LK. lia.
  - intros r'. pose proof (dec_bytes_app (firstn k s) r') as D. rewrite LK in D. exact D.
Qed.

Lemma local_bind {A B} (d : decoder A) (f : A -> decoder B) :
  local d -> (forall x s y r, f x s = Some (y, r) -> exists p, s = p ++ r /\ forall r', f x (p ++ r') = Some (y, r')) ->
  local (dbind d f).
Proof.
  intros LD LF s y r E. unfold dbind in E. destruct (d s) as [[x s1]|] eqn:D; [|discriminate].
  destruct (LD _ _ _ D) as (p & -> & NE & H). destruct (LF _ _ _ _ E) as (p' & -> & H').
  exists (p ++ p'). split; [apply app_assoc|]. split; [destruct p; [congruence|discriminate]|].
  intros r'. unfold dbind. rewrite <- app_assoc, H. apply H'.
Qed.

Lemma weak {A} (d : decoder A) : local d -> forall s y r, d s = Some (y, r) -> exists p, s = p ++ r /\ forall r', d (p ++ r') = Some (y, r').
Proof. intros L s y r E. destruct (L s y r E) as (p & H & _ & H'). eauto. Qed.

Lemma weak_ret {A} (x : A) s y r :
  dret x s = Some (y, r) -> exists p, s = p ++ r /\ forall r', dret x (p ++ r') = Some (y, r').
Proof. intros E. injection E as <- <-. exists []. split; [reflexivity|]. reflexivity. Qed.

Lemma local_u64 : local dec_u64.
Proof. apply local_bind; [apply local_bytes; lia|]. intros x s y r. apply weak_ret. Qed.
Lemma local_u32 : local dec_u32.
Proof. apply local_bind; [apply local_bytes; lia|]. intros x s y r. apply weak_ret. Qed.
Lemma local_u8 : local dec_u8.
Proof. apply local_bind; [apply local_bytes; lia|]. intros x s y r. apply weak_ret. Qed.

Lemma local_len {A} (f : nat -> decoder A) :
  (forall k s y r, f k s = Some (y, r) ->
     exists p, s = p ++ r /\ (k <= List.length p)%nat /\ forall r', f k (p ++ r') = Some (y, r')) ->
  local (dbind dec_len f).
Proof.
  intros H s y r E. unfold dbind, dec_len in E. destruct (dec_u64 s) as [[n s1]|] eqn:D; [|discriminate].
  destruct (N.leb_spec n (N.of_nat (List.length s1))) as [L|L]; [|discriminate].
  destruct (local_u64 _ _ _ D) as (p & -> & NE & HP). destruct (H _ _ _ _ E) as (p' & -> & LP & HP').
  exists (p ++ p'). split; [apply app_assoc|]. split; [destruct p; [congruence|discriminate]|].
  intros r'. unfold dbind, dec_len. rewrite <- app_assoc, HP.
  destruct (N.leb_spec n (N.of_nat (List.length (p' ++ r')))) as [L'|L']; [apply HP'|].
  rewrite app_length in L'. lia.
Qed.

Lemma local_str : local dec_str.
Proof.
  apply local_len. intros k s y r E. unfold dbind, dec_bytes in *.
  destruct (Nat.leb_spec k (List.length s)) as [L|L]; [|discriminate].
  destruct (utf8_valid (firstn k s)) eqn:U; [|discriminate]. injection E as <- <-.
  assert (List.length (firstn k s) = k) as LK by (apply firstn_length_le, L).
  exists (firstn k s). split; [symmetry; apply firstn_skipn|]. split; [rewrite LK; apply le_n|].
  intros r'. pose proof (dec_bytes_app (firstn k s) r') as D. rewrite LK in D. unfold dec_bytes in D.
  destruct (k <=? List.length (firstn k s ++ r'))%nat; [|discriminate]. injection D as -> ->. rewrite U. reflexivity.
Qed.

Lemma local_n {A} (d : decoder A) : local d -> forall k s y r, dec_n d k s = Some (y, r) ->
  exists p, s = p ++ r /\ (k <= List.length p)%nat /\ forall r', dec_n d k (p ++ r') = Some (y, r').
Proof.
  intros LD. induction k as [|k IH]; intros s y r E; cbn [dec_n] in E.
  - destruct (weak_ret _ _ _ _ E) as (p & H1 & H2). exists p. split; [exact H1|]. split; [lia|exact H2].
  - unfold dbind in E. destruct (d s) as [[x s1]|] eqn:D; [|discriminate].
    destruct (dec_n d k s1) as [[l s2]|] eqn:DN; [|discriminate]. injection E as <- <-.
    destruct (LD _ _ _ D) as (p & -> & NE & HP). destruct (IH _ _ _ DN) as (p' & -> & LP & HP').
    exists (p ++ p'). split; [apply app_assoc|]. split.
    + rewrite app_length. destruct p; [congruence|]. simpl. lia.
    + intros r'. cbn [dec_n]. unfold dbind. rewrite <- app_assoc, HP, HP'. reflexivity.
Qed.

Lemma local_list {A} (d : decoder A) : local d -> local (dec_list d).
Proof. intros L. apply local_len. intros k. apply local_n. exact L. Qed.

Lemma weak_bind {A B} (d : decoder A) (f : A -> decoder B) :
  local d -> (forall x s y r, f x s = Some (y, r) -> exists p, s = p ++ r /\ forall r', f x (p ++ r') = Some (y, r')) ->
  forall s y r, dbind d f s = Some (y, r) -> exists p, s = p ++ r /\ forall r', dbind d f (p ++ r') = Some (y, r').
Proof. intros L H. apply weak, local_bind; assumption. Qed.

Lemma local_opt {A} (d : decoder A) : local d -> local (dec_opt d).
Proof.
  intros L. apply local_bind; [apply local_u8|]. intros t s y r. destruct (t =? 0); [apply weak_ret|].
  destruct (t =? 1); [|discriminate]. apply weak_bind; [exact L|]. intros x. apply weak_ret.
Qed.

Lemma local_pair {A B} (d : decoder A) (e : decoder B) : local d -> local e -> local (dec_pair d e).
Proof.
  intros L L'. apply local_bind; [exact L|]. intros x. apply weak_bind; [exact L'|]. intros y. apply weak_ret.
Qed.

Lemma local_time : local dec_time.
Proof.
  apply local_bind; [apply local_u64|]. intros x. apply weak_bind; [apply local_u32|]. intros z s y r.
  cbv beta zeta. destruct (Z.of_N x * nanos + Z.of_N z <=? time_max)%Z; [|discriminate]. apply weak_ret.
Qed.

Create HintDb loc.
#[export] Hint Resolve local_u64 local_u32 local_str local_list local_opt local_pair local_time : loc.

Ltac locals := first [apply local_bind | apply weak_bind]; [solve [auto with loc]|intros ?].

Lemma local_account_dump : local dec_account_dump.
Proof. unfold dec_account_dump. repeat locals. apply weak_ret. Qed.

Lemma local_tokenstate_dump : local dec_tokenstate_dump.
Proof.
  apply local_bind; [apply local_u32|]. intros t s y r. destruct (t =? 0); [apply weak_ret|].
  destruct (t =? 1); [|discriminate]. revert s y r. repeat locals. apply weak_ret.
Qed.

Lemma local_entry : local dec_entry.
Proof.
  unfold dec_entry. locals. apply weak_bind; [apply local_account_dump|intros ?].
  apply weak_bind; [apply local_tokenstate_dump|intros ?]. apply weak_ret.
Qed.

Lemma local_dump : local dec_dump.
Proof.
  unfold dec_dump. locals. apply weak_bind; [apply local_list, local_entry|intros ?]. apply weak_ret.
Qed.

Lemma decode_prefix s d :
  deserialize s = Some d -> exists p junk, s = p ++ junk /\ forall junk', deserialize (p ++ junk') = Some d.
Proof.
  unfold deserialize. destruct (dec_dump s) as [[d' r]|] eqn:E; [|discriminate]. intros X. injection X as ->.
  destruct (local_dump _ _ _ E) as (p & -> & _ & H). exists p, r. split; [reflexivity|]. intros j. rewrite H. reflexivity.
Qed.
