(** What dumping and restoring come to: lemmas behind C33-C38. *)
From Verif Require Import Base BaseLemmas Time Utf8 Url Oracles Config Dump State StateLemmas Http Timers Server
  SpecServer SpecDump Codec Steps Inv Reach Trace Decide SpecRestore.

(** * Restoring, entry by entry *)

Definition brought (c : config) (d : dump) (r1 r2 : reads) (e : entry) : option tokenstate :=
  match lookup (d_name e) (c_accounts c), lookup (d_name e) (d_accounts d) with
  | Some a, Some (ad, DActive tok ob ex rt) =>
      if secure_restorable a ad && negb (is_active (d_ts e))
      then Some (TSActive (mkActive tok (restore_instant r1 ob) (restore_instant r2 ex) rt false 0 None))
      else None
  | _, _ => None
  end.

Lemma candidates_exact c d clk : forall ds i rs,
  restore_candidates c d clk i ds = Val rs -> NoDup (map d_name ds) ->
  forall k e, nth_error ds k = Some e ->
    lookup (d_name e) rs = brought c d (clk (2 * (i + k))%nat) (clk (2 * (i + k) + 1)%nat) e.
Proof.
  induction ds as [|e0 ds IH]; intros i rs E ND k e N; [destruct k; discriminate|].
  cbn [restore_candidates] in E.
  destruct (lookup (d_name e0) (c_accounts c)) as [a|] eqn:La; cbn [unwrap bind] in E; [|discriminate].
  destruct (restore_candidates c d clk (S i) ds) as [l| |] eqn:R; cbn [bind] in E; try discriminate.
  inversion ND as [|? ? N1 N2]; subst.
  destruct (restore_candidates_spec _ _ _ _ _ _ R) as (INC & _ & _).
  assert (lookup (d_name e0) l = None) as LN.
  { apply lookup_none_iff. intros I. apply N1. apply INC. exact I. }
  assert (rs = match brought c d (clk (2 * i)%nat) (clk (2 * i + 1)%nat) e0 with
               | Some ts => (d_name e0, ts) :: l | None => l end) as ->.
  { unfold brought. rewrite La.
    destruct (lookup (d_name e0) (d_accounts d)) as [[ad td]|] eqn:Ld; [|congruence].
    destruct td as [|tok ob ex rt].
    - destruct (secure_restorable a ad); [|congruence]. cbn [tokenstate_restore] in E.
      destruct (d_ts e0); congruence.
    - destruct (secure_restorable a ad); [|simpl; congruence]. cbn [tokenstate_restore] in E.
      destruct (d_ts e0); cbn [is_active negb andb]; congruence. }
  destruct k as [|k]; simpl in N.
  - injection N as <-. rewrite Nat.add_0_r.
    destruct (brought c d (clk (2 * i)%nat) (clk (2 * i + 1)%nat) e0) as [ts|]; [|exact LN].
    simpl. rewrite str_eqb_refl. reflexivity.
  - replace (i + S k)%nat with (S i + k)%nat by lia. rewrite <- (IH (S i) l R N2 k e N).
    destruct (brought c d (clk (2 * i)%nat) (clk (2 * i + 1)%nat) e0) as [ts|]; [|reflexivity].
    simpl. destruct (str_eqb_spec (d_name e) (d_name e0)) as [X|X]; [|reflexivity].
    exfalso. apply N1. rewrite <- X. apply in_map. apply nth_error_In in N. exact N.
Qed.

Lemma Forall2_nth {A B} (P : A -> B -> Prop) l l' k a :
  Forall2 P l l' -> nth_error l k = Some a -> exists b, nth_error l' k = Some b /\ P a b.
Proof.
  intros F. revert k. induction F as [|x y l l' H F IH]; intros k N; [destruct k; discriminate|].
  destruct k as [|k]; simpl in *; [injection N as <-; eauto|apply IH; exact N].
Qed.

Lemma restore_exact lk bytes clk h d :
  wf lk -> deserialize bytes = Some d -> d_version d = dump_version ->
  exists lk',
    locked_restore lk bytes clk h = Val lk' /\ wf lk' /\ lconfig lk' = lconfig lk
    /\ names lk' = names lk
    /\ forall k e, nth_error (details lk) k = Some e ->
       exists e', nth_error (details lk') k = Some e' /\ d_name e' = d_name e
         /\ match brought (lconfig lk) d (clk (2 * k)%nat) (clk (2 * k + 1)%nat) e with
            | Some ts => d_ts e' = ts
            | None => e' = e
            end.
Proof.
  intros W D V.
  destruct (locked_restore_spec lk bytes clk h W) as [(m & E)|(d' & lk' & E & D' & V' & W' & _ & C & _)].
  - exfalso. unfold locked_restore in E. rewrite D in E. cbn [ok_or bind] in E. rewrite V in E.
    change (negb (dump_version =? dump_version)%N) with false in E. cbv iota in E.
    destruct (restore_candidates_total (lconfig lk) d clk 0 (details lk)) as [rs R].
    { intros e I. destruct (wf_account _ _ W I) as (a & A & _). eauto. }
    rewrite R in E. cbn [bind] in E.
    destruct (restore_candidates_spec _ _ _ _ _ _ R) as (INC & ND & _).
    pose proof (wf_names_nodup _ W) as NN. specialize (ND NN).
    destruct (restore_apply_spec (hsort (fun p => h (fst p)) rs) (details lk) (account_count lk))
      as (ds' & c' & X & _).
    + eapply Permutation_NoDup; [|exact ND]. symmetry. apply hsort_keys_perm.
    + intros x Hx. apply INC. eapply Permutation_in; [apply hsort_keys_perm|exact Hx].
    + exact NN.
    + apply (wf_ids _ W).
    + apply (wf_count _ W).
    + rewrite X in E. discriminate E.
  - assert (d' = d) by congruence. subst d'.
    exists lk'. split; [exact E|]. split; [exact W'|]. split; [exact C|].
    split; [rewrite (wf_names _ W'), (wf_names _ W), C; reflexivity|].
    unfold locked_restore in E. rewrite D in E. cbn [ok_or bind] in E. rewrite V in E.
    change (negb (dump_version =? dump_version)%N) with false in E. cbv iota in E.
    destruct (restore_candidates (lconfig lk) d clk 0 (details lk)) as [rs| |] eqn:R; cbn [bind] in E; try discriminate.
    destruct (restore_candidates_spec _ _ _ _ _ _ R) as (INC & ND & _).
    pose proof (wf_names_nodup _ W) as NN. specialize (ND NN).
    destruct (restore_apply_spec (hsort (fun p => h (fst p)) rs) (details lk) (account_count lk))
      as (ds' & c' & X & _ & _ & _ & F2).
    + eapply Permutation_NoDup; [|exact ND]. symmetry. apply hsort_keys_perm.
    + intros x Hx. apply INC. eapply Permutation_in; [apply hsort_keys_perm|exact Hx].
    + exact NN.
    + apply (wf_ids _ W).
    + apply (wf_count _ W).
    + rewrite X in E. cbn [bind] in E.
      assert (lk' = mkLocked c' (lconfig lk) ds') as -> by congruence. cbn [details].
      intros k e N. destruct (Forall2_nth _ _ _ _ _ F2 N) as (e' & N' & P & Q).
      exists e'. split; [exact N'|]. split; [exact P|].
      rewrite hsort_lookup in Q by exact ND.
      rewrite (candidates_exact _ _ _ _ _ _ R NN k e N) in Q. cbn [Nat.add] in Q.
      destruct (brought (lconfig lk) d (clk (2 * k)%nat) (clk (2 * k + 1)%nat) e); [apply Q|exact Q].
Qed.

(** Restoring the same dump again changes nothing. *)
Lemma restore_apply_nil ds n : restore_apply [] ds n = Val (ds, n).
Proof. reflexivity. Qed.

Lemma restore_again lk bytes clk h lk' clk' h' :
  wf lk -> locked_restore lk bytes clk h = Val lk' -> locked_restore lk' bytes clk' h' = Val lk'.
Proof.
  intros W E.
  destruct (locked_restore_spec lk bytes clk h W) as [(m & E')|(d & lk2 & E' & D & V & W' & _ & C & _)];
    [congruence|]. assert (lk2 = lk') by congruence. subst lk2.
  destruct (restore_exact lk bytes clk h d W D V) as (lk2 & E2 & _ & _ & _ & S1).
  assert (lk2 = lk') by congruence. subst lk2.
  unfold locked_restore. rewrite D. cbn [ok_or bind]. rewrite V.
  change (negb (dump_version =? dump_version)%N) with false. cbv iota.
  destruct (restore_candidates_total (lconfig lk') d clk' 0 (details lk')) as [rs R].
  { intros e I. destruct (wf_account _ _ W' I) as (a & A & _). eauto. }
  rewrite R. cbn [bind].
  destruct (restore_candidates_spec _ _ _ _ _ _ R) as (INC & ND & SP).
  pose proof (wf_names_nodup _ W') as NN. specialize (ND NN).
  assert (rs = []) as ->.
  { destruct rs as [|[n ts] rs]; [reflexivity|]. exfalso.
    destruct (SP n ts (or_introl eq_refl)) as (e' & I' & <- & RS).
    apply In_nth_error in I' as [k N'].
    assert (lookup (d_name e') ((d_name e', ts) :: rs) = Some ts) as L by (simpl; rewrite str_eqb_refl; reflexivity).
    rewrite (candidates_exact _ _ _ _ _ _ R NN k e' N') in L. cbn [Nat.add] in L.
    destruct (nth_error (details lk) k) as [e|] eqn:N.
    2:{ apply nth_error_None in N. assert (List.length (details lk') = List.length (details lk)) as LL.
        { pose proof (wf_names _ W') as A1. pose proof (wf_names _ W) as A2. rewrite C in A1.
          unfold names in A1, A2. rewrite <- (map_length d_name), A1, <- A2, map_length. reflexivity. }
        assert (nth_error (details lk') k = None) by (apply nth_error_None; lia). congruence. }
    destruct (S1 k e N) as (e2 & N2 & P & Q). assert (e2 = e') by congruence. subst e2.
    destruct RS as (IA & _).
    unfold brought in L, Q. rewrite C, P in L.
    destruct (lookup (d_name e) (c_accounts (lconfig lk))) as [a|] eqn:La; [|discriminate L].
    destruct (lookup (d_name e) (d_accounts d)) as [[ad [|tok ob ex rt]]|] eqn:Ld; try discriminate L.
    destruct (secure_restorable a ad) eqn:SR; [|discriminate L].
    destruct (is_active (d_ts e)) eqn:IE; cbn [negb andb] in Q.
    - subst e'. congruence.
    - rewrite Q in IA. discriminate IA. }
  simpl. destruct lk'; reflexivity.
Qed.

(** * Requests *)

Lemma asked_restore O w e bytes :
  reachable O w -> asked w e ($"restore:" ++ bytes) ->
  (exists m, auth_restore O (w_lk w) bytes (e_clk e) (e_hash e) = Err m
             /\ just_answers O w e ($"restore:" ++ bytes) ($"error:" ++ m))
  \/ exists lk', auth_restore O (w_lk w) bytes (e_clk e) (e_hash e) = Val lk'
             /\ restores_to O w e ($"restore:" ++ bytes) lk'.
Proof.
  intros R (A & N & C).
  pose proof (request_restore O e w bytes) as Q. unfold req_restore in Q.
  destruct (auth_restore O (w_lk w) bytes (e_clk e) (e_hash e)) as [lk'|m|] eqn:E.
  - right. exists lk'. split; [reflexivity|].
    apply (main_val O w e _ _ _ _ R A N C) in Q. exact Q.
  - left. exists m. split; [reflexivity|].
    apply (main_val O w e _ _ _ _ R A N C) in Q. rewrite set_lk_same in Q. exact Q.
  - exfalso. unfold auth_restore in E. destruct (List.length bytes <? nonce_len)%nat; [discriminate E|].
    destruct (o_decrypt O (firstn nonce_len bytes) (skipn nonce_len bytes)) as [p|]; [|discriminate E].
    destruct (locked_restore_spec (w_lk w) p (e_clk e) (e_hash e) (inv_wf _ _ (reach_inv _ _ R)))
      as [(m & X)|(d & lk' & X & _)]; rewrite X in E; discriminate E.
Qed.

(** ** Dumping *)

Lemma request_dump O e w :
  request O e w $"dump:" = (d <- auth_dump O (w_lk w) (e_clk e) (e_hash e) (e_nonce e) ;;
                            Val (w_lk w, reply $"dump:" d, [])).
Proof. reflexivity. Qed.

Lemma asked_dump O w e txt :
  reachable O w -> asked w e $"dump:" ->
  just_answers O w e $"dump:" txt <-> auth_dump O (w_lk w) (e_clk e) (e_hash e) (e_nonce e) = Val txt.
Proof.
  intros R (A & N & C). pose proof (request_dump O e w) as Q.
  destruct (auth_dump O (w_lk w) (e_clk e) (e_hash e) (e_nonce e)) as [d|m|] eqn:E; cbn [bind] in Q.
  - apply (main_val O w e _ _ _ _ R A N C) in Q. rewrite set_lk_same in Q. unfold just_answers. rewrite Q.
    split; [|intros X; assert (txt = d) as -> by congruence; reflexivity].
    intros X. injection X as X.
    assert (nth_error (list_set 0 (reply $"dump:" d) (w_threads w)) 0
            = nth_error (list_set 0 (reply $"dump:" txt) (w_threads w)) 0) as Y by (f_equal; exact X).
    assert (0 < List.length (w_threads w))%nat as LL by (apply nth_error_Some; rewrite N; discriminate).
    rewrite !nth_error_list_set_eq in Y by exact LL. injection Y as ->. reflexivity.
  - apply (main_err O w e _ _ R A N C) in Q. unfold just_answers. rewrite Q.
    split; [|discriminate]. intros X. injection X as X. exfalso.
    assert (nth_error (w_threads w) 0 = nth_error (list_set 0 (reply $"dump:" txt) (w_threads w)) 0) as Y
      by (f_equal; exact X).
    assert (0 < List.length (w_threads w))%nat as LL by (apply nth_error_Some; rewrite N; discriminate).
    rewrite nth_error_list_set_eq in Y by exact LL. rewrite N in Y. discriminate Y.
  - exfalso. revert E. apply auth_dump_no_panic. apply (reach_inv _ _ R).
Qed.

Lemma dump_entries_spec c clk : forall ds i l,
  dump_entries c clk i ds = Val l ->
  map fst l = map d_name ds
  /\ forall k e, nth_error ds k = Some e ->
     exists act, lookup (d_name e) (c_accounts c) = Some act
       /\ nth_error l k = Some (d_name e, (account_dump_of act,
            tokenstate_dump_of (clk (2 * (i + k))%nat) (clk (2 * (i + k) + 1)%nat) (d_ts e))).
Proof.
  induction ds as [|e0 ds IH]; intros i l E; cbn [dump_entries] in E.
  - injection E as <-. split; [reflexivity|]. intros k e N. destruct k; discriminate N.
  - destruct (lookup (d_name e0) (c_accounts c)) as [a|] eqn:La; cbn [unwrap bind] in E; [|discriminate].
    destruct (dump_entries c clk (S i) ds) as [l'| |] eqn:D; cbn [bind] in E; try discriminate.
    assert (l = (d_name e0, (account_dump_of a,
              tokenstate_dump_of (clk (2 * i)%nat) (clk (2 * i + 1)%nat) (d_ts e0))) :: l') as -> by congruence.
    destruct (IH (S i) l' D) as (M & K). split; [cbn [map fst]; f_equal; exact M|].
    intros k e N. destruct k as [|k]; cbn [nth_error] in *.
    + injection N as <-. rewrite Nat.add_0_r. exists a. auto.
    + replace (i + S k)%nat with (S i + k)%nat by lia. apply K. exact N.
Qed.

Lemma dump_instant_max r i : (rs1 r <= time_max -> rs2 r <= time_max -> dump_instant r i <= time_max)%Z.
Proof.
  intros A B. unfold dump_instant, duration_since, checked_add, checked_sub.
  destruct (ri1 r <=? i)%Z eqn:E1.
  - destruct (rs1 r + (i - ri1 r) <=? time_max)%Z eqn:E2; simpl; [apply Z.leb_le; exact E2|exact B].
  - destruct (i <=? ri2 r)%Z eqn:E2; simpl; [|exact B].
    apply Z.leb_le in E2. destruct (time_min <=? rs1 r - (ri2 r - i))%Z; simpl; lia.
Qed.

(** What a server's dump holds. *)
Record dumped (w : world) (e : env) (d : dump) : Prop := {
  dd_version : d_version d = dump_version;
  dd_names : forall n x, lookup n (d_accounts d) = Some x -> exists ts, holds w n ts;
  dd_entry : forall n ts, holds w n ts -> exists act k,
    configured w n act
    /\ lookup n (d_accounts d)
       = Some (account_dump_of act, tokenstate_dump_of (e_clk e (2 * k)%nat) (e_clk e (2 * k + 1)%nat) ts);
}.

Lemma holds_nth w n ts : holds w n ts -> exists k e0, nth_error (details (w_lk w)) k = Some e0 /\ d_name e0 = n /\ d_ts e0 = ts.
Proof. intros (e0 & I & A & B). apply In_nth_error in I as [k N]. exists k, e0. auto. Qed.

Lemma dump_carries_list O w e txt :
  cipher_law O -> List.length (e_nonce e) = 12%nat -> texts w -> wall_ok e ->
  reachable O w -> asked w e $"dump:" -> just_answers O w e $"dump:" txt ->
  exists d, (carries O txt d /\ dumped w e d)
    /\ exists l, dump_entries (lconfig (w_lk w)) (e_clk e) 0 (details (w_lk w)) = Val l
                 /\ d = mkDump dump_version (hsort (fun p => e_hash e (fst p)) l).
Proof.
  intros CL NL TX WO R AS J. apply (asked_dump O w e txt R AS) in J.
  pose proof (inv_wf _ _ (reach_inv _ _ R)) as W.
  unfold auth_dump in J. apply bind_val in J as (p & LD & J). apply bind_val in J as (c & EN & J).
  assert (txt = e_nonce e ++ c) as -> by congruence.
  destruct (o_encrypt O (e_nonce e) p) as [c'|] eqn:EN'; cbn [ok_or] in EN; [|discriminate].
  assert (c' = c) by congruence. subst c'.
  unfold locked_dump in LD. apply bind_val in LD as (l & DE & SE).
  destruct (dump_entries_spec _ _ _ _ _ DE) as (M & K).
  set (d := mkDump dump_version (hsort (fun p => e_hash e (fst p)) l)) in *.
  assert (NoDup (keys l)) as NK.
  { unfold keys. rewrite M. apply (wf_names_nodup _ W). }
  assert (forall n x, In (n, x) l -> exists k e0 act,
     nth_error (details (w_lk w)) k = Some e0 /\ d_name e0 = n /\ configured w n act
     /\ x = (account_dump_of act, tokenstate_dump_of (e_clk e (2 * k)%nat) (e_clk e (2 * k + 1)%nat) (d_ts e0))) as INL.
  { intros n x I. apply In_nth_error in I as [k N].
    destruct (nth_error (details (w_lk w)) k) as [e0|] eqn:N0.
    - destruct (K k e0 N0) as (act & A & N1). cbn [Nat.add] in N1. rewrite N in N1.
      exists k, e0, act. assert (n = d_name e0) as -> by congruence.
      split; [exact N0|]. split; [reflexivity|]. split; [exact A|]. congruence.
    - exfalso. apply nth_error_None in N0.
      assert (List.length l = List.length (details (w_lk w))) as LL
        by (rewrite <- (map_length fst l), M, map_length; reflexivity).
      assert (nth_error l k = None) by (apply nth_error_None; lia). congruence. }
  assert (dump_ok d) as OK.
  { constructor.
    - vm_compute. reflexivity.
    - unfold few, d. cbn [d_accounts]. rewrite (Permutation_length (hsort_perm _ l)).
      rewrite <- (map_length fst l), M, map_length. apply (tx_few _ TX).
    - unfold d. cbn [d_accounts]. eapply Permutation_NoDup; [|exact NK]. symmetry. apply hsort_keys_perm.
    - unfold d. cbn [d_accounts]. apply Forall_forall. intros [n x] I. apply hsort_in in I.
      destruct (INL n x I) as (k & e0 & act & N0 & NM & CF & ->). cbn [fst snd].
      assert (holds w n (d_ts e0)) as HO by (exists e0; split; [apply nth_error_In in N0; exact N0|auto]).
      split; [apply (tx_names _ TX n _ HO)|]. split; [exact (tx_accounts _ TX n act CF)|].
      destruct (d_ts e0) as [| |a] eqn:TS; cbn [tokenstate_dump_of text_token]; [exact Logic.I|exact Logic.I|].
      destruct (tx_tokens _ TX n a HO) as (T1 & T2).
      split; [exact T1|]. split; [apply dump_instant_max; apply WO|].
      split; [apply dump_instant_max; apply WO|exact T2]. }
  exists d. split; [|exists l; split; [exact DE|reflexivity]]. split.
  - split; [rewrite app_length, NL; lia|].
    exists p. rewrite firstn_exact, skipn_exact by (symmetry; exact NL).
    split; [apply CL; exact EN'|]. split; [|reflexivity].
    pose proof (codec_faithful d p OK SE []) as X. rewrite app_nil_r in X. exact X.
  - constructor; [reflexivity| |].
    + intros n x L. apply lookup_in in L. apply hsort_in in L.
      destruct (INL n x L) as (k & e0 & act & N0 & NM & _). exists (d_ts e0), e0.
      split; [apply nth_error_In in N0; exact N0|auto].
    + intros n ts HO. destruct (holds_nth w n ts HO) as (k & e0 & N0 & <- & <-).
      destruct (K k e0 N0) as (act & A & N1). cbn [Nat.add] in N1. exists act, k. split; [exact A|].
      unfold d. cbn [d_accounts]. rewrite hsort_lookup by exact NK. apply in_lookup; [exact NK|].
      apply nth_error_In in N1. exact N1.
Qed.

Lemma dump_carries O w e txt :
  cipher_law O -> List.length (e_nonce e) = 12%nat -> texts w -> wall_ok e ->
  reachable O w -> asked w e $"dump:" -> just_answers O w e $"dump:" txt ->
  exists d, carries O txt d /\ dumped w e d.
Proof.
  intros CL NL TX WO R AS J. destruct (dump_carries_list O w e txt CL NL TX WO R AS J) as (d & H & _). exists d. exact H.
Qed.

(** ** Restoring *)

Lemma restorable_agrees a ad : secure_restorable a ad = true <-> agrees ad a.
Proof.
  rewrite secure_restorable_fields. unfold agrees.
  split; intros (A & B & C & D & E & F & G); repeat split; congruence.
Qed.

Definition installs (w : world) (e : env) (d : dump) (lk' : locked) : Prop :=
  lconfig lk' = lconfig (w_lk w)
  /\ (forall n ts act ad tok ob ex rt,
        holds w n ts -> ~ has_token w n -> configured w n act ->
        lookup n (d_accounts d) = Some (ad, DActive tok ob ex rt) -> agrees ad act ->
        exists k, holds (set_lk w lk') n
          (TSActive (mkActive tok (restore_instant (e_clk e (2 * k)%nat) ob)
                       (restore_instant (e_clk e (2 * k + 1)%nat) ex) rt false 0 None)))
  /\ (forall e0, In e0 (details (w_lk w)) ->
        has_token w (d_name e0)
        \/ (forall act ad tok ob ex rt, configured w (d_name e0) act ->
              lookup (d_name e0) (d_accounts d) = Some (ad, DActive tok ob ex rt) -> ~ agrees ad act) ->
        In e0 (details lk'))
  /\ names lk' = names (w_lk w) /\ wf lk'.

Lemma active_has_token w e0 : In e0 (details (w_lk w)) -> is_active (d_ts e0) = true -> has_token w (d_name e0).
Proof.
  intros I A. destruct (d_ts e0) as [| |a] eqn:TS; try discriminate A. exists a, e0. auto.
Qed.

Lemma restore_effect O w e bytes d :
  reachable O w -> asked w e ($"restore:" ++ bytes) -> carries O bytes d ->
  exists lk', restores_to O w e ($"restore:" ++ bytes) lk' /\ installs w e d lk'.
Proof.
  intros R AS (LN & p & DC & DS & V). pose proof (inv_wf _ _ (reach_inv _ _ R)) as W.
  destruct (restore_exact (w_lk w) p (e_clk e) (e_hash e) d W DS V) as (lk' & E & W' & CF & NM & K).
  assert (auth_restore O (w_lk w) bytes (e_clk e) (e_hash e) = Val lk') as AR.
  { unfold auth_restore. change nonce_len with 12%nat.
    destruct (Nat.ltb_spec (List.length bytes) 12) as [X|X]; [lia|]. rewrite DC, E. reflexivity. }
  destruct (asked_restore O w e bytes R AS) as [(m & X & _)|(lk2 & X & RT)]; [congruence|].
  assert (lk2 = lk') by congruence. subst lk2. exists lk'. split; [exact RT|].
  split; [exact CF|]. split; [|split; [|split; [exact NM|exact W']]].
  - intros n ts act ad tok ob ex rt HO NT C L AG. destruct (holds_nth w n ts HO) as (k & e0 & N0 & <- & <-).
    destruct (K k e0 N0) as (e' & N' & NE & Q). unfold brought in Q. unfold configured in C. rewrite C, L in Q.
    rewrite (proj2 (restorable_agrees act ad) AG) in Q.
    destruct (is_active (d_ts e0)) eqn:IA.
    { exfalso. apply NT. apply active_has_token; [apply nth_error_In in N0; exact N0|exact IA]. }
    cbn [negb andb] in Q. exists k, e'. split; [apply nth_error_In in N'; exact N'|]. split; [exact NE|exact Q].
  - intros e0 I H. destruct (In_nth_error _ _ I) as [k N0]. destruct (K k e0 N0) as (e' & N' & NE & Q).
    assert (brought (lconfig (w_lk w)) d (e_clk e (2 * k)%nat) (e_clk e (2 * k + 1)%nat) e0 = None) as BN.
    { unfold brought.
      destruct (lookup (d_name e0) (c_accounts (lconfig (w_lk w)))) as [act|] eqn:C; [|reflexivity].
      destruct (lookup (d_name e0) (d_accounts d)) as [[ad [|tok ob ex rt]]|] eqn:L; try reflexivity.
      destruct (secure_restorable act ad) eqn:SR; [|reflexivity].
      destruct H as [(a & e1 & I1 & N1 & T1)|H].
      - assert (e1 = e0) by (apply (wf_name_inj _ _ _ W I1 I N1)). subst e1. rewrite T1. reflexivity.
      - exfalso. apply restorable_agrees in SR. exact (H act ad tok ob ex rt C eq_refl SR). }
    rewrite BN in Q. subst e'. apply nth_error_In in N'. exact N'.
Qed.

Lemma same_security_agrees a b : same_security a b -> agrees (account_dump_of a) b.
Proof. intros (A & B & C & D & E & F & G & H). repeat split; assumption. Qed.

Lemma agrees_same_security a b : a_name a = a_name b -> agrees (account_dump_of a) b -> same_security a b.
Proof. intros N (B & C & D & E & F & G & H). repeat split; assumption. Qed.

(** C33 *)
Lemma dump_then_restore O w1 e1 txt w2 e2 :
  cipher_law O -> List.length (e_nonce e1) = 12%nat -> texts w1 -> wall_ok e1 ->
  reachable O w1 -> asked w1 e1 $"dump:" -> just_answers O w1 e1 $"dump:" txt ->
  reachable O w2 -> asked w2 e2 ($"restore:" ++ txt) ->
  exists lk',
    restores_to O w2 e2 ($"restore:" ++ txt) lk'
    /\ lconfig lk' = lconfig (w_lk w2)
    /\ (forall n a act1 act2,
          holds w1 n (TSActive a) -> configured w1 n act1 -> configured w2 n act2 -> same_security act1 act2 ->
          ~ has_token w2 n -> exists b, holds (set_lk w2 lk') n (TSActive b) /\ same_token a b)
    /\ (forall e0, In e0 (details (w_lk w2)) ->
          has_token w2 (d_name e0) \/ ~ has_token w1 (d_name e0)
          \/ (forall act1 act2, configured w1 (d_name e0) act1 -> configured w2 (d_name e0) act2 -> ~ same_security act1 act2) ->
          In e0 (details lk')).
Proof.
  intros CL NL TX WO R1 A1 J R2 A2.
  destruct (dump_carries O w1 e1 txt CL NL TX WO R1 A1 J) as (d & CA & DD).
  destruct (restore_effect O w2 e2 txt d R2 A2 CA) as (lk' & RT & CF & IN & UN & NM & W').
  pose proof (inv_wf _ _ (reach_inv _ _ R1)) as W1. pose proof (inv_wf _ _ (reach_inv _ _ R2)) as W2.
  exists lk'. split; [exact RT|]. split; [exact CF|]. split.
  - intros n a act1 act2 HO C1 C2 SS NT. destruct (dd_entry _ _ _ DD n _ HO) as (act & k & CF1 & L).
    assert (act = act1) by (unfold configured in *; congruence). subst act. cbn [tokenstate_dump_of] in L.
    assert (exists ts, holds w2 n ts) as (ts & HO2).
    { assert (In n (names (w_lk w2))) as I by (rewrite (wf_names _ W2); apply lookup_in_keys in C2; exact C2).
      apply in_map_iff in I as (e0 & NE & I). exists (d_ts e0), e0. auto. }
    destruct (IN n ts act2 _ _ _ _ _ HO2 NT C2 L (same_security_agrees _ _ SS)) as (k' & H').
    eexists. split; [exact H'|]. repeat split.
  - intros e0 I H. apply UN; [exact I|]. destruct H as [H|H]; [left; exact H|right].
    intros act2 ad tok ob ex rt C2 L AG. destruct (dd_names _ _ _ DD _ _ L) as (ts & HO).
    destruct (dd_entry _ _ _ DD _ _ HO) as (act1 & k & C1 & L').
    assert ((account_dump_of act1, tokenstate_dump_of (e_clk e1 (2 * k)%nat) (e_clk e1 (2 * k + 1)%nat) ts)
            = (ad, DActive tok ob ex rt)) as E by congruence.
    assert (account_dump_of act1 = ad) as <- by congruence.
    destruct ts as [| |a]; cbn [tokenstate_dump_of] in E; try discriminate E.
    destruct H as [H|H]; [apply H; exists a; exact HO|].
    apply (H act1 act2 C1 C2). apply agrees_same_security; [|exact AG].
    destruct (wf_config _ W1) as (_ & F1 & _). destruct (wf_config _ W2) as (_ & F2 & _).
    rewrite Forall_forall in F1, F2.
    pose proof (F1 _ (lookup_in _ _ _ C1)) as X1. pose proof (F2 _ (lookup_in _ _ _ C2)) as X2.
    cbn [fst snd] in X1, X2. congruence.
Qed.

(** C34 *)
Lemma restore_upgrades O w e bytes :
  reachable O w -> asked w e ($"restore:" ++ bytes) ->
  (exists m, just_answers O w e ($"restore:" ++ bytes) ($"error:" ++ m))
  \/ exists lk',
    restores_to O w e ($"restore:" ++ bytes) lk'
    /\ lconfig lk' = lconfig (w_lk w)
    /\ map d_name (details lk') = map d_name (details (w_lk w))
    /\ forall e0, In e0 (details (w_lk w)) ->
       In e0 (details lk')
       \/ ~ has_token w (d_name e0)
          /\ exists d act b i,
               carries O bytes d /\ configured w (d_name e0) act /\ offers d (d_name e0) act b
               /\ ongoing b = false
               /\ In (mkEntry (d_name e0) i (TSActive b)) (details lk').
Proof.
  intros R AS. pose proof (inv_wf _ _ (reach_inv _ _ R)) as W.
  destruct (asked_restore O w e bytes R AS) as [(m & _ & J)|(lk' & AR & RT)]; [left; exists m; exact J|right].
  unfold auth_restore in AR. change nonce_len with 12%nat in AR.
  destruct (Nat.ltb_spec (List.length bytes) 12) as [LN|LN]; [discriminate AR|].
  destruct (o_decrypt O (firstn 12 bytes) (skipn 12 bytes)) as [p|] eqn:DC; [|discriminate AR].
  assert (lk' = w_lk w \/ exists d, deserialize p = Some d /\ d_version d = dump_version) as [->|(d & DS & V)].
  { destruct (locked_restore_spec (w_lk w) p (e_clk e) (e_hash e) W) as [(m & X)|(d & lk2 & X & D & V & _)];
      [rewrite X in AR; left; congruence|right; exists d; auto]. }
  - exists (w_lk w). split; [exact RT|]. split; [reflexivity|]. split; [reflexivity|]. intros e0 I. left. exact I.
  - assert (carries O bytes d) as CA by (split; [exact LN|exists p; auto]).
    destruct (restore_effect O w e bytes d R AS CA) as (lk2 & RT2 & CF & IN & UN & NM & W').
    exists lk2. split; [exact RT2|]. split; [exact CF|]. split; [exact NM|].
    intros e0 I.
    destruct (wf_account _ _ W I) as (act & C & NA).
    destruct (is_active (d_ts e0)) eqn:IA.
    { left. apply UN; [exact I|]. left. apply active_has_token; assumption. }
    assert (~ has_token w (d_name e0)) as NT.
    { intros (a & e1 & I1 & N1 & T1). assert (e1 = e0) by (apply (wf_name_inj _ _ _ W I1 I N1)). subst e1.
      rewrite T1 in IA. discriminate IA. }
    destruct (lookup (d_name e0) (d_accounts d)) as [[ad [|tok ob ex rt]]|] eqn:L.
    1,3: left; apply UN; [exact I|]; right; intros; congruence.
    destruct (secure_restorable act ad) eqn:SR.
    + right. split; [exact NT|]. apply restorable_agrees in SR.
      destruct (IN (d_name e0) (d_ts e0) act ad tok ob ex rt) as (k & e' & I' & N' & T'); try assumption.
      { exists e0. auto. }
      eexists d, act, _, (d_id e'). split; [exact CA|]. split; [exact C|].
      split; [|split; [|rewrite <- T', <- N'; destruct e'; exact I']].
      * exists ad, ob, ex. split; [exact L|exact SR].
      * reflexivity.
    + left. apply UN; [exact I|]. right. intros act2 ad2 tok2 ob2 ex2 rt2 C2 L2 AG2.
      assert (act2 = act) by (unfold configured in *; congruence).
      assert (ad2 = ad) by congruence. subst. apply restorable_agrees in AG2. congruence.
Qed.

Lemma restore_idempotent O w e bytes lk' w3 e3 :
  reachable O w -> asked w e ($"restore:" ++ bytes) -> restores_to O w e ($"restore:" ++ bytes) lk' ->
  reachable O w3 -> asked w3 e3 ($"restore:" ++ bytes) -> w_lk w3 = lk' ->
  restores_to O w3 e3 ($"restore:" ++ bytes) lk'.
Proof.
  intros R AS RT R3 AS3 LK. pose proof (inv_wf _ _ (reach_inv _ _ R)) as W.
  assert (auth_restore O (w_lk w) bytes (e_clk e) (e_hash e) = Val lk') as AR.
  { destruct (asked_restore O w e bytes R AS) as [(m & X & J)|(lk2 & X & RT2)].
    - exfalso. unfold just_answers in J. unfold restores_to in RT. rewrite RT in J.
      destruct AS as (_ & N & _).
      assert (0 < List.length (w_threads w))%nat as LL by (apply nth_error_Some; rewrite N; discriminate).
      apply (f_equal (fun s => match s with SNext w' => nth_error (w_threads w') 0 | _ => None end)) in J.
      cbv beta iota in J. unfold emit, set_thread, set_lk in J. cbn [w_threads] in J.
      rewrite !nth_error_list_set_eq in J by exact LL. discriminate J.
    - unfold restores_to in RT, RT2. rewrite RT in RT2.
      apply (f_equal (fun s => match s with SNext w' => w_lk w' | _ => w_lk w end)) in RT2.
      cbv beta iota in RT2. unfold emit, set_thread, set_lk in RT2. cbn [w_lk] in RT2. rewrite X. congruence. }
  assert (auth_restore O (w_lk w3) bytes (e_clk e3) (e_hash e3) = Val lk') as AR3.
  { rewrite LK. unfold auth_restore in *. change nonce_len with 12%nat in *.
    destruct (Nat.ltb_spec (List.length bytes) 12) as [LN|LN]; [discriminate AR|].
    destruct (o_decrypt O (firstn 12 bytes) (skipn 12 bytes)) as [p|] eqn:DC; [|discriminate AR].
    destruct (locked_restore (w_lk w) p (e_clk e) (e_hash e)) as [lk2|m|] eqn:LR; try discriminate AR.
    - assert (lk2 = lk') by congruence. subst lk2. rewrite (restore_again _ _ _ _ _ (e_clk e3) (e_hash e3) W LR). reflexivity.
    - assert (lk' = w_lk w) as -> by congruence.
      assert (exists m', locked_restore (w_lk w) p (e_clk e3) (e_hash e3) = Err m') as (m' & ->); [|reflexivity].
      destruct (locked_restore_spec (w_lk w) p (e_clk e3) (e_hash e3) W) as [X|(d & lk2 & X & D & V & _)]; [exact X|].
      destruct (restore_exact (w_lk w) p (e_clk e) (e_hash e) d W D V) as (lk4 & Y & _). congruence. }
  destruct (asked_restore O w3 e3 bytes R3 AS3) as [(m & X & J)|(lk2 & X & RT2)]; [congruence|].
  assert (lk2 = lk') by congruence. subst lk2. exact RT2.
Qed.

(** C35 *)
Lemma restore_unauthentic O w e bytes :
  reachable O w -> asked w e ($"restore:" ++ bytes) ->
  (List.length bytes < 12)%nat \/ o_decrypt O (firstn 12 bytes) (skipn 12 bytes) = None ->
  exists m, just_answers O w e ($"restore:" ++ bytes) ($"error:" ++ m).
Proof.
  intros R AS H. destruct (asked_restore O w e bytes R AS) as [(m & X & J)|(lk2 & X & RT2)]; [exists m; exact J|].
  exfalso. unfold auth_restore in X. change nonce_len with 12%nat in X.
  destruct (Nat.ltb_spec (List.length bytes) 12) as [LN|LN]; [discriminate X|].
  destruct H as [H|H]; [lia|]. rewrite H in X. discriminate X.
Qed.

Lemma restore_unreadable O w e bytes plain :
  reachable O w -> asked w e ($"restore:" ++ bytes) ->
  (12 <= List.length bytes)%nat -> o_decrypt O (firstn 12 bytes) (skipn 12 bytes) = Some plain ->
  (forall d, deserialize plain = Some d -> d_version d <> dump_version) ->
  restores_to O w e ($"restore:" ++ bytes) (w_lk w).
Proof.
  intros R AS LN DC H. pose proof (inv_wf _ _ (reach_inv _ _ R)) as W.
  destruct (asked_restore O w e bytes R AS) as [(m & X & J)|(lk2 & X & RT2)].
  - exfalso. unfold auth_restore in X. change nonce_len with 12%nat in X.
    destruct (Nat.ltb_spec (List.length bytes) 12) as [LN'|LN']; [lia|]. rewrite DC in X.
    destruct (locked_restore (w_lk w) plain (e_clk e) (e_hash e)); discriminate X.
  - assert (lk2 = w_lk w) as ->; [|exact RT2]. unfold auth_restore in X. change nonce_len with 12%nat in X.
    destruct (Nat.ltb_spec (List.length bytes) 12) as [LN'|LN']; [lia|]. rewrite DC in X.
    destruct (locked_restore_spec (w_lk w) plain (e_clk e) (e_hash e) W) as [(m & Y)|(d & lk3 & Y & D & V & _)].
    + rewrite Y in X. congruence.
    + exfalso. exact (H d D V).
Qed.

(** C36 *)
Lemma dump_instant_near r i m off eps :
  (m <= ri1 r <= m + eps -> m <= ri2 r <= m + eps ->
   m + off <= rs1 r <= m + off + eps -> m + off <= rs2 r <= m + off + eps ->
   time_min + eps <= i + off <= time_max - eps ->
   near (dump_instant r i) (i + off) eps)%Z.
Proof.
  intros A B C D E. unfold near, dump_instant, duration_since, checked_add, checked_sub.
  destruct (Z.leb_spec (ri1 r) i).
  - destruct (Z.leb_spec (rs1 r + (i - ri1 r)) time_max); simpl; lia.
  - destruct (Z.leb_spec i (ri2 r)); simpl; [|lia].
    destruct (Z.leb_spec time_min (rs1 r - (ri2 r - i))); simpl; lia.
Qed.

Lemma restore_instant_near r t m off eps :
  (m <= ri1 r <= m + eps -> m <= ri2 r <= m + eps ->
   m + off <= rs1 r <= m + off + eps -> m + off <= rs2 r <= m + off + eps ->
   time_min + eps <= t - off <= time_max - eps ->
   near (restore_instant r t + off) t eps)%Z.
Proof.
  intros A B C D E. unfold near, restore_instant, duration_since, checked_add, checked_sub.
  destruct (Z.leb_spec (rs1 r) t).
  - destruct (Z.leb_spec (ri1 r + (t - rs1 r)) time_max); simpl; lia.
  - destruct (Z.leb_spec t (rs2 r)); simpl; [|lia].
    destruct (Z.leb_spec time_min (ri1 r - (rs2 r - t))); simpl; lia.
Qed.

Lemma restores_to_det O w e req lk1 lk2 : restores_to O w e req lk1 -> restores_to O w e req lk2 -> lk1 = lk2.
Proof.
  unfold restores_to. intros A B. rewrite A in B.
  apply (f_equal (fun s => match s with SNext w' => w_lk w' | _ => w_lk w end)) in B.
  cbv beta iota in B. unfold emit, set_thread, set_lk in B. cbn [w_lk] in B. exact B.
Qed.

Lemma times_near e1 m1 off1 eps1 e2 m2 off2 eps2 k k' t :
  readings e1 m1 off1 eps1 -> readings e2 m2 off2 eps2 -> (0 <= eps1)%Z -> (0 <= eps2)%Z ->
  representable off1 off2 (eps1 + eps2) t ->
  near (restore_instant (e_clk e2 k') (dump_instant (e_clk e1 k) t) + off2) (t + off1) (eps1 + eps2).
Proof.
  intros R1 R2 P1 P2 (A & B).
  destruct (R1 k) as (X1 & X2 & X3 & X4). destruct (R2 k') as (Y1 & Y2 & Y3 & Y4).
  assert (near (dump_instant (e_clk e1 k) t) (t + off1) eps1) as N1
    by (apply (dump_instant_near _ _ m1); auto; lia).
  assert (near (restore_instant (e_clk e2 k') (dump_instant (e_clk e1 k) t) + off2)
               (dump_instant (e_clk e1 k) t) eps2) as N2.
  { apply (restore_instant_near _ _ m2); auto. unfold near in N1. lia. }
  unfold near in *. lia.
Qed.

Lemma restored_times O w1 e1 m1 off1 eps1 txt w2 e2 m2 off2 eps2 lk' n a b act1 act2 :
  cipher_law O -> List.length (e_nonce e1) = 12%nat -> texts w1 -> wall_ok e1 ->
  reachable O w1 -> asked w1 e1 $"dump:" -> just_answers O w1 e1 $"dump:" txt ->
  reachable O w2 -> asked w2 e2 ($"restore:" ++ txt) -> restores_to O w2 e2 ($"restore:" ++ txt) lk' ->
  holds w1 n (TSActive a) -> configured w1 n act1 -> configured w2 n act2 -> same_security act1 act2 ->
  ~ has_token w2 n -> holds (set_lk w2 lk') n (TSActive b) ->
  readings e1 m1 off1 eps1 -> readings e2 m2 off2 eps2 -> (0 <= eps1)%Z -> (0 <= eps2)%Z ->
  (representable off1 off2 (eps1 + eps2) (expiry a) ->
   near (expiry b + off2) (expiry a + off1) (eps1 + eps2))
  /\ (representable off1 off2 (eps1 + eps2) (obtained a) ->
      near (obtained b + off2) (obtained a + off1) (eps1 + eps2)).
Proof.
  intros CL NL TX WO R1 A1 J R2 A2 RT HO C1 C2 SS NT HB RD1 RD2 P1 P2.
  destruct (dump_carries O w1 e1 txt CL NL TX WO R1 A1 J) as (d & CA & DD).
  destruct (restore_effect O w2 e2 txt d R2 A2 CA) as (lk2 & RT2 & CF & IN & UN & NM & W').
  assert (lk2 = lk') as -> by (eapply restores_to_det; eassumption).
  pose proof (inv_wf _ _ (reach_inv _ _ R2)) as W2.
  destruct (dd_entry _ _ _ DD n _ HO) as (act & k & CF1 & L).
  assert (act = act1) by (unfold configured in *; congruence). subst act. cbn [tokenstate_dump_of] in L.
  assert (exists ts, holds w2 n ts) as (ts & HO2).
  { assert (In n (names (w_lk w2))) as I by (rewrite (wf_names _ W2); apply lookup_in_keys in C2; exact C2).
    apply in_map_iff in I as (e0 & NE & I). exists (d_ts e0), e0. auto. }
  destruct (IN n ts act2 _ _ _ _ _ HO2 NT C2 L (same_security_agrees _ _ SS)) as (k' & e' & I' & N' & T').
  destruct HB as (e'' & I'' & N'' & T'').
  assert (e'' = e') by (apply (wf_name_inj _ _ _ W' I'' I'); congruence). subst e''.
  rewrite T' in T''.
  assert (obtained b = restore_instant (e_clk e2 (2 * k')%nat) (dump_instant (e_clk e1 (2 * k)%nat) (obtained a))) as ->
    by (injection T'' as <-; reflexivity).
  assert (expiry b = restore_instant (e_clk e2 (2 * k' + 1)%nat) (dump_instant (e_clk e1 (2 * k + 1)%nat) (expiry a))) as ->
    by (injection T'' as <-; reflexivity).
  split; intros RP; eapply times_near; eassumption.
Qed.

(** C38 *)
Lemma dump_same c1 c2 clk : forall ds1 ds2 i,
  Forall2 (fun e1 e2 => d_name e1 = d_name e2 /\ held (d_ts e1) = held (d_ts e2)) ds1 ds2 ->
  (forall e1, In e1 ds1 -> exists a1 a2, lookup (d_name e1) (c_accounts c1) = Some a1
      /\ lookup (d_name e1) (c_accounts c2) = Some a2 /\ same_security a1 a2) ->
  dump_entries c1 clk i ds1 = dump_entries c2 clk i ds2.
Proof.
  intros ds1 ds2 i F. revert i. induction F as [|e1 e2 ds1 ds2 (N & H) F IH]; intros i A; [reflexivity|].
  cbn [dump_entries]. destruct (A e1 (or_introl eq_refl)) as (a1 & a2 & L1 & L2 & SS).
  rewrite <- N, L1, L2. cbn [unwrap bind]. rewrite (IH (S i)) by (intros e I; apply A; right; exact I).
  assert (account_dump_of a1 = account_dump_of a2) as ->.
  { destruct SS as (_ & B & C & D & E & G & K & M). unfold account_dump_of. congruence. }
  assert (forall r1 r2, tokenstate_dump_of r1 r2 (d_ts e1) = tokenstate_dump_of r1 r2 (d_ts e2)) as ->; [|reflexivity].
  intros r1 r2. destruct (d_ts e1) as [| |x], (d_ts e2) as [| |y]; simpl in H; try discriminate H; try reflexivity.
  simpl. injection H as -> -> -> ->. reflexivity.
Qed.

Lemma dump_noninterference O w1 w2 e txt :
  reachable O w1 -> asked w1 e $"dump:" -> reachable O w2 -> asked w2 e $"dump:" -> same_to_dump w1 w2 ->
  just_answers O w1 e $"dump:" txt <-> just_answers O w2 e $"dump:" txt.
Proof.
  intros R1 A1 R2 A2 (F & S). rewrite (asked_dump O w1 e txt R1 A1), (asked_dump O w2 e txt R2 A2).
  pose proof (inv_wf _ _ (reach_inv _ _ R1)) as W1. pose proof (inv_wf _ _ (reach_inv _ _ R2)) as W2.
  unfold auth_dump, locked_dump.
  rewrite (dump_same (lconfig (w_lk w1)) (lconfig (w_lk w2)) (e_clk e) _ _ 0 F); [reflexivity|].
  intros e1 I. destruct (Forall2_in_l _ _ _ _ F I) as (e2 & I2 & N & _).
  destruct (wf_account _ _ W1 I) as (a1 & L1 & _). destruct (wf_account _ _ W2 I2) as (a2 & L2 & _).
  rewrite <- N in L2. exists a1, a2. split; [exact L1|]. split; [exact L2|]. exact (S _ a1 a2 L1 L2).
Qed.

(** When a dump is answered. *)
Lemma dump_answered O w e :
  reachable O w -> asked w e $"dump:" ->
  (forall n p, exists c, o_encrypt O n p = Some c) ->
  (forall n a, holds w n (TSActive a) ->
     forall k, (0 <= dump_instant (e_clk e k) (obtained a) /\ 0 <= dump_instant (e_clk e k) (expiry a))%Z) ->
  exists txt, just_answers O w e $"dump:" txt.
Proof.
  intros R AS EN NB. pose proof (inv_wf _ _ (reach_inv _ _ R)) as W.
  destruct (auth_dump O (w_lk w) (e_clk e) (e_hash e) (e_nonce e)) as [txt|m|] eqn:E.
  - exists txt. apply (asked_dump O w e txt R AS). exact E.
  - exfalso. unfold auth_dump, locked_dump in E.
    destruct (dump_entries (lconfig (w_lk w)) (e_clk e) 0 (details (w_lk w))) as [l|m'|] eqn:D.
    + cbn [bind] in E. destruct (dump_entries_spec _ _ _ _ _ D) as (M & K).
      destruct (serialize (mkDump dump_version (hsort (fun p => e_hash e (fst p)) l))) as [s|m'|] eqn:SE.
      * cbn [bind] in E. destruct (EN (e_nonce e) s) as (c & X). rewrite X in E. discriminate E.
      * destruct (proj1 (serialize_fails _) (ex_intro _ m' SE)) as (n & ad & tok & ob & ex & rt & I & B).
        cbn [d_accounts] in I. apply hsort_in in I. apply In_nth_error in I as [k N].
        destruct (nth_error (details (w_lk w)) k) as [e0|] eqn:N0.
        -- destruct (K k e0 N0) as (act & A & N1). rewrite N in N1. cbn [Nat.add] in N1.
           destruct (d_ts e0) as [| |a] eqn:TS; cbn [tokenstate_dump_of] in N1; try congruence.
           assert (holds w (d_name e0) (TSActive a)) as HO by (exists e0; split; [apply nth_error_In in N0; exact N0|auto]).
           pose proof (NB _ _ HO (2 * k)%nat) as B1. pose proof (NB _ _ HO (2 * k + 1)%nat) as B2.
           assert (ob = dump_instant (e_clk e (2 * k)%nat) (obtained a)) as -> by congruence.
           assert (ex = dump_instant (e_clk e (2 * k + 1)%nat) (expiry a)) as -> by congruence. lia.
        -- apply nth_error_None in N0.
           assert (List.length l = List.length (details (w_lk w))) as LL
             by (rewrite <- (map_length fst l), M, map_length; reflexivity).
           assert (nth_error l k = None) by (apply nth_error_None; lia). congruence.
      * revert SE. apply serialize_no_panic.
    + destruct (dump_entries_ok (lconfig (w_lk w)) (e_clk e) (details (w_lk w)) 0) as (l & X); [|congruence].
      intros e0 I. destruct (wf_account _ _ W I) as (a & A & _). eauto.
    + destruct (dump_entries_ok (lconfig (w_lk w)) (e_clk e) (details (w_lk w)) 0) as (l & X); [|congruence].
      intros e0 I. destruct (wf_account _ _ W I) as (a & A & _). eauto.
  - exfalso. revert E. apply auth_dump_no_panic. apply (reach_inv _ _ R).
Qed.

Lemma dump_answered_in_time O w e m off eps :
  reachable O w -> asked w e $"dump:" ->
  (forall n p, exists c, o_encrypt O n p = Some c) ->
  readings e m off eps -> (0 <= eps)%Z ->
  (forall n a, holds w n (TSActive a) ->
     eps <= obtained a + off <= time_max - eps /\ eps <= expiry a + off <= time_max - eps)%Z ->
  exists txt, just_answers O w e $"dump:" txt.
Proof.
  intros R AS EN RD P H. apply dump_answered; [exact R|exact AS|exact EN|].
  intros n a HO k. destruct (H n a HO) as (H1 & H2). destruct (RD k) as (X1 & X2 & X3 & X4).
  assert (time_min <= 0)%Z by (vm_compute; discriminate).
  assert (near (dump_instant (e_clk e k) (obtained a)) (obtained a + off) eps) as N1
    by (apply (dump_instant_near _ _ m); auto; lia).
  assert (near (dump_instant (e_clk e k) (expiry a)) (expiry a + off) eps) as N2
    by (apply (dump_instant_near _ _ m); auto; lia).
  unfold near in *. lia.
Qed.
