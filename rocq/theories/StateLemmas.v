(** Facts about the central state and its operations. *)
From Verif Require Import Base BaseLemmas Time Url Oracles Config Dump State.

(** * Well-formed states *)

(** Configurations as the parser produces them. *)
Definition wf_conf (c : config) : Prop :=
  NoDup (keys (c_accounts c))
  /\ Forall (fun p => fst p = a_name (snd p)) (c_accounts c)
  /\ c_accounts c <> []
  /\ (c_http_listen c <> None \/ c_https_listen c <> None).

Definition names (lk : locked) : list str := map d_name (details lk).

Record wf (lk : locked) : Prop := mkWf {
  wf_config : wf_conf (lconfig lk);
  wf_names : names lk = keys (c_accounts (lconfig lk));
  wf_ids : NoDup (act_ids lk);
  wf_count : Forall (fun i => (i < account_count lk)%N) (act_ids lk);
}.

Lemma wf_names_nodup lk : wf lk -> NoDup (names lk).
Proof. intros H. rewrite (wf_names _ H). apply (wf_config _ H). Qed.

Lemma wf_entry_count lk e : wf lk -> In e (details lk) -> (d_id e < account_count lk)%N.
Proof.
  intros H I. apply (proj1 (Forall_forall _ _) (wf_count _ H)). apply in_map. exact I.
Qed.

(** Entries are determined by their id and by their name. *)
Lemma nodup_map_inj {A B} (f : A -> B) l x y :
  NoDup (map f l) -> In x l -> In y l -> f x = f y -> x = y.
Proof.
  induction l as [|z l IH]; simpl; [tauto|].
  intros ND. inversion ND as [|? ? H1 H2]; subst.
  intros [->|Hx] [->|Hy] E; auto.
  - exfalso. apply H1. rewrite E. apply in_map. exact Hy.
  - exfalso. apply H1. rewrite <- E. apply in_map. exact Hx.
Qed.

Lemma wf_id_inj lk e e' :
  wf lk -> In e (details lk) -> In e' (details lk) -> d_id e = d_id e' -> e = e'.
Proof. intros H. apply nodup_map_inj. apply (wf_ids _ H). Qed.

Lemma wf_name_inj lk e e' :
  wf lk -> In e (details lk) -> In e' (details lk) -> d_name e = d_name e' -> e = e'.
Proof. intros H. apply nodup_map_inj. apply (wf_names_nodup _ H). Qed.

Lemma find_id_some i ds e : find_id i ds = Some e -> In e ds /\ d_id e = i.
Proof.
  intros H. apply find_some in H as [I E]. apply N.eqb_eq in E. auto.
Qed.

Lemma find_name_some n ds e : find_name n ds = Some e -> In e ds /\ d_name e = n.
Proof.
  intros H. apply find_some in H as [I E]. apply str_eqb_eq in E. auto.
Qed.

Lemma find_id_in lk e : wf lk -> In e (details lk) -> find_id (d_id e) (details lk) = Some e.
Proof.
  intros H I. destruct (find_id (d_id e) (details lk)) as [e'|] eqn:F.
  - apply find_id_some in F as [I' E]. f_equal. apply (wf_id_inj lk); auto.
  - pose proof (find_none _ _ F _ I) as X. simpl in X. rewrite N.eqb_refl in X. discriminate.
Qed.

Lemma find_name_in lk e : wf lk -> In e (details lk) -> find_name (d_name e) (details lk) = Some e.
Proof.
  intros H I. destruct (find_name (d_name e) (details lk)) as [e'|] eqn:F.
  - apply find_name_some in F as [I' E]. f_equal. apply (wf_name_inj lk); auto.
  - pose proof (find_none _ _ F _ I) as X. simpl in X. rewrite str_eqb_refl in X. discriminate.
Qed.

Lemma find_name_none n ds : find_name n ds = None -> forall e, In e ds -> d_name e <> n.
Proof.
  intros F e I E. pose proof (find_none _ _ F _ I) as X. simpl in X.
  apply str_eqb_neq in X. contradiction.
Qed.

Lemma validate_some lk n i :
  validate_act_name lk n = Some i -> exists e, In e (details lk) /\ d_id e = i /\ d_name e = n.
Proof.
  unfold validate_act_name. destruct (find_name n (details lk)) as [e|] eqn:F; simpl; [|discriminate].
  intros [= <-]. apply find_name_some in F as [I E]. exists e. auto.
Qed.

Lemma valid_iff lk i :
  is_act_id_valid lk i = true <-> exists e, In e (details lk) /\ d_id e = i.
Proof.
  unfold is_act_id_valid. rewrite existsb_exists. split; intros [e [I E]]; exists e; split; auto;
    apply N.eqb_eq; auto.
Qed.

Lemma valid_false lk i :
  is_act_id_valid lk i = false -> forall e, In e (details lk) -> d_id e <> i.
Proof.
  intros F e I E. assert (is_act_id_valid lk i = true) as T by (apply valid_iff; exists e; auto).
  congruence.
Qed.

Lemma wf_account lk e :
  wf lk -> In e (details lk) ->
  exists act, lookup (d_name e) (c_accounts (lconfig lk)) = Some act /\ a_name act = d_name e.
Proof.
  intros H I. assert (In (d_name e) (keys (c_accounts (lconfig lk)))) as K.
  { rewrite <- (wf_names _ H). apply in_map. exact I. }
  apply lookup_some_iff_keys in K as [act L]. exists act. split; [exact L|].
  apply lookup_in in L. destruct (wf_config _ H) as (_ & F & _).
  rewrite Forall_forall in F. apply F in L. simpl in L. auto.
Qed.

Lemma ct_tokenstate_in lk e : wf lk -> In e (details lk) -> ct_tokenstate lk (d_id e) = Val (d_ts e).
Proof. intros H I. unfold ct_tokenstate. rewrite (find_id_in lk e H I). reflexivity. Qed.

Lemma ct_account_in lk e act :
  wf lk -> In e (details lk) -> lookup (d_name e) (c_accounts (lconfig lk)) = Some act ->
  ct_account lk (d_id e) = Val act.
Proof.
  intros H I L. unfold ct_account. rewrite (find_id_in lk e H I). simpl. rewrite L. reflexivity.
Qed.

(** * Replacing one entry *)

(** [bump k lk i ts]: the entry with id [i] gets state [ts] and the id that is
    [k] after the next fresh one. *)
Definition bump_entry (new_id i : N) (ts : tokenstate) (e : entry) : entry :=
  if N.eqb (d_id e) i then mkEntry (d_name e) new_id ts else e.

Definition bump (k : N) (lk : locked) (i : account_id) (ts : tokenstate) : locked :=
  mkLocked (account_count lk + k + 1) (lconfig lk)
    (map (bump_entry (account_count lk + k) i ts) (details lk)).

Lemma update_first_map i f ds :
  NoDup (map d_id ds) -> (exists e, In e ds /\ d_id e = i) ->
  update_first (fun e => N.eqb (d_id e) i) f ds
  = Some (map (fun e => if N.eqb (d_id e) i then f e else e) ds).
Proof.
  induction ds as [|e ds IH]; simpl; intros ND [e0 [I E]]; [destruct I|].
  inversion ND as [|? ? H1 H2]; subst.
  destruct (N.eqb_spec (d_id e) (d_id e0)) as [E|E].
  - f_equal. f_equal. transitivity (map (fun x : entry => x) ds).
    + symmetry. apply map_id.
    + apply map_ext_in. intros x Ix.
    destruct (N.eqb_spec (d_id x) (d_id e0)) as [E'|E']; [|reflexivity].
    exfalso. apply H1. rewrite E, <- E'. apply in_map. exact Ix.
  - destruct I as [->|I]; [congruence|].
    rewrite IH; [reflexivity|exact H2|]. exists e0. auto.
Qed.

Lemma tokenstate_replace_in lk e ts :
  wf lk -> In e (details lk) ->
  tokenstate_replace lk (d_id e) ts = Val (bump 0 lk (d_id e) ts, account_count lk).
Proof.
  intros H I. unfold tokenstate_replace.
  rewrite (update_first_map (d_id e)); [|apply (wf_ids _ H)|exists e; auto].
  simpl. unfold bump, bump_entry. rewrite N.add_0_r.
  replace (N.succ (account_count lk)) with (account_count lk + 1)%N by lia.
  reflexivity.
Qed.

Lemma bump_twice lk i ts ts' :
  wf lk -> bump 0 (bump 0 lk i ts) (account_count lk) ts' = bump 1 lk i ts'.
Proof.
  intros H. unfold bump. simpl. f_equal; [lia|].
  rewrite map_map. apply map_ext_in. intros e I. unfold bump_entry.
  rewrite !N.add_0_r.
  destruct (N.eqb_spec (d_id e) i) as [E|E]; simpl.
  - rewrite N.eqb_refl. reflexivity.
  - pose proof (wf_entry_count _ _ H I) as X.
    destruct (N.eqb_spec (d_id e) (account_count lk)); [lia|reflexivity].
Qed.

Lemma bump_names k lk i ts : names (bump k lk i ts) = names lk.
Proof.
  unfold names, bump. simpl. rewrite map_map. apply map_ext. intros e. unfold bump_entry.
  destruct (N.eqb (d_id e) i); reflexivity.
Qed.

Lemma bump_in k lk i ts e' :
  In e' (details (bump k lk i ts)) ->
  (exists e, In e (details lk) /\ d_id e = i
             /\ e' = mkEntry (d_name e) (account_count lk + k)%N ts)
  \/ (In e' (details lk) /\ d_id e' <> i).
Proof.
  unfold bump. simpl. rewrite in_map_iff. intros [e [E I]]. unfold bump_entry in E.
  destruct (N.eqb_spec (d_id e) i).
  - left. exists e. auto.
  - right. subst. auto.
Qed.

Lemma bump_in_other k lk i ts e :
  In e (details lk) -> d_id e <> i -> In e (details (bump k lk i ts)).
Proof.
  intros I N. unfold bump. simpl. apply in_map_iff. exists e. split; [|exact I].
  unfold bump_entry. destruct (N.eqb_spec (d_id e) i); congruence.
Qed.

Lemma bump_in_new k lk e ts :
  In e (details lk) ->
  In (mkEntry (d_name e) (account_count lk + k)%N ts) (details (bump k lk (d_id e) ts)).
Proof.
  intros I. unfold bump. simpl. apply in_map_iff. exists e. split; [|exact I].
  unfold bump_entry. rewrite N.eqb_refl. reflexivity.
Qed.

Lemma bump_wf k lk i ts : wf lk -> wf (bump k lk i ts).
Proof.
  intros H. constructor.
  - exact (wf_config _ H).
  - rewrite bump_names. exact (wf_names _ H).
  - unfold act_ids, bump. simpl. rewrite map_map.
    pose proof (wf_ids _ H) as ND. pose proof (wf_count _ H) as C.
    unfold act_ids in *. rewrite Forall_forall in C.
    induction (details lk) as [|e ds IH]; simpl; [constructor|].
    simpl in ND. inversion ND as [|? ? H1 H2]; subst.
    constructor.
    + intros I. apply in_map_iff in I as [e' [E I']].
      unfold bump_entry in E. destruct (N.eqb_spec (d_id e) i) as [Ei|Ei]; simpl in E.
      * destruct (N.eqb_spec (d_id e') i) as [Ei'|Ei']; simpl in E.
        -- apply H1. rewrite Ei, <- Ei'. apply in_map. exact I'.
        -- assert (d_id e' < account_count lk)%N by (apply C; right; apply in_map; exact I'). lia.
      * destruct (N.eqb_spec (d_id e') i) as [Ei'|Ei']; simpl in E.
        -- assert (d_id e < account_count lk)%N by (apply C; left; reflexivity). lia.
        -- apply H1. rewrite <- E. apply in_map. exact I'.
    + apply IH; [exact H2|]. intros x Ix. apply C. right. exact Ix.
  - apply Forall_forall. intros x Ix. unfold act_ids in Ix. apply in_map_iff in Ix as [e' [E I]].
    apply bump_in in I as [[e [I [E2 ->]]]|[I N]]; subst x; simpl.
    + lia.
    + pose proof (wf_entry_count _ _ H I). lia.
Qed.

(** * How states evolve *)

(** The security-relevant part of two accounts is the same. *)
Lemma secure_eq_fields a b :
  secure_eq a b = true <->
  a_name a = a_name b /\ a_auth_uri a = a_auth_uri b
  /\ a_auth_uri_fields a = a_auth_uri_fields b /\ a_client_id a = a_client_id b
  /\ a_client_secret a = a_client_secret b /\ a_redirect_uri a = a_redirect_uri b
  /\ a_scopes a = a_scopes b /\ a_token_uri a = a_token_uri b.
Proof.
  unfold secure_eq. rewrite !andb_true_iff, !str_eqb_eq.
  rewrite (list_eqb_eq _ (pair_eqb_eq _ _ str_eqb_eq str_eqb_eq)).
  rewrite (opt_eqb_eq _ str_eqb_eq), (list_eqb_eq _ str_eqb_eq). tauto.
Qed.

Lemma secure_eq_refl a : secure_eq a a = true.
Proof. apply secure_eq_fields. tauto. Qed.

Lemma secure_eq_sym a b : secure_eq a b = true -> secure_eq b a = true.
Proof. rewrite !secure_eq_fields. intuition congruence. Qed.

Lemma secure_eq_trans a b c : secure_eq a b = true -> secure_eq b c = true -> secure_eq a c = true.
Proof. rewrite !secure_eq_fields. intuition congruence. Qed.

Definition account_of (lk : locked) (n : str) : option account :=
  lookup n (c_accounts (lconfig lk)).

Lemma secure_restorable_fields a d :
  secure_restorable a d = true <->
  a_auth_uri a = ad_auth_uri d
  /\ a_auth_uri_fields a = ad_auth_uri_fields d /\ a_client_id a = ad_client_id d
  /\ a_client_secret a = ad_client_secret d /\ a_redirect_uri a = ad_redirect_uri d
  /\ a_scopes a = ad_scopes d /\ a_token_uri a = ad_token_uri d.
Proof.
  unfold secure_restorable. rewrite !andb_true_iff, !str_eqb_eq.
  rewrite (list_eqb_eq _ (pair_eqb_eq _ _ str_eqb_eq str_eqb_eq)).
  rewrite (opt_eqb_eq _ str_eqb_eq), (list_eqb_eq _ str_eqb_eq). tauto.
Qed.

(** [evolves lk lk']: ids are handed out upwards, and an entry of [lk'] with an
    old id is an entry of [lk] whose account has the same security-relevant
    configuration. *)
Definition kept (lk lk' : locked) (e : entry) : Prop :=
  In e (details lk)
  /\ exists a a', account_of lk (d_name e) = Some a /\ account_of lk' (d_name e) = Some a'
                  /\ secure_eq a' a = true.

Definition evolves (lk lk' : locked) : Prop :=
  (account_count lk <= account_count lk')%N
  /\ forall e, In e (details lk') -> (d_id e < account_count lk)%N -> kept lk lk' e.

Lemma kept_same lk lk' e :
  wf lk -> lconfig lk' = lconfig lk -> In e (details lk) -> kept lk lk' e.
Proof.
  intros H C I. split; [exact I|]. destruct (wf_account _ _ H I) as [a [L _]].
  exists a, a. unfold account_of. rewrite C. auto using secure_eq_refl.
Qed.

Lemma evolves_refl lk : wf lk -> evolves lk lk.
Proof. intros H. split; [lia|]. intros e I _. apply kept_same; auto. Qed.

Lemma evolves_trans lk1 lk2 lk3 : evolves lk1 lk2 -> evolves lk2 lk3 -> evolves lk1 lk3.
Proof.
  intros [C1 K1] [C2 K2]. split; [lia|]. intros e I L.
  destruct (K2 e I ltac:(lia)) as [I2 (a2 & a3 & A2 & A3 & S23)].
  destruct (K1 e I2 L) as [I1 (a1 & a2' & A1 & A2' & S12)].
  split; [exact I1|]. exists a1, a3. rewrite A2 in A2'. injection A2' as <-.
  split; [exact A1|]. split; [exact A3|]. eapply secure_eq_trans; eauto.
Qed.

Lemma bump_evolves k lk i ts : wf lk -> evolves lk (bump k lk i ts).
Proof.
  intros H. split; [simpl; lia|]. intros e I L.
  apply bump_in in I as [[e0 [I [E ->]]]|[I N]].
  - simpl in L. lia.
  - apply kept_same; auto.
Qed.

(** * Reloading *)

Lemma update_details_spec old new ns count ds count' :
  wf old -> NoDup ns -> incl ns (keys (c_accounts new)) ->
  (account_count old <= count)%N ->
  update_details old new ns count = Val (ds, count') ->
  map d_name ds = ns
  /\ (count <= count')%N
  /\ NoDup (map d_id ds)
  /\ Forall2 (fun n e =>
       d_name e = n
       /\ match lookup n (c_accounts (lconfig old)), lookup n (c_accounts new) with
          | Some a, Some a' =>
              if secure_eq a' a then In e (details old)
              else (count <= d_id e < count')%N /\ d_ts e = TSEmpty
          | _, _ => (count <= d_id e < count')%N /\ d_ts e = TSEmpty
          end) ns ds.
Proof.
  intros H. revert count ds count'.
  induction ns as [|n ns IH]; simpl; intros count ds count' ND INC LE E.
  - injection E as <- <-. repeat split; try constructor. lia.
  - inversion ND as [|? ? N1 N2]; subst.
    assert (incl ns (keys (c_accounts new))) as INC2 by (intros x Hx; apply INC; right; exact Hx).
    assert (exists a', lookup n (c_accounts new) = Some a') as [a' La'].
    { apply lookup_some_iff_keys. apply INC. left. reflexivity. }
    assert (forall l c2, update_details old new ns (N.succ count) = Val (l, c2) ->
       map d_name (mkEntry n count TSEmpty :: l) = n :: ns
       /\ (count <= c2)%N /\ NoDup (map d_id (mkEntry n count TSEmpty :: l))
       /\ Forall2 (fun n e =>
       d_name e = n
       /\ match lookup n (c_accounts (lconfig old)), lookup n (c_accounts new) with
          | Some a, Some a' =>
              if secure_eq a' a then In e (details old)
              else (count <= d_id e < c2)%N /\ d_ts e = TSEmpty
          | _, _ => (count <= d_id e < c2)%N /\ d_ts e = TSEmpty
          end) ns l /\ (count < c2)%N) as FRESH.
    { intros l c2 El. destruct (IH (N.succ count) l c2 N2 INC2 ltac:(lia) El) as (Hn & Hc & Hd & Hf).
      split; [simpl; congruence|]. split; [lia|]. split; [|split; [|lia]].
      - simpl. constructor; [|exact Hd]. intros I.
        apply in_map_iff in I as [e [Ee Ie]].
        assert (exists n', In n' ns /\ d_name e = n' /\
          (In e (details old) \/ (N.succ count <= d_id e < c2)%N)) as (n' & _ & _ & [Io|Ir]).
        { clear -Hf Ie. induction Hf as [|n0 e0 ns0 es0 P F IHf]; [destruct Ie|].
          destruct Ie as [->|Ie].
          - exists n0. split; [left; reflexivity|]. destruct P as [P1 P2]. split; [exact P1|].
            destruct (lookup n0 (c_accounts (lconfig old))); [destruct (lookup n0 (c_accounts new)); [destruct (secure_eq a0 a)|]|]; tauto.
          - destruct (IHf Ie) as (n' & X & Y). exists n'. split; [right; exact X|exact Y]. }
        + pose proof (wf_entry_count _ _ H Io). lia.
        + lia.
      - eapply Forall2_impl; [|exact Hf]. intros n0 e0 [P1 P2]. split; [exact P1|].
        destruct (lookup n0 (c_accounts (lconfig old))); [destruct (lookup n0 (c_accounts new)); [destruct (secure_eq a0 a)|]|];
          intuition lia. }
    destruct (lookup n (c_accounts (lconfig old))) as [a|] eqn:La.
    + rewrite La' in E. simpl in E.
      destruct (secure_eq a' a) eqn:SE.
      * destruct (find_name n (details old)) as [e|] eqn:F; simpl in E; [|discriminate].
        destruct (update_details old new ns count) as [[l c2]| |] eqn:R; simpl in E; try discriminate.
        injection E as <- <-.
        destruct (IH count l c2 N2 INC2 LE R) as (Hn & Hc & Hd & Hf).
        apply find_name_some in F as [Fi Fn].
        split; [simpl; congruence|]. split; [exact Hc|]. split.
        -- simpl. constructor; [|exact Hd]. intros I.
           apply in_map_iff in I as [e2 [Ee Ie]].
           assert (In (d_name e2) ns) as In2 by (rewrite <- Hn; apply in_map; exact Ie).
           assert (In e2 (details old) \/ (count <= d_id e2)%N) as [Io|Ir].
           { clear -Hf Ie. induction Hf as [|n0 e0 ns0 es0 P F IHf]; [destruct Ie|].
             destruct Ie as [->|Ie]; [|exact (IHf Ie)].
             destruct P as [_ P2].
             destruct (lookup n0 (c_accounts (lconfig old))); [destruct (lookup n0 (c_accounts new)); [destruct (secure_eq a0 a)|]|]; tauto. }
           ++ assert (e2 = e) by (apply (wf_id_inj old); auto). subst e2. congruence.
           ++ pose proof (wf_entry_count _ _ H Fi). lia.
        -- constructor; [|exact Hf]. rewrite La, La', SE. auto.
      * destruct (update_details old new ns (N.succ count)) as [[l c2]| |] eqn:R; simpl in E; try discriminate.
        injection E as <- <-. destruct (FRESH l c2 eq_refl) as (X1 & X2 & X3 & X4 & X5).
        split; [exact X1|]. split; [exact X2|]. split; [exact X3|].
        constructor; [|exact X4]. rewrite La, La', SE. simpl. split; [reflexivity|]. split; [lia|reflexivity].
    + destruct (update_details old new ns (N.succ count)) as [[l c2]| |] eqn:R; simpl in E; try discriminate.
      injection E as <- <-. destruct (FRESH l c2 eq_refl) as (X1 & X2 & X3 & X4 & X5).
      split; [exact X1|]. split; [exact X2|]. split; [exact X3|].
      constructor; [|exact X4]. rewrite La. simpl. split; [reflexivity|]. split; [lia|reflexivity].
Qed.

Lemma update_details_total old new ns count :
  wf old -> incl ns (keys (c_accounts new)) ->
  exists ds count', update_details old new ns count = Val (ds, count').
Proof.
  intros H. revert count. induction ns as [|n ns IH]; simpl; intros count INC; [eauto|].
  assert (incl ns (keys (c_accounts new))) as INC2 by (intros x Hx; apply INC; right; exact Hx).
  assert (exists a', lookup n (c_accounts new) = Some a') as [a' La'].
  { apply lookup_some_iff_keys. apply INC. left. reflexivity. }
  destruct (IH count INC2) as (l1 & c1 & R1). destruct (IH (N.succ count) INC2) as (l2 & c2 & R2).
  destruct (lookup n (c_accounts (lconfig old))) as [a|] eqn:La.
  - rewrite La'. simpl. destruct (secure_eq a' a).
    + assert (In n (names old)) as In1.
      { rewrite (wf_names _ H). eapply lookup_in_keys; eassumption. }
      apply in_map_iff in In1 as [e [En Ie]]. subst n.
      rewrite (find_name_in _ _ H Ie). simpl. rewrite R1. simpl. eauto.
    + rewrite R2. simpl. eauto.
  - rewrite R2. simpl. eauto.
Qed.

Lemma update_conf_total lk c : wf lk -> exists lk', update_conf lk c = Val lk'.
Proof.
  intros H. unfold update_conf.
  destruct (update_details_total lk c (keys (c_accounts c)) (account_count lk) H (incl_refl _))
    as (ds & c' & E).
  rewrite E. simpl. eauto.
Qed.

(** Everything about a reload in one place: which entries there are after it. *)
Lemma update_conf_spec lk c lk' :
  wf lk -> wf_conf c -> update_conf lk c = Val lk' ->
  wf lk' /\ evolves lk lk' /\ lconfig lk' = c
  /\ forall e, In e (details lk') ->
     exists a', account_of lk' (d_name e) = Some a'
     /\ match account_of lk (d_name e) with
        | Some a =>
            if secure_eq a' a then In e (details lk)
            else (account_count lk <= d_id e)%N /\ d_ts e = TSEmpty
        | None => (account_count lk <= d_id e)%N /\ d_ts e = TSEmpty
        end.
Proof.
  intros H WC E. unfold update_conf in E.
  destruct (update_details lk c (keys (c_accounts c)) (account_count lk)) as [[ds c']| |] eqn:R;
    simpl in E; try discriminate.
  injection E as <-.
  destruct (update_details_spec _ _ _ _ _ _ H (proj1 WC) (incl_refl _) (N.le_refl _) R)
    as (Hn & Hc & Hd & Hf).
  assert (forall e, In e ds -> exists n, In n (keys (c_accounts c)) /\ d_name e = n
     /\ match lookup n (c_accounts (lconfig lk)), lookup n (c_accounts c) with
          | Some a, Some a' =>
              if secure_eq a' a then In e (details lk)
              else (account_count lk <= d_id e < c')%N /\ d_ts e = TSEmpty
          | _, _ => (account_count lk <= d_id e < c')%N /\ d_ts e = TSEmpty
          end) as SP.
  { clear -Hf. intros e I. induction Hf as [|n0 e0 ns0 es0 P F IHf]; [destruct I|].
    destruct I as [->|I].
    - exists n0. split; [left; reflexivity|]. exact P.
    - destruct (IHf I) as (n & X & Y). exists n. split; [right; exact X|exact Y]. }
  assert (forall e, In e ds -> exists a', lookup (d_name e) (c_accounts c) = Some a'
     /\ match lookup (d_name e) (c_accounts (lconfig lk)) with
        | Some a =>
            if secure_eq a' a then In e (details lk)
            else (account_count lk <= d_id e < c')%N /\ d_ts e = TSEmpty
        | None => (account_count lk <= d_id e < c')%N /\ d_ts e = TSEmpty
        end) as SP2.
  { intros e I. destruct (SP e I) as (n & K & <- & M).
    apply lookup_some_iff_keys in K as [a' La']. exists a'. split; [exact La'|].
    rewrite La' in M. destruct (lookup (d_name e) (c_accounts (lconfig lk))); exact M. }
  assert (forall e, In e ds -> (d_id e < c')%N) as LT.
  { intros e I. destruct (SP2 e I) as (a' & _ & M).
    destruct (lookup (d_name e) (c_accounts (lconfig lk))) as [a|]; [destruct (secure_eq a' a)|].
    - pose proof (wf_entry_count _ _ H M). lia.
    - lia.
    - lia. }
  split; [|split; [|split; [reflexivity|]]].
  - constructor; simpl.
    + exact WC.
    + exact Hn.
    + exact Hd.
    + apply Forall_forall. intros x Ix. apply in_map_iff in Ix as [e [<- I]]. apply LT. exact I.
  - split; [exact Hc|]. simpl. intros e I L. destruct (SP2 e I) as (a' & A' & M).
    destruct (lookup (d_name e) (c_accounts (lconfig lk))) as [a|] eqn:La.
    + destruct (secure_eq a' a) eqn:SE; [|lia].
      split; [exact M|]. exists a, a'. unfold account_of. simpl. auto.
    + lia.
  - simpl. intros e I. destruct (SP2 e I) as (a' & A' & M). exists a'.
    unfold account_of. simpl. split; [exact A'|].
    destruct (lookup (d_name e) (c_accounts (lconfig lk))) as [a|]; [destruct (secure_eq a' a)|];
      intuition lia.
Qed.

(** * Restoring *)

Definition is_active (ts : tokenstate) : bool :=
  match ts with TSActive _ => true | _ => false end.

Lemma restore_candidates_total c d clk i ds :
  (forall e, In e ds -> exists a, lookup (d_name e) (c_accounts c) = Some a) ->
  exists rs, restore_candidates c d clk i ds = Val rs.
Proof.
  revert i. induction ds as [|e ds IH]; simpl; intros i L; [eauto|].
  destruct (L e (or_introl eq_refl)) as [a La]. rewrite La. simpl.
  destruct (IH (S i) (fun e' I => L e' (or_intror I))) as [rs R]. rewrite R. simpl.
  destruct (lookup (d_name e) (d_accounts d)) as [[ad td]|]; [|eauto].
  destruct (secure_restorable a ad); [|eauto].
  destruct (d_ts e); try (eexists; reflexivity);
    match goal with |- context [tokenstate_restore ?x ?y td] => destruct (tokenstate_restore x y td) end;
    eexists; reflexivity.
Qed.

(** What is restored: which accounts, to what. *)
Definition restorable (c : config) (d : dump) (clk : nat -> reads) (e : entry) (ts : tokenstate) : Prop :=
  is_active (d_ts e) = false
  /\ exists a ad td i,
      lookup (d_name e) (c_accounts c) = Some a
      /\ lookup (d_name e) (d_accounts d) = Some (ad, td)
      /\ secure_restorable a ad = true
      /\ ts = tokenstate_restore (clk (2 * i)) (clk (2 * i + 1)) td
      /\ is_active ts = true.

Lemma restore_candidates_spec c d clk i ds rs :
  restore_candidates c d clk i ds = Val rs ->
  incl (keys rs) (map d_name ds)
  /\ (NoDup (map d_name ds) -> NoDup (keys rs))
  /\ forall n ts, In (n, ts) rs -> exists e, In e ds /\ d_name e = n /\ restorable c d clk e ts.
Proof.
  revert i rs. induction ds as [|e ds IH]; intros i rs E; cbn [restore_candidates] in E.
  - injection E as <-. split; [intros x []|]. split; [constructor|]. intros n ts [].
  - destruct (lookup (d_name e) (c_accounts c)) as [a|] eqn:La; cbn [unwrap bind] in E; [|discriminate].
    destruct (restore_candidates c d clk (S i) ds) as [l| |] eqn:R; cbn [bind] in E; try discriminate.
    destruct (IH (S i) l R) as (X1 & X2 & X3).
    assert (rs = l \/ exists ts, rs = (d_name e, ts) :: l /\ restorable c d clk e ts) as [->|(ts & -> & RS)].
    { destruct (lookup (d_name e) (d_accounts d)) as [[ad td]|] eqn:Ld; [|left; congruence].
      destruct (secure_restorable a ad) eqn:SR; [|left; congruence].
      destruct (tokenstate_restore (clk (2 * i)%nat) (clk (2 * i + 1)%nat) td) eqn:TR;
        destruct (d_ts e) eqn:TS; try (left; congruence);
        right; eexists; (split; [symmetry; injection E as E; exact E|]);
        (split; [rewrite TS; reflexivity|]);
        exists a, ad, td, i; rewrite TR; auto. }
    + split; [intros x Hx; right; apply X1; exact Hx|]. split.
      * intros ND. inversion ND; subst. auto.
      * intros n ts I. destruct (X3 n ts I) as (e' & I' & Y). exists e'. split; [right; exact I'|exact Y].
    + split; [|split].
      * intros x [<-|Hx]; [left; reflexivity|right; apply X1; exact Hx].
      * simpl. intros ND. inversion ND as [|? ? N1 N2]; subst. constructor; [|auto].
        intros Hx. apply N1. apply X1. exact Hx.
      * intros n ts' [[= <- <-]|I].
        -- exists e. split; [left; reflexivity|]. split; [reflexivity|exact RS].
        -- destruct (X3 n ts' I) as (e' & I' & Y). exists e'. split; [right; exact I'|exact Y].
Qed.

(** Applying the restorations one after the other. *)
Lemma update_first_name n f ds :
  (exists e, In e ds /\ d_name e = n) -> NoDup (map d_name ds) ->
  update_first (fun e => str_eqb (d_name e) n) f ds
  = Some (map (fun e => if str_eqb (d_name e) n then f e else e) ds).
Proof.
  induction ds as [|e ds IH]; simpl; intros [e0 [I E]] ND; [destruct I|].
  inversion ND as [|? ? H1 H2]; subst.
  destruct (str_eqb_spec (d_name e) (d_name e0)) as [E|E].
  - f_equal. f_equal. transitivity (map (fun x : entry => x) ds).
    + symmetry. apply map_id.
    + apply map_ext_in. intros x Ix.
      destruct (str_eqb_spec (d_name x) (d_name e0)) as [E'|E']; [|reflexivity].
      exfalso. apply H1. rewrite E, <- E'. apply in_map. exact Ix.
  - destruct I as [->|I]; [congruence|].
    rewrite IH; [reflexivity| |exact H2]. exists e0. auto.
Qed.

Lemma restore_apply_spec rs : forall ds count,
  NoDup (keys rs) -> incl (keys rs) (map d_name ds) -> NoDup (map d_name ds) ->
  NoDup (map d_id ds) -> Forall (fun i => (i < count)%N) (map d_id ds) ->
  exists ds' count',
    restore_apply rs ds count = Val (ds', count')
    /\ (count <= count')%N
    /\ NoDup (map d_id ds') /\ Forall (fun i => (i < count')%N) (map d_id ds')
    /\ Forall2 (fun e e' =>
         d_name e' = d_name e
         /\ match lookup (d_name e) rs with
            | Some ts => (count <= d_id e')%N /\ d_ts e' = ts
            | None => e' = e
            end) ds ds'.
Proof.
  induction rs as [|[n ts] rs IH]; intros ds count NK INC NN NI LT.
  - exists ds, count. simpl. split; [reflexivity|]. split; [lia|]. split; [exact NI|]. split; [exact LT|].
    clear. induction ds; constructor; auto.
  - simpl in NK. inversion NK as [|? ? K1 K2]; subst. clear NK.
    simpl. rewrite update_first_name; [| |exact NN].
    2:{ assert (In n (map d_name ds)) as I by (apply INC; left; reflexivity).
        apply in_map_iff in I as [e [E I]]. exists e. auto. }
    simpl. set (g := fun e => if str_eqb (d_name e) n then mkEntry (d_name e) count ts else e).
    assert (map d_name (map g ds) = map d_name ds) as MN.
    { rewrite map_map. apply map_ext. intros e. unfold g. destruct (str_eqb (d_name e) n); reflexivity. }
    rewrite Forall_forall in LT.
    assert (forall e, In e ds -> (d_id e < count)%N) as LT' by (intros e I; apply LT; apply in_map; exact I).
    destruct (IH (map g ds) (N.succ count)) as (ds' & c' & E & LE & ND' & LT2 & F2).
    + exact K2.
    + rewrite MN. intros x Hx. apply INC. right. exact Hx.
    + rewrite MN. exact NN.
    + rewrite map_map. clear -NI NN LT'.
      induction ds as [|e ds IH]; simpl; [constructor|].
      simpl in NI, NN. inversion NI as [|? ? H1 H2]; subst. inversion NN as [|? ? H3 H4]; subst.
      constructor.
      * intros I. apply in_map_iff in I as [e' [E I']]. unfold g in E.
        destruct (str_eqb_spec (d_name e) n) as [En|En]; simpl in E;
          destruct (str_eqb_spec (d_name e') n) as [En'|En']; simpl in E.
        -- apply H3. rewrite En, <- En'. apply in_map. exact I'.
        -- pose proof (LT' e' (or_intror I')). lia.
        -- pose proof (LT' e (or_introl eq_refl)). lia.
        -- apply H1. rewrite <- E. apply in_map. exact I'.
      * apply IH; auto. intros x Hx. apply LT'. right. exact Hx.
    + apply Forall_forall. intros x Hx. rewrite map_map in Hx. apply in_map_iff in Hx as [e [<- I]].
      unfold g. pose proof (LT' e I). destruct (str_eqb (d_name e) n); simpl; lia.
    + exists ds', c'. split; [exact E|]. split; [lia|]. split; [exact ND'|]. split; [exact LT2|].
      clear -F2 K1. remember (map g ds) as gs eqn:Eg. revert ds Eg.
      induction F2 as [|e1 e2 l1 l2 P F IHF]; intros [|e ds] Eg; try discriminate; constructor.
      * simpl in Eg. injection Eg as E1 E2. subst e1. destruct P as [P1 P2].
        assert (d_name (g e) = d_name e) as Gn by (unfold g; destruct (str_eqb (d_name e) n); reflexivity).
        rewrite Gn in P1, P2. split; [exact P1|]. simpl.
        destruct (str_eqb_spec (d_name e) n) as [En|En].
        -- apply lookup_none_iff in K1. rewrite En in P2. rewrite K1 in P2. subst e2. unfold g.
           rewrite En, str_eqb_refl. simpl. split; [lia|reflexivity].
        -- destruct (lookup (d_name e) rs); [intuition lia|]. subst e2. unfold g.
           apply str_eqb_neq in En. rewrite En. reflexivity.
      * apply IHF. simpl in Eg. injection Eg as _ E2. exact E2.
Qed.

Lemma locked_restore_spec lk bytes clk h :
  wf lk ->
  (exists m, locked_restore lk bytes clk h = Err m)
  \/ exists d lk',
      locked_restore lk bytes clk h = Val lk'
      /\ deserialize bytes = Some d /\ d_version d = dump_version
      /\ wf lk' /\ evolves lk lk' /\ lconfig lk' = lconfig lk
      /\ Forall2 (fun e e' =>
           d_name e' = d_name e
           /\ (e' = e
               \/ ((account_count lk <= d_id e')%N /\ restorable (lconfig lk) d clk e (d_ts e'))))
           (details lk) (details lk').
Proof.
  intros H. unfold locked_restore.
  destruct (deserialize bytes) as [d|] eqn:D; simpl; [|left; eauto].
  destruct (N.eqb_spec (d_version d) dump_version) as [V|V]; simpl; [|left; eauto].
  right.
  destruct (restore_candidates_total (lconfig lk) d clk 0 (details lk)) as [rs R].
  { intros e I. destruct (wf_account _ _ H I) as [a [La _]]. eauto. }
  rewrite R. simpl.
  destruct (restore_candidates_spec _ _ _ _ _ _ R) as (INC & ND & SP).
  pose proof (wf_names_nodup _ H) as NN. specialize (ND NN).
  set (rs' := hsort (fun p => h (fst p)) rs).
  assert (Permutation rs' rs) as PM by apply hsort_perm.
  destruct (restore_apply_spec rs' (details lk) (account_count lk)) as (ds' & c' & E & LE & ND' & LT' & F2).
  - eapply Permutation_NoDup; [|exact ND]. apply Permutation_map. symmetry. exact PM.
  - intros x Hx. apply INC. eapply Permutation_in; [|exact Hx]. apply Permutation_map. exact PM.
  - exact NN.
  - apply (wf_ids _ H).
  - apply (wf_count _ H).
  - rewrite E. simpl. exists d, (mkLocked c' (lconfig lk) ds').
    assert (map d_name ds' = map d_name (details lk)) as MN.
    { clear -F2. induction F2 as [|e e' l l' [P _] F IH]; simpl; congruence. }
    assert (Forall2 (fun e e' =>
           d_name e' = d_name e
           /\ (e' = e
               \/ ((account_count lk <= d_id e')%N /\ restorable (lconfig lk) d clk e (d_ts e'))))
           (details lk) ds') as F3.
    { assert (forall e, In e (details lk) -> forall ts, lookup (d_name e) rs' = Some ts ->
                restorable (lconfig lk) d clk e ts) as RS.
      { intros e I ts L. apply lookup_in in L. apply (Permutation_in _ PM) in L.
        destruct (SP _ _ L) as (e2 & I2 & N2 & R2).
        assert (e2 = e) by (apply (wf_name_inj lk); auto). subst e2. exact R2. }
      clear -F2 RS. induction F2 as [|e e' l l' [P Q] F IH]; constructor.
      - split; [exact P|]. destruct (lookup (d_name e) rs') as [ts|] eqn:L; [|left; exact Q].
        destruct Q as [Q1 Q2]. right. split; [exact Q1|]. rewrite Q2. apply RS; [left; reflexivity|exact L].
      - apply IH. intros e0 I. apply RS. right. exact I. }
    split; [reflexivity|]. split; [reflexivity|]. split; [exact V|].
    split; [constructor; simpl|split; [|split; [reflexivity|exact F3]]].
    + apply (wf_config _ H).
    + unfold names. simpl. rewrite MN. apply (wf_names _ H).
    + exact ND'.
    + exact LT'.
    + split; [exact LE|]. simpl. intros e I L. apply kept_same; [exact H|reflexivity|].
      clear -F3 I L. induction F3 as [|e1 e2 l1 l2 [P Q] F IH]; [destruct I|].
      destruct I as [->|I].
      * destruct Q as [->|[Q _]]; [left; reflexivity|lia].
      * right. apply IH. exact I.
Qed.

(** * The initial state *)

Lemma new_details_names ns next : map d_name (new_details ns next) = ns.
Proof. revert next; induction ns as [|n ns IH]; simpl; intros next; congruence. Qed.

Lemma new_details_ids ns next e :
  In e (new_details ns next) ->
  (next <= d_id e < next + N.of_nat (List.length ns))%N /\ d_ts e = TSEmpty.
Proof.
  revert next; induction ns as [|n ns IH]; intros next; [intros []|].
  cbn [new_details List.length]. rewrite Nat2N.inj_succ.
  intros [<-|I]; [simpl; split; [lia|reflexivity]|].
  destruct (IH _ I). split; [lia|assumption].
Qed.

Lemma new_details_nodup ns next : NoDup (map d_id (new_details ns next)).
Proof.
  revert next; induction ns as [|n ns IH]; simpl; intros next; constructor; [|apply IH].
  intros I. apply in_map_iff in I as [e [E I]]. apply new_details_ids in I. lia.
Qed.

Lemma locked_new_wf c : wf_conf c -> wf (locked_new c).
Proof.
  intros H. constructor; simpl.
  - exact H.
  - apply new_details_names.
  - apply new_details_nodup.
  - apply Forall_forall. intros i I. apply in_map_iff in I as [e [<- I]].
    apply new_details_ids in I. lia.
Qed.

Lemma locked_new_empty c e : In e (details (locked_new c)) -> d_ts e = TSEmpty.
Proof. intros I. apply new_details_ids in I. tauto. Qed.
