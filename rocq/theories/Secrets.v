(** Secrets do not influence anything they should not (SpecSecrets.v). *)
From Verif Require Import Base BaseLemmas Time Utf8 Base64 Url Json Oracles Config Dump State Http
  Timers Server SpecSecrets.

(** * Plumbing *)

Definition orel {A B} (R : A -> B -> Prop) (x : outcome A) (y : outcome B) : Prop :=
  match x, y with
  | Val a, Val b => R a b
  | Err m, Err n => m = n
  | Panic, Panic => True
  | _, _ => False
  end.

Lemma orel_bind {A B C D} (R : A -> B -> Prop) (S : C -> D -> Prop) x y f g :
  orel R x y -> (forall a b, R a b -> orel S (f a) (g b)) -> orel S (bind x f) (bind y g).
Proof. destruct x, y; simpl; try contradiction; auto. Qed.

Lemma orel_refl {A} (R : A -> A -> Prop) x : (forall a, R a a) -> orel R x x.
Proof. destruct x; simpl; auto. Qed.

Lemma orel_eq {A} (x : outcome A) : orel eq x x.
Proof. apply orel_refl. reflexivity. Qed.

Definition optrel {A B} (R : A -> B -> Prop) (x : option A) (y : option B) : Prop :=
  match x, y with
  | Some a, Some b => R a b
  | None, None => True
  | _, _ => False
  end.

Lemma unwrap_rel {A B} (R : A -> B -> Prop) x y : optrel R x y -> orel R (unwrap x) (unwrap y).
Proof. destruct x, y; simpl; auto. Qed.

Lemma ok_or_rel {A B} (R : A -> B -> Prop) m x y : optrel R x y -> orel R (ok_or m x) (ok_or m y).
Proof. destruct x, y; simpl; auto. Qed.

Definition sim_ts (x y : tokenstate) : Prop := blind_ts x = blind_ts y.

Definition sim_e (x y : entry) : Prop := d_name x = d_name y /\ d_id x = d_id y /\ sim_ts (d_ts x) (d_ts y).

Record sim_lk (x y : locked) : Prop := {
  sl_count : account_count x = account_count y;
  sl_conf : lconfig x = lconfig y;
  sl_details : Forall2 sim_e (details x) (details y);
}.

Lemma sim_e_blind x y : sim_e x y <-> blind_entry x = blind_entry y.
Proof.
  unfold sim_e, blind_entry, sim_ts. split; [intros (-> & -> & ->); reflexivity|intros [= A B C]; auto].
Qed.

Lemma map_eq_Forall2 {A B} (f : A -> B) (R : A -> A -> Prop) l1 l2 :
  (forall x y, R x y <-> f x = f y) -> (map f l1 = map f l2 <-> Forall2 R l1 l2).
Proof.
  intros H. revert l2. induction l1 as [|x l1 IH]; intros [|y l2]; simpl; split; intros E;
    try discriminate; try constructor; try (inversion E; fail).
  - injection E as E1 E2. apply H. exact E1.
  - injection E as E1 E2. apply IH. exact E2.
  - inversion E; subst. f_equal; [apply H|apply IH]; assumption.
Qed.

Lemma sim_lk_blind x y : sim_lk x y <-> blind_locked x = blind_locked y.
Proof.
  pose proof (map_eq_Forall2 blind_entry sim_e (details x) (details y) sim_e_blind) as M.
  unfold blind_locked. split.
  - intros [A B C]. apply M in C. congruence.
  - intros [= A B C]. constructor; [exact A|exact B|apply M; exact C].
Qed.

Lemma sim_ts_refl x : sim_ts x x.
Proof. reflexivity. Qed.

Lemma sim_lk_refl x : sim_lk x x.
Proof. apply sim_lk_blind. reflexivity. Qed.

(** What two similar token states have in common. *)
Lemma sim_ts_inv x y : sim_ts x y ->
  match x, y with
  | TSEmpty, TSEmpty => True
  | TSPending _ ln st u, TSPending _ ln' st' u' => ln = ln' /\ st = st' /\ u = u'
  | TSActive a, TSActive b =>
      obtained a = obtained b /\ expiry a = expiry b /\ ongoing a = ongoing b /\ fails a = fails b
      /\ last_attempt a = last_attempt b
      /\ match refresh_token a, refresh_token b with Some _, Some _ | None, None => True | _, _ => False end
  | _, _ => False
  end.
Proof.
  unfold sim_ts. destruct x as [|c ln st u|a], y as [|c' ln' st' u'|b]; simpl; intros E; try discriminate E.
  - exact I.
  - injection E as -> -> ->. auto.
  - unfold blind_active in E. injection E as E1 E2 E3 E4 E5 E6. repeat (split; [assumption|]).
    destruct (refresh_token a), (refresh_token b); try discriminate E3; exact I.
Qed.

Lemma sim_active a b :
  obtained a = obtained b -> expiry a = expiry b -> ongoing a = ongoing b -> fails a = fails b ->
  last_attempt a = last_attempt b ->
  match refresh_token a, refresh_token b with Some _, Some _ | None, None => True | _, _ => False end ->
  sim_ts (TSActive a) (TSActive b).
Proof.
  intros E1 E2 E3 E4 E5 E6. unfold sim_ts, blind_ts, blind_active. rewrite E1, E2, E3, E4, E5.
  destruct (refresh_token a), (refresh_token b); try contradiction; reflexivity.
Qed.

Lemma find_rel p q l1 l2 :
  Forall2 sim_e l1 l2 -> (forall x y, sim_e x y -> p x = q y) -> optrel sim_e (find p l1) (find q l2).
Proof.
  intros F PQ. induction F as [|x y l1 l2 S F IH]; simpl; [exact I|].
  rewrite (PQ _ _ S). destruct (q y); [exact S|exact IH].
Qed.

Lemma update_first_rel p q f g l1 l2 :
  Forall2 sim_e l1 l2 -> (forall x y, sim_e x y -> p x = q y) -> (forall x y, sim_e x y -> sim_e (f x) (g y)) ->
  optrel (Forall2 sim_e) (update_first p f l1) (update_first q g l2).
Proof.
  intros F PQ FG. induction F as [|x y l1 l2 S F IH]; simpl; [exact I|].
  rewrite (PQ _ _ S). destruct (q y); [constructor; auto|].
  destruct (update_first p f l1), (update_first q g l2); simpl in *; try contradiction; auto.
Qed.

Lemma same_ids l1 l2 : Forall2 sim_e l1 l2 -> map d_id l1 = map d_id l2.
Proof. induction 1 as [|x y l1 l2 (_ & S & _) F IH]; simpl; congruence. Qed.

Section Sim.
Variables (O : oracles) (l1 l2 : locked).
Hypothesis S : sim_lk l1 l2.

Lemma sim_find_id i : optrel sim_e (find_id i (details l1)) (find_id i (details l2)).
Proof. apply find_rel; [apply S|]. intros x y (_ & -> & _). reflexivity. Qed.

Lemma sim_find_name n : optrel sim_e (find_name n (details l1)) (find_name n (details l2)).
Proof. apply find_rel; [apply S|]. intros x y (-> & _). reflexivity. Qed.

Lemma sim_validate n : validate_act_name l1 n = validate_act_name l2 n.
Proof.
  unfold validate_act_name. pose proof (sim_find_name n) as X.
  destruct (find_name n (details l1)), (find_name n (details l2)); simpl in *; try contradiction; [|reflexivity].
  destruct X as (_ & -> & _). reflexivity.
Qed.

Lemma sim_valid i : is_act_id_valid l1 i = is_act_id_valid l2 i.
Proof.
  unfold is_act_id_valid. induction (sl_details _ _ S) as [|x y a b (_ & E & _) F IH]; simpl; [reflexivity|].
  rewrite E, IH. reflexivity.
Qed.

Lemma sim_act_ids : act_ids l1 = act_ids l2.
Proof. apply same_ids. apply S. Qed.

Lemma sim_state st : act_id_matching_token_state l1 st = act_id_matching_token_state l2 st.
Proof.
  unfold act_id_matching_token_state.
  match goal with |- option_map _ (find ?p ?a) = option_map _ (find ?q ?b) =>
    assert (optrel sim_e (find p a) (find q b)) as X; [apply find_rel; [apply S|]|] end.
  { intros x y (_ & _ & T). apply sim_ts_inv in T. destruct (d_ts x), (d_ts y); try contradiction; try reflexivity.
    destruct T as (_ & -> & _). reflexivity. }
  destruct (find _ (details l1)), (find _ (details l2)); simpl in *; try contradiction; [|reflexivity].
  destruct X as (_ & -> & _). reflexivity.
Qed.

Lemma sim_ct_account i : ct_account l1 i = ct_account l2 i.
Proof.
  unfold ct_account. pose proof (sim_find_id i) as X. rewrite (sl_conf _ _ S).
  destruct (find_id i (details l1)), (find_id i (details l2)); simpl in *; try contradiction; [|reflexivity].
  destruct X as (-> & _). reflexivity.
Qed.

Lemma sim_ct_tokenstate i : orel sim_ts (ct_tokenstate l1 i) (ct_tokenstate l2 i).
Proof.
  unfold ct_tokenstate. eapply orel_bind; [apply unwrap_rel, sim_find_id|]. intros x y (_ & _ & T). exact T.
Qed.

Lemma sim_replace i t1 t2 : sim_ts t1 t2 ->
  orel (fun a b => sim_lk (fst a) (fst b) /\ snd a = snd b) (tokenstate_replace l1 i t1) (tokenstate_replace l2 i t2).
Proof.
  intros T. unfold tokenstate_replace. eapply orel_bind.
  - apply unwrap_rel. apply update_first_rel; [apply S| |].
    + intros x y (_ & -> & _). reflexivity.
    + intros x y (E & _ & _). split; [exact E|]. split; [apply S|exact T].
  - intros a b F. simpl. rewrite (sl_count _ _ S). split; [|reflexivity].
    constructor; [reflexivity|apply S|exact F].
Qed.

Lemma sim_set_ongoing i b :
  orel (fun x y => sim_lk (fst x) (fst y) /\ snd x = snd y)
    (tokenstate_set_ongoing_refresh l1 i b) (tokenstate_set_ongoing_refresh l2 i b).
Proof.
  unfold tokenstate_set_ongoing_refresh. eapply orel_bind; [apply unwrap_rel, sim_find_id|].
  intros x y (_ & _ & T). apply sim_ts_inv in T. destruct (d_ts x) as [| |a1], (d_ts y) as [| |a2]; try contradiction; try exact I.
  destruct T as (E1 & E2 & _ & E4 & E5 & E6). apply sim_replace. apply sim_active; simpl; assumption || reflexivity.
Qed.

Lemma sim_expiry i now exs : expiry_instant l1 i now exs = expiry_instant l2 i now exs.
Proof. unfold expiry_instant. rewrite sim_ct_account, (sl_conf _ _ S). reflexivity. Qed.

Lemma sim_refresh_at now i : refresh_at l1 now i = refresh_at l2 now i.
Proof.
  unfold refresh_at. pose proof (sim_ct_tokenstate i) as X.
  destruct (ct_tokenstate l1 i) as [t1|m1|], (ct_tokenstate l2 i) as [t2|m2|]; simpl in X; try contradiction;
    cbn [bind]; [|congruence|reflexivity].
  apply sim_ts_inv in X. destruct t1 as [| |a1], t2 as [| |a2]; try contradiction; try reflexivity.
  destruct X as (E1 & E2 & E3 & E4 & E5 & E6). rewrite E3. destruct (ongoing a2) eqn:OG; [reflexivity|].
  rewrite sim_ct_account, (sl_conf _ _ S). destruct (ct_account l2 i) as [act|m|]; cbn [bind]; try reflexivity.
  unfold refresh_due. rewrite E1, E2, E5. rewrite ?E3, ?OG. reflexivity.
Qed.

Lemma sim_notify_at now i : notify_at l1 now i = notify_at l2 now i.
Proof.
  unfold notify_at. pose proof (sim_ct_tokenstate i) as X.
  destruct (ct_tokenstate l1 i) as [t1|m1|], (ct_tokenstate l2 i) as [t2|m2|]; simpl in X; try contradiction;
    cbn [bind]; [|congruence|reflexivity].
  apply sim_ts_inv in X. destruct t1 as [|c ln st u|a1], t2 as [|c' ln' st' u'|a2]; try contradiction; try reflexivity.
  destruct X as (-> & _). rewrite (sl_conf _ _ S). reflexivity.
Qed.

Lemma sim_collect f clk : (forall now i, f l1 now i = f l2 now i) ->
  forall ids j, collect_at f l1 clk j ids = collect_at f l2 clk j ids.
Proof. intros F. induction ids as [|i ids IH]; intros j; simpl; [reflexivity|]. rewrite F, IH. reflexivity. Qed.

Lemma sim_next_wakeup f clk : (forall now i, f l1 now i = f l2 now i) -> next_wakeup f l1 clk = next_wakeup f l2 clk.
Proof. intros F. unfold next_wakeup. rewrite sim_act_ids, (sim_collect f clk F). reflexivity. Qed.

Lemma sim_due_ids clk ids j : due_ids l1 clk j ids = due_ids l2 clk j ids.
Proof.
  revert j. induction ids as [|i ids IH]; intros j; simpl; [reflexivity|]. rewrite sim_refresh_at, IH. reflexivity.
Qed.

Lemma sim_status_lines clk ids j : status_lines O l1 clk j ids = status_lines O l2 clk j ids.
Proof.
  revert j. induction ids as [|i ids IH]; intros j; simpl; [reflexivity|].
  rewrite sim_ct_account. destruct (ct_account l2 i) as [act|m|]; cbn [bind]; try reflexivity.
  pose proof (sim_ct_tokenstate i) as X.
  destruct (ct_tokenstate l1 i) as [t1|m1|], (ct_tokenstate l2 i) as [t2|m2|]; simpl in X; try contradiction;
    cbn [bind]; [|congruence|reflexivity].
  rewrite IH. match goal with |- bind ?x _ = bind ?y _ => replace x with y; [reflexivity|symmetry] end.
  apply sim_ts_inv in X. destruct t1 as [|c ln st u|a1], t2 as [|c' ln' st' u'|a2]; try contradiction; try reflexivity.
  - destruct X as (-> & _). reflexivity.
  - destruct X as (E1 & E2 & E3 & E4 & E5 & E6). unfold status_text. rewrite E1, E2, E5. reflexivity.
Qed.

(** ** Reload *)

Lemma sim_update_details c names count :
  orel (fun a b => Forall2 sim_e (fst a) (fst b) /\ snd a = snd b)
    (update_details l1 c names count) (update_details l2 c names count).
Proof.
  revert count. induction names as [|n names IH]; intros count; simpl; [split; [constructor|reflexivity]|].
  rewrite (sl_conf _ _ S). destruct (lookup n (c_accounts (lconfig l2))) as [old|].
  - destruct (lookup n (c_accounts c)) as [new|]; [|exact I]. cbn [unwrap bind].
    destruct (secure_eq new old).
    + eapply orel_bind; [apply unwrap_rel, sim_find_name|]. intros x y X.
      eapply orel_bind; [apply IH|]. intros [a1 c1] [a2 c2] [F E]. simpl in *. auto.
    + eapply orel_bind; [apply IH|]. intros [a1 c1] [a2 c2] [F E]. simpl in *. split; [|exact E].
      constructor; [|exact F]. repeat split.
  - eapply orel_bind; [apply IH|]. intros [a1 c1] [a2 c2] [F E]. simpl in *. split; [|exact E].
    constructor; [|exact F]. repeat split.
Qed.

Lemma sim_update_conf c : orel sim_lk (update_conf l1 c) (update_conf l2 c).
Proof.
  unfold update_conf. rewrite (sl_count _ _ S). eapply orel_bind; [apply sim_update_details|].
  intros [a1 c1] [a2 c2] [F E]. simpl in *. constructor; simpl; auto.
Qed.

(** ** Restore *)

Lemma sim_candidates c d clk i : forall ds1 ds2, Forall2 sim_e ds1 ds2 ->
  restore_candidates c d clk i ds1 = restore_candidates c d clk i ds2.
Proof.
  intros ds1 ds2 F. revert i. induction F as [|x y a b (E & _ & T) F IH]; intros i; simpl; [reflexivity|].
  rewrite E, IH. destruct (lookup (d_name y) (c_accounts c)); cbn [unwrap bind]; [|reflexivity].
  destruct (restore_candidates c d clk (Datatypes.S i) b); cbn [bind]; try reflexivity.
  destruct (lookup (d_name y) (d_accounts d)) as [[ad td]|]; [|reflexivity].
  destruct (secure_restorable _ ad); [|reflexivity].
  apply sim_ts_inv in T. destruct (d_ts x), (d_ts y); try contradiction; reflexivity.
Qed.

Lemma sim_apply rs : forall ds1 ds2 count, Forall2 sim_e ds1 ds2 ->
  orel (fun a b => Forall2 sim_e (fst a) (fst b) /\ snd a = snd b)
    (restore_apply rs ds1 count) (restore_apply rs ds2 count).
Proof.
  induction rs as [|[n ts] rs IH]; intros ds1 ds2 count F; simpl; [auto|].
  eapply orel_bind.
  - apply unwrap_rel. apply update_first_rel; [exact F| |].
    + intros x y (-> & _). reflexivity.
    + intros x y (E & _). split; [exact E|]. split; reflexivity.
  - intros a b F'. apply IH. exact F'.
Qed.

Lemma sim_locked_restore bytes clk h : orel sim_lk (locked_restore l1 bytes clk h) (locked_restore l2 bytes clk h).
Proof.
  unfold locked_restore. destruct (deserialize bytes) as [d|]; [|reflexivity]. cbn [ok_or bind].
  destruct (negb _); [reflexivity|].
  rewrite (sl_conf _ _ S), (sl_count _ _ S), (sim_candidates _ _ _ _ _ _ (sl_details _ _ S)).
  destruct (restore_candidates _ d clk 0 (details l2)) as [rs|m|]; cbn [bind]; [|reflexivity|exact I].
  eapply orel_bind; [apply sim_apply; apply S|]. intros [a1 c1] [a2 c2] [F E]. simpl in *. constructor; simpl; auto.
Qed.

Lemma sim_auth_restore bytes clk h : orel sim_lk (auth_restore O l1 bytes clk h) (auth_restore O l2 bytes clk h).
Proof.
  unfold auth_restore. destruct (_ <? _)%nat; [reflexivity|].
  destruct (o_decrypt O _ _) as [d|]; [|reflexivity].
  pose proof (sim_locked_restore d clk h) as X.
  destruct (locked_restore l1 d clk h), (locked_restore l2 d clk h); simpl in X; try contradiction; simpl; auto.
Qed.

(** ** Dump: succeeds in both or fails in both *)

Definition sim_de (x y : str * (account_dump * tokenstate_dump)) : Prop :=
  fst x = fst y /\ fst (snd x) = fst (snd y)
  /\ match snd (snd x), snd (snd y) with
     | DEmpty, DEmpty => True
     | DActive _ ob ex _, DActive _ ob' ex' _ => ob = ob' /\ ex = ex'
     | _, _ => False
     end.

Lemma sim_dump_entries c clk i : forall ds1 ds2, Forall2 sim_e ds1 ds2 ->
  orel (Forall2 sim_de) (dump_entries c clk i ds1) (dump_entries c clk i ds2).
Proof.
  intros ds1 ds2 F. revert i. induction F as [|x y a b (E & _ & T) F IH]; intros i; simpl; [constructor|].
  rewrite E. destruct (lookup (d_name y) (c_accounts c)) as [act|]; cbn [unwrap bind]; [|exact I].
  eapply orel_bind; [apply IH|]. intros la lb FL. simpl. constructor; [|exact FL].
  split; [reflexivity|]. split; [reflexivity|]. simpl.
  apply sim_ts_inv in T. destruct (d_ts x), (d_ts y); try contradiction; simpl; auto.
  destruct T as (E1 & E2 & _). rewrite E1, E2. auto.
Qed.

Lemma hinsert_rel (h : str -> N) x y : sim_de x y -> forall la lb, Forall2 sim_de la lb ->
  Forall2 sim_de (hinsert (fun p => h (fst p)) x la) (hinsert (fun p => h (fst p)) y lb).
Proof.
  intros XY la lb F. induction F as [|a b la lb AB F IH]; simpl; [constructor; auto|].
  destruct XY as [XY1 XY2]. destruct AB as [AB1 AB2]. rewrite XY1, AB1.
  destruct (_ <=? _)%N; constructor; try (split; assumption); [constructor; [split; assumption|exact F]|exact IH].
Qed.

Lemma hsort_rel (h : str -> N) la lb : Forall2 sim_de la lb ->
  Forall2 sim_de (hsort (fun p => h (fst p)) la) (hsort (fun p => h (fst p)) lb).
Proof. induction 1; simpl; [constructor|apply hinsert_rel; assumption]. Qed.

Lemma enc_entries_rel la lb : Forall2 sim_de la lb -> orel (fun _ _ => True) (enc_entries la) (enc_entries lb).
Proof.
  induction 1 as [|[n [ad td]] [n' [ad' td']] la lb (E1 & E2 & E3) F IH]; simpl; [exact I|].
  simpl in *. destruct td as [|tok ob ex rt], td' as [|tok' ob' ex' rt']; try contradiction.
  - cbn [enc_tokenstate_dump bind]. eapply orel_bind; [apply IH|]. intros a b _. exact I.
  - destruct E3 as [-> ->]. cbn [enc_tokenstate_dump].
    destruct (enc_time ob') as [o|m|]; cbn [bind]; [|reflexivity|exact I].
    destruct (enc_time ex') as [x|m|]; cbn [bind]; [|reflexivity|exact I].
    eapply orel_bind; [apply IH|]. intros a b _. exact I.
Qed.

Lemma sim_auth_dump clk h nonce : cipher_uniform O ->
  orel (fun _ _ => True) (auth_dump O l1 clk h nonce) (auth_dump O l2 clk h nonce).
Proof.
  intros CU. unfold auth_dump, locked_dump.
  eapply orel_bind with (R := fun _ _ => True).
  - rewrite (sl_conf _ _ S). eapply orel_bind; [apply sim_dump_entries; apply S|].
    intros la lb F. unfold serialize. eapply orel_bind; [apply enc_entries_rel; apply (hsort_rel h); exact F|].
    intros a b _. exact I.
  - intros p1 p2 _. destruct (o_encrypt O nonce p1) eqn:E1, (o_encrypt O nonce p2) eqn:E2; try exact I; try reflexivity.
    + pose proof (CU nonce p2 p1 E2). congruence.
    + pose proof (CU nonce p1 p2 E1). congruence.
Qed.

End Sim.

(** * Critical sections *)

Definition sim_cs (O : oracles) (x y : locked * pc * list obs) : Prop :=
  let '(k1, p1, o1) := x in
  let '(k2, p2, o2) := y in
  sim_lk k1 k2 /\ blind_pc p1 = blind_pc p2 /\ hears O p1 = hears O p2 /\ map blur o1 = map blur o2.

Lemma sim_same O lk1 lk2 p os : sim_lk lk1 lk2 -> orel (sim_cs O) (Val (lk1, p, os)) (Val (lk2, p, os)).
Proof. intros S. split; [exact S|]. repeat split. Qed.

Lemma blur_pairs_refresh act r1 r2 : map blur_pair (refresh_pairs act r1) = map blur_pair (refresh_pairs act r2).
Proof. unfold refresh_pairs. rewrite !map_app. reflexivity. Qed.

Lemma blur_pairs_code act c v1 v2 u : map blur_pair (code_pairs act c v1 u) = map blur_pair (code_pairs act c v2 u).
Proof. unfold code_pairs. rewrite !map_app. reflexivity. Qed.

Ltac pairs := repeat match goal with
  | X : (sim_lk _ _ /\ _ = _) |- _ => destruct X
  end; cbn [fst snd] in *; subst.

Section CS.
Variables (O : oracles) (e1 e2 : env) (l1 l2 : locked).
Hypothesis A : alike O e1 e2.
Hypothesis S : sim_lk l1 l2.

Lemma same_now : env_now e1 = env_now e2.
Proof. unfold env_now. rewrite (al_clk _ _ _ A). reflexivity. Qed.

Lemma sim_ref_start i : orel (sim_cs O) (ref_start e1 l1 i) (ref_start e2 l2 i).
Proof.
  unfold ref_start. rewrite same_now. rewrite (sim_valid _ _ S). destruct (is_act_id_valid l2 i); [|apply sim_same; exact S].
  eapply orel_bind; [apply (sim_ct_tokenstate _ _ S)|]. intros t1 t2 T. apply sim_ts_inv in T.
  destruct t1 as [| |a1], t2 as [| |a2]; try contradiction; try (apply sim_same; exact S).
  destruct T as (E1 & E2 & E3 & E4 & E5 & E6). rewrite E3. destruct (ongoing a2); [apply sim_same; exact S|].
  eapply orel_bind; [apply (sim_replace _ _ S); apply sim_active; simpl; assumption || reflexivity|].
  intros [k1 i1] [k2 i2] X. pairs. rename H into S1.
  rewrite (sim_ct_account _ _ S1). destruct (ct_account k2 i2) as [act1|m|]; cbn [bind]; [|reflexivity|exact I].
  eapply orel_bind; [apply (sim_ct_tokenstate _ _ S1)|]. intros t1 t2 T. apply sim_ts_inv in T.
  destruct t1 as [| |b1], t2 as [| |b2]; try contradiction; try exact I.
  destruct T as (F1 & F2 & F3 & F4 & F5 & F6).
  destruct (refresh_token b1) as [r1|] eqn:R1, (refresh_token b2) as [r2|] eqn:R2; try contradiction.
  - eapply orel_bind.
    { apply (sim_replace _ _ S1). apply sim_active; simpl; try assumption; try reflexivity. rewrite R1, R2. exact I. }
    intros [k1' i1'] [k2' i2'] X. pairs. rename H into S2.
    rewrite (sim_ct_account _ _ S2). destruct (ct_account k2' i2') as [act|m|]; cbn [bind]; [|reflexivity|exact I].
    split; [exact S2|]. split; [|split; reflexivity]. cbn [blind_pc]. rewrite (blur_pairs_refresh act r1 r2). reflexivity.
  - eapply orel_bind; [apply (sim_replace _ _ S1), sim_ts_refl|].
    intros [k1' i1'] [k2' i2'] X. pairs. apply sim_same. assumption.
Qed.

Lemma sim_ref_perm i n : orel (sim_cs O) (ref_perm l1 i n) (ref_perm l2 i n).
Proof.
  unfold ref_perm. rewrite (sim_valid _ _ S). destruct (is_act_id_valid l2 i); [|apply sim_same; exact S].
  eapply orel_bind; [apply (sim_replace _ _ S), sim_ts_refl|]. intros [k1 i1] [k2 i2] X. pairs. rename H into S1.
  rewrite (sim_ct_account _ _ S1). destruct (ct_account k2 i2) as [act1|m|]; cbn [bind]; [|reflexivity|exact I].
  apply sim_same. exact S1.
Qed.

Lemma sim_ref_got i n tok1 tok2 exs rt1 rt2 now :
  match rt1, rt2 with Some _, Some _ | None, None => True | _, _ => False end ->
  orel (sim_cs O) (ref_got l1 i n tok1 exs rt1 now) (ref_got l2 i n tok2 exs rt2 now).
Proof.
  intros RT. unfold ref_got. rewrite (sim_valid _ _ S). destruct (is_act_id_valid l2 i); [|apply sim_same; exact S].
  rewrite (sim_expiry _ _ S). destruct (expiry_instant l2 i now exs) as [ex|m|]; [| |exact I].
  - eapply orel_bind; [apply (sim_replace _ _ S); apply sim_active; simpl; try reflexivity; destruct rt1, rt2; exact RT|].
    intros [k1 i1] [k2 i2] X. pairs. apply sim_same. assumption.
  - eapply orel_bind; [apply (sim_replace _ _ S), sim_ts_refl|]. intros [k1 i1] [k2 i2] X. pairs. apply sim_same. assumption.
Qed.

Lemma sim_ref_transient i n : orel (sim_cs O) (ref_transient e1 l1 i n) (ref_transient e2 l2 i n).
Proof.
  unfold ref_transient. rewrite same_now. rewrite (sim_valid _ _ S). destruct (is_act_id_valid l2 i); [|apply sim_same; exact S].
  eapply orel_bind; [apply (sim_ct_tokenstate _ _ S)|]. intros t1 t2 T. apply sim_ts_inv in T.
  destruct t1 as [| |a1], t2 as [| |a2]; try contradiction; try exact I.
  destruct T as (E1 & E2 & E3 & E4 & E5 & E6). cbv zeta. rewrite E4.
  eapply orel_bind; [apply (sim_replace _ _ S); apply sim_active; simpl; assumption || reflexivity|].
  intros [k1 i1] [k2 i2] X. pairs. rename H into S1. rewrite (sl_conf _ _ S1).
  destruct (_ =? 0)%N; [destruct (c_transient_error_if_cmd (lconfig k2)); [apply sim_same; exact S1|]|];
    (eapply orel_bind; [apply (sim_set_ongoing _ _ S1)|]; intros [k1' i1'] [k2' i2'] X; pairs; apply sim_same; assumption).
Qed.

Lemma sim_ref_cmd_done i n ok : orel (sim_cs O) (ref_cmd_done l1 i n ok) (ref_cmd_done l2 i n ok).
Proof.
  unfold ref_cmd_done. rewrite (sim_valid _ _ S).
  destruct ok; (destruct (is_act_id_valid l2 i); [|apply sim_same; exact S]).
  - eapply orel_bind; [apply (sim_set_ongoing _ _ S)|]; intros [k1' i1'] [k2' i2'] X; pairs; apply sim_same; assumption.
  - eapply orel_bind; [apply (sim_replace _ _ S), sim_ts_refl|]; intros [k1' i1'] [k2' i2'] X; pairs; apply sim_same; assumption.
Qed.

Lemma sim_http_body i b1 b2 : shape O b1 = shape O b2 ->
  orel (sim_cs O) (http_body O e1 l1 i b1) (http_body O e2 l2 i b2).
Proof.
  unfold shape, http_body. destruct (o_json O b1) as [v1|m1], (o_json O b2) as [v2|m2]; intros E; try discriminate E.
  2:{ injection E as <-. apply sim_same; exact S. }
  injection E as EE ET EX EA ER.
  rewrite (sim_valid _ _ S). destruct (is_act_id_valid l2 i); [|apply sim_same; exact S].
  rewrite EE, ET, EX. destruct (json_str $"error" v2); [apply sim_same; exact S|].
  destruct (json_str $"token_type" v2) as [ty|]; [|apply sim_same; exact S].
  destruct (json_u64 $"expires_in" v2) as [exs|]; [|apply sim_same; exact S].
  destruct (json_str $"access_token" v1) as [tok1|], (json_str $"access_token" v2) as [tok2|]; try discriminate EA;
    [|apply sim_same; exact S].
  destruct (str_eqb ty $"Bearer"); [|apply sim_same; exact S]. cbv zeta. rewrite same_now.
  rewrite (sim_expiry _ _ S). destruct (expiry_instant l2 i (env_now e2) exs) as [ex|m|]; cbn [bind]; [|reflexivity|exact I].
  rewrite (sim_ct_account _ _ S). destruct (ct_account l2 i) as [act|m|]; cbn [bind]; [|reflexivity|exact I].
  eapply orel_bind; [apply (sim_replace _ _ S)|]; [|intros [k1' i1'] [k2' i2'] X; pairs; apply sim_same; assumption].
  apply sim_active; try reflexivity. cbn [refresh_token]. unfold json_str.
  destruct (json_get $"refresh_token" v1) as [[]|], (json_get $"refresh_token" v2) as [[]|]; try discriminate ER; exact I.
Qed.

Lemma sim_http_fail i msg : orel (sim_cs O) (http_fail l1 i msg) (http_fail l2 i msg).
Proof.
  unfold http_fail. rewrite (sim_valid _ _ S). destruct (is_act_id_valid l2 i); [|apply sim_same; exact S].
  eapply orel_bind; [apply (sim_ct_tokenstate _ _ S)|]. intros t1 t2 T. cbv zeta.
  assert (match t1 with TSActive _ => true | _ => false end = match t2 with TSActive _ => true | _ => false end) as ->.
  { apply sim_ts_inv in T. destruct t1, t2; try contradiction; reflexivity. }
  eapply orel_bind; [apply (sim_replace _ _ S), sim_ts_refl|]. intros [k1 i1] [k2 i2] X. pairs. rename H into S1.
  rewrite (sim_ct_account _ _ S1). destruct (ct_account k2 i2) as [act1|m|]; cbn [bind]; [|reflexivity|exact I].
  apply sim_same. exact S1.
Qed.

Lemma sim_http_notify n msg wa : orel (sim_cs O) (http_notify l1 n msg wa) (http_notify l2 n msg wa).
Proof.
  unfold http_notify. rewrite (sl_conf _ _ S). destruct (c_error_notify_cmd (lconfig l2)); apply sim_same; exact S.
Qed.

Lemma sim_request_token hp hsp i :
  orel (fun a b => sim_lk (fst a) (fst b) /\ snd a = snd b)
    (request_token O e1 hp hsp l1 i) (request_token O e2 hp hsp l2 i).
Proof.
  unfold request_token. eapply orel_bind; [apply (sim_ct_tokenstate _ _ S)|]. intros t1 t2 T. apply sim_ts_inv in T.
  destruct t1, t2; try contradiction; try exact I;
    (cbv zeta; rewrite (sim_ct_account _ _ S), (al_state _ _ _ A), (al_verifier _ _ _ A);
     eapply orel_bind; [apply orel_eq|]; intros act ? <-;
     eapply orel_bind; [apply orel_eq|]; intros ru ? <-;
     eapply orel_bind; [apply orel_eq|]; intros base ? <-;
     eapply orel_bind; [apply (sim_replace _ _ S); reflexivity|]; intros [k1 i1] [k2 i2] X; pairs;
     split; [assumption|reflexivity]).
Qed.

Lemma sim_notify_scan now ids : forall k1 k2, sim_lk k1 k2 ->
  orel (fun a b => sim_lk (fst a) (fst b) /\ snd a = snd b) (notify_scan k1 now ids) (notify_scan k2 now ids).
Proof.
  induction ids as [|i ids IH]; intros k1 k2 K; simpl; [auto|].
  eapply orel_bind; [apply (sim_ct_tokenstate _ _ K)|]. intros t1 t2 T. apply sim_ts_inv in T.
  destruct t1 as [|c ln st u|a], t2 as [|c' ln' st' u'|a']; try contradiction; try (apply IH; exact K).
  destruct T as (-> & -> & ->). rewrite (sl_conf _ _ K).
  match goal with |- context [if ?b then _ else _] => destruct b end; [apply IH; exact K|].
  rewrite (sim_ct_account _ _ K). destruct (ct_account k2 i) as [act|m|]; cbn [bind]; [|reflexivity|exact I].
  eapply orel_bind; [apply (sim_replace _ _ K); reflexivity|]. intros [x1 i1] [x2 i2] X. pairs.
  eapply orel_bind; [apply IH; assumption|]. intros [y1 z1] [y2 z2] Y. pairs. split; [assumption|reflexivity].
Qed.

Lemma sim_nt_scan : orel (sim_cs O) (nt_scan e1 l1) (nt_scan e2 l2).
Proof.
  unfold nt_scan. rewrite same_now, ?(al_idhash _ _ _ A). rewrite (sim_act_ids _ _ S). eapply orel_bind; [apply sim_notify_scan; exact S|].
  intros [k1 c1] [k2 c2] X. pairs. apply sim_same. assumption.
Qed.

Lemma sim_rf_scan : orel (sim_cs O) (rf_scan e1 l1) (rf_scan e2 l2).
Proof.
  unfold rf_scan. rewrite (al_clk _ _ _ A), ?(al_idhash _ _ _ A). rewrite (sim_act_ids _ _ S), (sim_due_ids _ _ S).
  eapply orel_bind; [apply orel_eq|]. intros ids ? <-. apply sim_same. exact S.
Qed.

End CS.

(** ** Requests *)

Record sim_w (O : oracles) (x y : world) : Prop := {
  sw_lk : sim_lk (w_lk x) (w_lk y);
  sw_http : w_http x = w_http y;
  sw_https : w_https x = w_https y;
  sw_pubkey : w_pubkey x = w_pubkey y;
  sw_evq : w_evq x = w_evq y;
  sw_ev : w_ev x = w_ev y;
  sw_nt : w_nt x = w_nt y;
  sw_rf : w_rf x = w_rf y;
  sw_threads : map blind_pc (w_threads x) = map blind_pc (w_threads y);
  sw_hears : map (hears O) (w_threads x) = map (hears O) (w_threads y);
  sw_alive : w_alive x = w_alive y;
  sw_trace : map blur (w_trace x) = map blur (w_trace y);
}.

Lemma sim_w_iff O x y : sim_w O x y <-> same_but_secrets O x y.
Proof.
  unfold same_but_secrets, blind. split.
  - intros [A B C D E F G H I J K L]. apply sim_lk_blind in A. split; [congruence|exact J].
  - intros [X Y]. injection X as A B C D E F G H I J K. constructor; try assumption.
    apply sim_lk_blind. unfold blind_locked. congruence.
Qed.

Section Requests.
Variables (O : oracles) (e1 e2 : env) (w1 w2 : world).
Hypothesis A : alike O e1 e2.
Hypothesis W : sim_w O w1 w2.
Hypothesis CU : cipher_uniform O.

Let S : sim_lk (w_lk w1) (w_lk w2) := sw_lk _ _ _ W.

Lemma sim_request_and_reply req wu n i :
  orel (sim_cs O) (request_and_reply O e1 w1 req wu n i) (request_and_reply O e2 w2 req wu n i).
Proof.
  unfold request_and_reply. rewrite (sw_http _ _ _ W), (sw_https _ _ _ W).
  eapply orel_bind; [apply (sim_request_token _ _ _ _ _ A S)|]. intros [k1 u1] [k2 u2] X. pairs. apply sim_same. assumption.
Qed.

Lemma sim_req_refresh req rest : orel (sim_cs O) (req_refresh O e1 w1 req rest) (req_refresh O e2 w2 req rest).
Proof.
  unfold req_refresh. eapply orel_bind; [apply orel_eq|]. intros r ? <-.
  destruct (split_first " "%char r) as [[wu n]|]; [|reflexivity].
  rewrite (sim_validate _ _ S). destruct (validate_act_name (w_lk w2) n) as [i|]; [|apply sim_same; exact S].
  eapply orel_bind; [apply (sim_ct_tokenstate _ _ S)|]. intros t1 t2 T. apply sim_ts_inv in T.
  destruct t1, t2; try contradiction; try apply sim_request_and_reply. apply sim_same. exact S.
Qed.

Lemma starts_app p s : starts_with p (p ++ s) = true.
Proof. induction p as [|c p IH]; simpl; [reflexivity|]. rewrite Ascii.eqb_refl. exact IH. Qed.

Lemma sim_req_showtoken rest :
  orel (sim_cs O) (req_showtoken O e1 w1 ($"showtoken:" ++ rest) rest) (req_showtoken O e2 w2 ($"showtoken:" ++ rest) rest).
Proof.
  unfold req_showtoken. eapply orel_bind; [apply orel_eq|]. intros r ? <-.
  destruct (split_first " "%char r) as [[wu n]|]; [|reflexivity].
  rewrite (sim_validate _ _ S). destruct (validate_act_name (w_lk w2) n) as [i|]; [|apply sim_same; exact S].
  eapply orel_bind; [apply (sim_ct_tokenstate _ _ S)|]. intros t1 t2 T. apply sim_ts_inv in T.
  destruct t1 as [|c ln st u|a], t2 as [|c' ln' st' u'|a']; try contradiction; try apply sim_request_and_reply.
  - destruct T as (_ & _ & ->). apply sim_same. exact S.
  - destruct T as (E1 & E2 & E3 & E4 & E5 & E6). rewrite E2, E3, (same_now O e1 e2 A).
    destruct (env_now e2 <? expiry a')%Z; [|destruct (ongoing a'); apply sim_same; exact S].
    split; [exact S|]. split; [|split; reflexivity]. unfold reply. cbn [blind_pc blind_action blur].
    assert (str_eqb ($"showtoken:" ++ rest) $"dump:" = false) as -> by reflexivity.
    rewrite !starts_app. reflexivity.
Qed.

Lemma sim_req_revoke req rest : orel (sim_cs O) (req_revoke w1 req rest) (req_revoke w2 req rest).
Proof.
  unfold req_revoke. eapply orel_bind; [apply orel_eq|]. intros r ? <-.
  rewrite (sim_validate _ _ S). destruct (validate_act_name (w_lk w2) r) as [i|]; [|apply sim_same; exact S].
  eapply orel_bind; [apply (sim_replace _ _ S), sim_ts_refl|]. intros [k1 i1] [k2 i2] X. pairs. apply sim_same. assumption.
Qed.

Lemma sim_req_reload req : orel (sim_cs O) (req_reload O e1 w1 req) (req_reload O e2 w2 req).
Proof.
  unfold req_reload.
  assert (config_from_path O e1 = config_from_path O e2) as -> by (unfold config_from_path; rewrite (al_file _ _ _ A), (al_hash _ _ _ A); reflexivity).
  destruct (config_from_path O e2) as [c|m|]; [|apply sim_same; exact S|exact I].
  eapply orel_bind; [apply (sim_update_conf _ _ S)|]. intros k1 k2 K. apply sim_same. exact K.
Qed.

Lemma sim_req_restore req rest : orel (sim_cs O) (req_restore O e1 w1 req rest) (req_restore O e2 w2 req rest).
Proof.
  unfold req_restore. rewrite (al_clk _ _ _ A), (al_hash _ _ _ A).
  pose proof (sim_auth_restore O _ _ S rest (e_clk e2) (e_hash e2)) as X.
  destruct (auth_restore O (w_lk w1) rest (e_clk e2) (e_hash e2)) as [k1|m1|],
    (auth_restore O (w_lk w2) rest (e_clk e2) (e_hash e2)) as [k2|m2|]; simpl in X; try contradiction.
  - apply sim_same. exact X.
  - subst m2. apply sim_same. exact S.
  - exact I.
Qed.

Lemma sim_req_status req : orel (sim_cs O) (req_status O e1 w1 req) (req_status O e2 w2 req).
Proof.
  unfold req_status. rewrite (al_clk _ _ _ A), ?(al_idhash _ _ _ A). rewrite (sim_act_ids _ _ S), (sim_status_lines O _ _ S).
  eapply orel_bind; [apply orel_eq|]. intros l ? <-. apply sim_same. exact S.
Qed.

Lemma sim_dispatch cmd rest :
  orel (sim_cs O) (dispatch O e1 w1 (cmd ++ $":" ++ rest) cmd rest) (dispatch O e2 w2 (cmd ++ $":" ++ rest) cmd rest).
Proof.
  unfold dispatch.
  destruct (str_eqb cmd $"dump" && match rest with [] => true | _ => false end) eqn:C1.
  { apply andb_true_iff in C1 as [C1 C2]. apply str_eqb_eq in C1. subst cmd. destruct rest; [|discriminate].
    rewrite (al_clk _ _ _ A), (al_hash _ _ _ A), (al_nonce _ _ _ A).
    eapply orel_bind; [apply (sim_auth_dump O _ _ S _ _ _ CU)|]. intros d1 d2 _.
    split; [exact S|]. repeat split. }
  destruct (str_eqb cmd $"info" && _); [|destruct (str_eqb cmd $"reload" && _); [|destruct (str_eqb cmd $"refresh");
    [|destruct (str_eqb cmd $"restore"); [|destruct (str_eqb cmd $"revoke"); [|destruct (str_eqb cmd $"showtoken") eqn:SH;
    [|destruct (str_eqb cmd $"shutdown" && _); [|destruct (str_eqb cmd $"status" && _)]]]]]]].
  - assert (info_reply w1 = info_reply w2) as ->.
    { unfold info_reply. rewrite (sw_http _ _ _ W), (sw_https _ _ _ W), (sw_pubkey _ _ _ W). reflexivity. }
    apply sim_same. exact S.
  - apply sim_req_reload.
  - apply sim_req_refresh.
  - apply sim_req_restore.
  - apply sim_req_revoke.
  - apply str_eqb_eq in SH. subst cmd. apply (sim_req_showtoken rest).
  - apply sim_same. exact S.
  - apply sim_req_status.
  - apply sim_same. exact S.
Qed.

Lemma split_first_app c s a b : split_first c s = Some (a, b) -> s = a ++ [c] ++ b.
Proof.
  revert a. induction s as [|x s IH]; intros a; simpl; [discriminate|].
  destruct (Ascii.eqb_spec x c) as [->|NE]; [intros [= <- <-]; reflexivity|].
  destruct (split_first c s) as [[a0 b0]|]; [|discriminate]. intros [= <- <-]. simpl. f_equal. apply IH. reflexivity.
Qed.

Lemma sim_request req : orel (sim_cs O) (request O e1 w1 req) (request O e2 w2 req).
Proof.
  unfold request. destruct (split_first ":"%char req) as [[cmd rest]|] eqn:SF; [|reflexivity].
  apply split_first_app in SF. subst req.
  unfold from_utf8. destruct (utf8_valid cmd); cbn [bind]; [|reflexivity]. apply sim_dispatch.
Qed.

Lemma sim_http_start https bytes : orel (sim_cs O) (http_start O w1 https bytes) (http_start O w2 https bytes).
Proof.
  unfold http_start. destruct (parse_get O https bytes) as [uri|]; [|apply sim_same; exact S].
  destruct (find_pair $"state" (query_pairs uri)) as [st|]; [|apply sim_same; exact S].
  rewrite (sim_state _ _ S). destruct (act_id_matching_token_state (w_lk w2) st) as [i|]; [|apply sim_same; exact S].
  rewrite (sim_ct_account _ _ S), (sw_http _ _ _ W), (sw_https _ _ _ W).
  destruct (ct_account (w_lk w2) i) as [act|m|]; cbn [bind]; [|reflexivity|exact I].
  destruct (account_redirect_uri O act (w_http w2) (w_https w2)) as [ru|m|]; cbn [bind]; [|reflexivity|exact I].
  destruct (negb _); [apply sim_same; exact S|].
  destruct (find_pair $"error" (query_pairs uri)) as [reason|].
  - eapply orel_bind; [apply (sim_replace _ _ S), sim_ts_refl|]. intros [k1 i1] [k2 i2] X. pairs. rename H into S1.
    rewrite (sim_ct_account _ _ S1). destruct (ct_account k2 i2) as [act1|m|]; cbn [bind]; [|reflexivity|exact I].
    apply sim_same. exact S1.
  - destruct (find_pair $"code" (query_pairs uri)) as [code|]; [|apply sim_same; exact S].
    eapply orel_bind; [apply (sim_ct_tokenstate _ _ S)|]. intros t1 t2 T. apply sim_ts_inv in T.
    destruct t1 as [|c ln st' u|a], t2 as [|c' ln' st'' u'|a']; try contradiction; try exact I.
    split; [exact S|]. split; [|split; reflexivity]. cbn [blind_pc respond blind_action].
    rewrite (blur_pairs_code act code c c'). reflexivity.
Qed.

End Requests.

(** * Steps *)

Definition sim_res (O : oracles) (x y : sres) : Prop :=
  match x, y with
  | SNext a, SNext b => sim_w O a b
  | SStuck, SStuck | SPanic, SPanic => True
  | _, _ => False
  end.

Lemma map_list_set {A B} (f : A -> B) i x l : map f (list_set i x l) = list_set i (f x) (map f l).
Proof. revert i. induction l as [|y l IH]; intros [|i]; simpl; try reflexivity. rewrite IH. reflexivity. Qed.

Lemma sim_set_thread O x y tid p q :
  sim_w O x y -> blind_pc p = blind_pc q -> hears O p = hears O q -> sim_w O (set_thread x tid p) (set_thread y tid q).
Proof.
  intros [A B C D E F G H I J K L] P Q.
  constructor; simpl; try assumption; rewrite !map_list_set; congruence.
Qed.

Lemma sim_emit O x y o1 o2 : sim_w O x y -> map blur o1 = map blur o2 -> sim_w O (emit x o1) (emit y o2).
Proof. intros [A B C D E F G H I J K L] P. constructor; simpl; try assumption. rewrite !map_app; congruence. Qed.

Lemma sim_set_lk O x y k1 k2 : sim_w O x y -> sim_lk k1 k2 -> sim_w O (set_lk x k1) (set_lk y k2).
Proof. intros [A B C D E F G H I J K L] P. constructor; simpl; assumption. Qed.

Lemma sim_set_ev O x y c : sim_w O x y -> sim_w O (set_ev x c) (set_ev y c).
Proof. intros [A B C D E F G H I J K L]. constructor; simpl; assumption || reflexivity. Qed.
Lemma sim_set_nt O x y c : sim_w O x y -> sim_w O (set_nt x c) (set_nt y c).
Proof. intros [A B C D E F G H I J K L]. constructor; simpl; assumption || reflexivity. Qed.
Lemma sim_set_rf O x y c : sim_w O x y -> sim_w O (set_rf x c) (set_rf y c).
Proof. intros [A B C D E F G H I J K L]. constructor; simpl; assumption || reflexivity. Qed.
Lemma sim_set_evq O x y q : sim_w O x y -> sim_w O (set_evq x q) (set_evq y q).
Proof. intros [A B C D E F G H I J K L]. constructor; simpl; assumption || reflexivity. Qed.
Lemma sim_add_thread O x y p q :
  sim_w O x y -> blind_pc p = blind_pc q -> hears O p = hears O q -> sim_w O (add_thread x p) (add_thread y q).
Proof.
  intros [A B C D E F G H I J K L] P Q. constructor; simpl; try assumption; rewrite !map_app; simpl; congruence.
Qed.
Lemma sim_halt O x y : sim_w O x y -> sim_w O (halt x) (halt y).
Proof. intros [A B C D E F G H I J K L]. constructor; simpl; try assumption; try reflexivity. rewrite !map_app; congruence. Qed.

Lemma sim_do_action O x y a b : sim_w O x y -> blind_action a = blind_action b -> sim_w O (do_action x a) (do_action y b).
Proof.
  intros W E. destruct a, b; cbn [blind_action] in E; try discriminate E; cbn [do_action].
  - apply sim_set_nt. exact W.
  - apply sim_set_rf. exact W.
  - injection E as -> ->. apply sim_emit; [|reflexivity]. rewrite (sw_evq _ _ _ W). apply sim_set_evq. exact W.
  - apply sim_set_ev. exact W.
  - injection E as ->. apply sim_add_thread; [exact W|reflexivity|reflexivity].
  - injection E as E. apply sim_emit; [exact W|]. simpl. congruence.
  - apply sim_halt. exact W.
Qed.

Lemma sim_run_cs O x y tid f1 c1 c2 :
  sim_w O x y -> orel (sim_cs O) c1 c2 -> sim_res O (run_cs x tid f1 c1) (run_cs y tid f1 c2).
Proof.
  intros W C. destruct c1 as [[[k1 p1] o1]|m1|], c2 as [[[k2 p2] o2]|m2|]; simpl in C; try contradiction; simpl.
  - destruct C as (K & P & Q & E). apply sim_emit; [|exact E]. apply sim_set_thread; [|exact P|exact Q]. apply sim_set_lk; assumption.
  - apply sim_set_thread; [exact W|reflexivity|reflexivity].
  - exact I.
Qed.

Definition blind_post (r : post_result) : post_result := match r with PRBody _ => PRBody [] | _ => r end.

Lemma alike_posts O e1 e2 : alike O e1 e2 ->
  blind_post (e_post e1) = blind_post (e_post e2)
  /\ match e_post e1, e_post e2 with
     | PRBody b1, PRBody b2 => shape O b1 = shape O b2
     | r1, r2 => r1 = r2
     end.
Proof.
  intros A. destruct (al_post _ _ _ A) as [->|(b1 & b2 & -> & -> & E)].
  - split; [reflexivity|]. destruct (e_post e2); reflexivity.
  - split; [reflexivity|exact E].
Qed.

Lemma sim_step_thread O x y tid p q e1 e2 :
  cipher_uniform O -> alike O e1 e2 -> sim_w O x y -> blind_pc p = blind_pc q -> hears O p = hears O q ->
  sim_res O (step_thread O x tid p e1) (step_thread O y tid q e2).
Proof.
  intros CU A W P Q. pose proof (sw_lk _ _ _ W) as S.
  assert (forall a, sim_w O (set_thread x tid a) (set_thread y tid a)) as ST
    by (intros a; apply sim_set_thread; [exact W|reflexivity|reflexivity]).
  destruct (alike_posts _ _ _ A) as [BP SP].
  destruct p, q; cbn [blind_pc] in P; try discriminate P; cbn [step_thread];
    try (injection P; intros; subst).
  - exact I.
  - apply sim_do_action; [|assumption]. apply sim_set_thread; assumption.
  - rewrite (al_client _ _ _ A). destruct (e_client e2) as [req|]; [|exact I].
    apply sim_run_cs; [apply sim_emit; [exact W|reflexivity]|]. apply sim_request; assumption.
  - apply sim_run_cs; [exact W|]. apply sim_ref_start; assumption.
  - match goal with E : map blur_pair _ = map blur_pair _ |- _ => rename E into EP end.
    apply sim_emit; [|simpl; unfold blind_post in BP; rewrite EP, BP; reflexivity].
    destruct (e_post e1), (e_post e2); try discriminate BP; try (injection SP; intros; subst); cbn [ref_post_next];
      apply sim_set_thread; try exact W; try reflexivity. simpl. congruence.
  - unfold ref_body_next. cbn [hears] in Q. injection Q as Q. unfold shape in Q. rewrite (same_now O e1 e2 A).
    destruct (o_json O body) as [v1|m1], (o_json O body0) as [v2|m2]; try discriminate Q.
    2:{ injection Q as <-. apply ST. }
    injection Q as EE ET EX EA ER. rewrite EE, ET, EX. destruct (json_str $"error" v2); [apply ST|].
    destruct (json_str $"access_token" v1) as [tok1|], (json_str $"access_token" v2) as [tok2|]; try discriminate EA;
      [|apply ST].
    destruct (json_u64 $"expires_in" v2); [|apply ST].
    destruct (json_str $"token_type" v2) as [ty|]; [|apply ST]. destruct (str_eqb ty $"Bearer"); [|apply ST].
    apply sim_set_thread; [exact W| |reflexivity]. cbn [blind_pc].
    destruct (json_get $"refresh_token" v1) as [[]|], (json_get $"refresh_token" v2) as [[]|]; try discriminate ER; reflexivity.
  - apply sim_run_cs; [exact W|]. apply sim_ref_got; [exact S|]. destruct rtok, rtok0; try discriminate; exact I.
  - apply sim_run_cs; [exact W|]. apply sim_ref_perm. exact S.
  - apply sim_run_cs; [exact W|]. apply sim_ref_transient; assumption.
  - rewrite (al_cmd _ _ _ A). apply sim_emit; [apply ST|reflexivity].
  - apply sim_run_cs; [exact W|]. apply sim_ref_cmd_done. exact S.
  - apply sim_run_cs; [exact W|]. apply sim_http_start. exact W.
  - match goal with E : map blur_pair _ = map blur_pair _ |- _ => rename E into EP end.
    apply sim_emit; [|simpl; unfold blind_post in BP; rewrite EP, BP; reflexivity].
    destruct (e_post e1), (e_post e2); try discriminate BP; try (injection SP; intros; subst); cbn [http_post_next];
      try (apply sim_set_thread; try exact W; try reflexivity; simpl; congruence).
    match goal with |- context [match ?t with _ => _ end] => destruct t as [|[|n]] end; apply sim_set_thread; try exact W; try reflexivity.
    cbn [blind_pc]. rewrite EP. reflexivity.
  - apply sim_run_cs; [exact W|]. apply sim_http_body; [assumption..|]. cbn [hears] in Q. congruence.
  - apply sim_run_cs; [exact W|]. apply sim_http_fail. exact S.
  - apply sim_run_cs; [exact W|]. apply sim_http_notify. exact S.
  - rewrite (sw_ev _ _ _ W). destruct (cv_pred (w_ev y)); apply sim_set_ev, ST.
  - rewrite (sw_ev _ _ _ W), (al_wake _ _ _ A). destruct (negb _ || _); [apply sim_set_ev, ST|exact I].
  - rewrite (sw_evq _ _ _ W). destruct (w_evq y) as [|[n ev] q]; [apply ST|apply sim_set_evq, ST].
  - rewrite (sl_conf _ _ S). destruct (c_token_event_cmd (lconfig (w_lk y))); apply ST.
  - apply sim_emit; [apply ST|reflexivity].
  - apply sim_emit; [apply ST|reflexivity].
  - rewrite (al_clk _ _ _ A), (sim_next_wakeup _ _ S notify_at) by (intros; apply sim_notify_at; exact S).
    destruct (next_wakeup notify_at (w_lk y) (e_clk e2)); [apply ST|exact I|exact I].
  - rewrite (sw_nt _ _ _ W). unfold wait_or_go. rewrite (same_now O e1 e2 A).
    destruct (cv_pred (w_nt y) || _); apply sim_set_nt, ST.
  - rewrite (sw_nt _ _ _ W), (al_wake _ _ _ A). destruct (negb _ || _); [apply sim_set_nt, ST|exact I].
  - apply sim_run_cs; [exact W|]. apply sim_nt_scan; assumption.
  - rewrite (al_clk _ _ _ A), (sim_next_wakeup _ _ S refresh_at) by (intros; apply sim_refresh_at; exact S).
    destruct (next_wakeup refresh_at (w_lk y) (e_clk e2)); [apply ST|exact I|exact I].
  - rewrite (sw_rf _ _ _ W). unfold wait_or_go. rewrite (same_now O e1 e2 A).
    destruct (cv_pred (w_rf y) || _); apply sim_set_rf, ST.
  - rewrite (sw_rf _ _ _ W), (al_wake _ _ _ A). destruct (negb _ || _); [apply sim_set_rf, ST|exact I].
  - apply sim_run_cs; [exact W|]. apply sim_rf_scan; assumption.
Qed.

Lemma sim_step O x y l1 l2 : cipher_uniform O -> alike_label O l1 l2 -> sim_w O x y -> sim_res O (step O x l1) (step O y l2).
Proof.
  intros CU A W. unfold step. rewrite (sw_alive _ _ _ W). destruct (negb (w_alive y)); [exact I|].
  destruct A as [tid e1 e2 A|https bytes].
  - assert (option_map blind_pc (nth_error (w_threads x) tid) = option_map blind_pc (nth_error (w_threads y) tid)) as T
      by (rewrite <- !nth_error_map, (sw_threads _ _ _ W); reflexivity).
    assert (option_map (hears O) (nth_error (w_threads x) tid) = option_map (hears O) (nth_error (w_threads y) tid)) as H
      by (rewrite <- !nth_error_map, (sw_hears _ _ _ W); reflexivity).
    destruct (nth_error (w_threads x) tid) as [p|], (nth_error (w_threads y) tid) as [q|]; simpl in T, H; try discriminate T;
      [|exact I].
    injection T as T. injection H as H. apply sim_step_thread; assumption.
  - rewrite (sw_http _ _ _ W), (sw_https _ _ _ W). destruct (is_some _); [|exact I].
    apply sim_emit; [|reflexivity]. apply sim_add_thread; [exact W|reflexivity|reflexivity].
Qed.

Lemma secrets_step O w1 w2 l1 l2 w1' :
  cipher_uniform O -> same_but_secrets O w1 w2 -> alike_label O l1 l2 -> step O w1 l1 = SNext w1' ->
  exists w2', step O w2 l2 = SNext w2' /\ same_but_secrets O w1' w2'.
Proof.
  intros CU W A E. apply sim_w_iff in W. pose proof (sim_step O w1 w2 l1 l2 CU A W) as X. rewrite E in X.
  destruct (step O w2 l2) as [| |w2']; try contradiction. exists w2'. split; [reflexivity|]. apply sim_w_iff. exact X.
Qed.

Lemma secrets_run O ls1 ls2 : Forall2 (alike_label O) ls1 ls2 -> forall w1 w2 w1',
  cipher_uniform O -> same_but_secrets O w1 w2 -> run O w1 ls1 = Some (SNext w1') ->
  exists w2', run O w2 ls2 = Some (SNext w2') /\ same_but_secrets O w1' w2'.
Proof.
  induction 1 as [|l1 l2 ls1 ls2 A F IH]; intros w1 w2 w1' CU W E; simpl in *.
  - injection E as <-. eauto.
  - destruct (step O w1 l1) as [| |v1] eqn:S; try discriminate E.
    destruct (secrets_step _ _ _ _ _ _ CU W A S) as (v2 & -> & V). eapply IH; eassumption.
Qed.

Lemma secrets_traces O ls1 ls2 w1 w2 w1' :
  cipher_uniform O -> same_but_secrets O w1 w2 -> Forall2 (alike_label O) ls1 ls2 ->
  run O w1 ls1 = Some (SNext w1') ->
  exists w2', run O w2 ls2 = Some (SNext w2') /\ map blur (w_trace w1') = map blur (w_trace w2').
Proof.
  intros CU W F E. destruct (secrets_run O ls1 ls2 F w1 w2 w1' CU W E) as (w2' & E2 & B & _).
  exists w2'. split; [exact E2|]. apply (f_equal w_trace) in B. exact B.
Qed.
