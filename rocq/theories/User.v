(** What the user of a sub-command gets (C62-C66). *)
From Verif Require Import Base BaseLemmas LexLemmas Time Utf8 Base64 Url UrlLemmas Json Oracles Config Dump State StateLemmas Http Timers Server
  Client SpecConfig SpecServer SpecDump Steps Inv Reach Trace Basic Decide SpecRestore DumpLemmas ClientLemmas Utf8Lemmas SpecText Texts SpecUser Loss.

(** * One result *)

Lemma set_thread_same w p : nth_error (w_threads w) 0 = Some p -> set_thread w 0 p = w.
Proof.
  intros N. unfold set_thread. destruct w as [lk h hs pk q cv nt rf th al tr]. cbn in *. f_equal.
  destruct th as [|p0 th]; [reflexivity|]. simpl in *. congruence.
Qed.

Lemma do_all_inj a b : do_all a PMain = do_all b PMain -> a = b.
Proof.
  revert b. induction a as [|x a IH]; intros [|y b] E; simpl in E; try discriminate; [reflexivity|].
  injection E as -> E. f_equal. apply IH, E.
Qed.

Lemma gives_unique O w e c lk1 a1 r1 lk2 a2 r2 :
  asked w e (client_request c) -> gives O w e c lk1 a1 r1 -> gives O w e c lk2 a2 r2 -> lk1 = lk2 /\ a1 = a2 /\ r1 = r2.
Proof.
  intros (_ & N & _) ((os1 & S1) & _ & R1) ((os2 & S2) & _ & R2). rewrite S1 in S2. injection S2 as E1 E2 _.
  assert (a1 = a2) as ->.
  { destruct (w_threads w) as [|p th]; [discriminate N|]. simpl in E2. injection E2 as E2. apply do_all_inj, E2. }
  split; [exact E1|]. split; [reflexivity|]. congruence.
Qed.

(** The ways a request can be answered, as [gives]. *)
Lemma gives_step O w e c lk' acts os s :
  step O w (LTick 0 e)
  = SNext (emit (set_thread (set_lk w lk') 0 (do_all (acts ++ [AEmit (OReply (client_request c) s)]) PMain)) (OClient (client_request c) :: os)) ->
  (forall a, In a acts -> forall o, a <> AEmit o) ->
  gives O w e c lk' (acts ++ [AEmit (OReply (client_request c) s)]) (client_finish c s).
Proof.
  intros S NE. split; [exists os; exact S|]. split.
  - intros q t I. apply in_app_or in I as [I|[I|[]]]; [exfalso; exact (NE _ I _ eq_refl)|congruence].
  - assert (flat_map written acts = []) as E.
    { clear S. induction acts as [|a acts IH]; [reflexivity|]. cbn [flat_map]. rewrite IH by (intros b I; apply NE; right; exact I).
      destruct a; try reflexivity. exfalso. exact (NE _ (or_introl eq_refl) _ eq_refl). }
    rewrite flat_map_app, E. cbn [flat_map written app client_run]. rewrite app_nil_r. reflexivity.
Qed.

Lemma gives_answer O w e c s :
  just_answers O w e (client_request c) s -> gives O w e c (w_lk w) [AEmit (OReply (client_request c) s)] (client_finish c s).
Proof.
  intros S. apply (gives_step O w e c (w_lk w) [] [] s); [|intros a []]. cbn [app]. rewrite set_lk_same. exact S.
Qed.

Lemma gives_silence O w e c :
  nth_error (w_threads w) 0 = Some PMain ->
  step O w (LTick 0 e) = SNext (emit w [OClient (client_request c)]) -> gives O w e c (w_lk w) [] (client_finish c []).
Proof.
  intros N S. split; [|split; [intros q s []|reflexivity]]. exists []. rewrite set_lk_same. cbn [do_all fold_right].
  rewrite (set_thread_same _ _ N). exact S.
Qed.

(** * Replies can be read *)

Lemma gives_text O w e c lk' acts r :
  text_laws O -> utf8_posts (w_trace w) -> reachable O w -> asked w e (client_request c) -> c <> CDump ->
  gives O w e c lk' acts r -> forall q s, In (AEmit (OReply q s)) acts -> utf8 s.
Proof.
  intros TL PO R (A & N & EC) ND ((os & S) & Q & _) q s I.
  pose proof (pubkey_utf8 O w R) as PK.
  pose proof (request_txt O e w (client_request c) TL (tx_state w (reach_txt O w TL R PO)) PK) as T.
  rewrite (main_step _ _ _ _ R A N EC) in S. unfold run_cs in S.
  assert (forall acts, pc_txt (do_all acts PMain) -> In (AEmit (OReply q s)) acts -> utf8_shown (OReply q s)) as K.
  { clear. induction acts as [|a acts IH]; intros P I; [destruct I|]. destruct P as [PA PK]. destruct I as [->|I]; [exact PA|apply IH; assumption]. }
  assert (utf8_shown (OReply q s)) as [E|U]; [|exfalso; apply ND|exact U].
  2: { rewrite (Q _ _ I) in E. apply (client_request_inj c CDump). exact E. }
  destruct (request O e w (client_request c)) as [[[lk p] os']|m|] eqn:RQ; [| |discriminate].
  - injection S as E1 E2 _. destruct (w_threads w) as [|p0 th]; [discriminate N|]. simpl in E2. injection E2 as E2.
    apply (K acts); [|exact I]. rewrite <- E2. eapply T. reflexivity.
  - injection S as E1 E2 _. destruct (w_threads w) as [|p0 th]; [discriminate N|]. simpl in E2. injection E2 as E2.
    apply (K acts); [|exact I]. rewrite <- E2. exact Logic.I.
Qed.

(** * What the client makes of replies *)

Lemma fail_says m : fails_saying (fail_with m) m.
Proof. split; reflexivity. Qed.

Lemma finish_show_error nu n x m : utf8 x -> x = $"error:" ++ m -> fails_saying (client_finish (CShow nu n) x) m.
Proof. intros U ->. cbn [client_finish]. unfold utf8 in U. rewrite U. apply fail_says. Qed.
Lemma finish_show_pending nu n x m : utf8 x -> x = $"pending:" ++ m -> fails_saying (client_finish (CShow nu n) x) (auth_first m).
Proof. intros U ->. cbn [client_finish]. unfold utf8 in U. rewrite U. apply fail_says. Qed.
Lemma finish_show_token nu n x m : utf8 x -> x = $"access_token:" ++ m -> client_finish (CShow nu n) x = ok_with (m ++ [nl]).
Proof. intros U ->. cbn [client_finish]. unfold utf8 in U. rewrite U. reflexivity. Qed.
Lemma finish_refresh_error nu n x m : utf8 x -> x = $"error:" ++ m -> fails_saying (client_finish (CRefresh nu n) x) m.
Proof. intros U ->. cbn [client_finish]. unfold utf8 in U. rewrite U. apply fail_says. Qed.
Lemma finish_refresh_pending nu n x m : utf8 x -> x = $"pending:" ++ m -> fails_saying (client_finish (CRefresh nu n) x) (auth_first m).
Proof. intros U ->. cbn [client_finish]. unfold utf8 in U. rewrite U. apply fail_says. Qed.
Lemma finish_simple_error c x m :
  match c with CReload | CRestore _ | CRevoke _ => True | _ => False end ->
  utf8 x -> x = $"error:" ++ m -> fails_saying (client_finish c x) m.
Proof. intros K U ->. unfold utf8 in U. destruct c; try contradiction; cbn [client_finish]; rewrite U; apply fail_says. Qed.

(** An account is known and in some state, or not known. *)
Lemma known_dec O w n : reachable O w ->
  (forall ts, ~ holds w n ts) \/ exists i ts, In (mkEntry n i ts) (details (w_lk w)).
Proof.
  intros R. destruct (validate_act_name (w_lk w) n) as [i|] eqn:V.
  - right. apply validate_some in V as (e0 & H & X & Y). exists i, (d_ts e0). rewrite <- X, <- Y, <- entry_eta. exact H.
  - left. intros ts H. destruct (holds_entry _ _ _ _ R H) as (e0 & _ & _ & _ & V'). congruence.
Qed.

Lemma entry_holds w n i ts : In (mkEntry n i ts) (details (w_lk w)) -> holds w n ts.
Proof. intros I. exists (mkEntry n i ts). auto. Qed.

Lemma becomes_awaiting w lk' n cvr ln st u : becomes w lk' n (TSPending cvr ln st u) -> awaiting w lk' n u.
Proof. intros (H & _). exists cvr, ln, st. exact H. Qed.

(** * show *)

Inductive shows (w : world) (now : Z) (nu : bool) (n : str) (lk' : locked) (acts : list action) (r : client_result) : Prop :=
| sh_unknown : (forall ts, ~ holds w n ts) -> lk' = w_lk w -> fails_saying r ($"No account '" ++ n ++ $"'") -> shows w now nu n lk' acts r
| sh_valid i a : In (mkEntry n i (TSActive a)) (details (w_lk w)) -> (now < expiry a)%Z -> lk' = w_lk w ->
    r = ok_with (access_token a ++ [nl]) -> shows w now nu n lk' acts r
| sh_expired i a m : In (mkEntry n i (TSActive a)) (details (w_lk w)) -> (expiry a <= now)%Z -> lk' = w_lk w ->
    ongoing a = true \/ In (ASpawnRefresh i) acts -> fails_saying r m -> m <> [] -> shows w now nu n lk' acts r
| sh_pending cvr ln st u : holds w n (TSPending cvr ln st u) -> lk' = w_lk w -> fails_saying r (told nu u) -> shows w now nu n lk' acts r
| sh_empty u : holds w n TSEmpty -> awaiting w lk' n u -> fails_saying r (told nu u) -> shows w now nu n lk' acts r.

Lemma show_table O w e nu n :
  text_laws O -> url_laws O -> utf8_posts (w_trace w) -> reachable O w -> asked w e (client_request (CShow nu n)) -> utf8 n ->
  exists lk' acts r, gives O w e (CShow nu n) lk' acts r /\ shows w (env_now e) nu n lk' acts r.
Proof.
  intros TL UL PO R AS U. set (c := CShow nu n) in *.
  assert (c <> CDump) as ND by discriminate.
  pose proof (show_served O w e nu n R AS U) as (S1 & S2 & S3).
  assert (forall lk' pre s r, gives O w e c lk' (pre ++ [AEmit (OReply (client_request c) s)]) r -> utf8 s) as TX.
  { intros lk' pre s r G. eapply (gives_text O w e c lk' _ r TL PO R AS ND G). apply in_or_app. right. left. reflexivity. }
  destruct (known_dec O w n R) as [NH|(i & ts & I)].
  - pose proof (gives_answer O w e c _ (S1 NH)) as G. do 3 eexists. split; [exact G|].
    apply sh_unknown; [exact NH|reflexivity|]. pose proof (TX _ [] _ _ G) as T.
    exact (finish_show_error nu n _ _ T eq_refl).
  - destruct ts as [|cvr ln st u|a].
    + destruct (holds_configured O w n _ R (entry_holds _ _ _ _ I)) as (act & CF & _).
      destruct (show_served_empty O w e nu n act R AS U UL (entry_holds _ _ _ _ I) CF) as (u & lk' & X).
      cbv zeta in X. destruct X as (_ & BE & S).
      pose proof (gives_step O w e c lk' [ASigNotifier] _ _ S) as G.
      assert (forall x, In x [ASigNotifier] -> forall o, x <> AEmit o) as NE by (intros x [<-|[]] o; discriminate).
      specialize (G NE). do 3 eexists. split; [exact G|].
      apply (sh_empty _ _ _ _ _ _ _ u); [exact (entry_holds _ _ _ _ I)|eapply becomes_awaiting; exact BE|].
      pose proof (TX _ [ASigNotifier] _ _ G) as T. exact (finish_show_pending nu n _ _ T eq_refl).
    + pose proof (gives_answer O w e c _ (S2 _ _ _ _ (entry_holds _ _ _ _ I))) as G. do 3 eexists. split; [exact G|].
      apply (sh_pending _ _ _ _ _ _ _ cvr ln st u); [exact (entry_holds _ _ _ _ I)|reflexivity|].
      pose proof (TX _ [] _ _ G) as T. exact (finish_show_pending nu n _ _ T eq_refl).
    + destruct (Z.ltb_spec (env_now e) (expiry a)) as [LT|GE].
      * pose proof (gives_answer O w e c _ (S3 _ (entry_holds _ _ _ _ I) LT)) as G. do 3 eexists. split; [exact G|].
        apply (sh_valid _ _ _ _ _ _ _ i a); [exact I|exact LT|reflexivity|].
        pose proof (TX _ [] _ _ G) as T. exact (finish_show_token nu n _ _ T eq_refl).
      * pose proof AS as (A & N & C). cbn [client_request c] in C.
        pose proof (show_active O w e (url_word nu) n R A N (url_word_no_space nu) (url_word_utf8 nu n U) i a C I) as S.
        destruct (Z.ltb_spec (env_now e) (expiry a)) as [X|_]; [lia|].
        destruct (ongoing a) eqn:ON.
        -- pose proof (gives_answer O w e c _ S) as G. do 3 eexists. split; [exact G|].
           eapply (sh_expired _ _ _ _ _ _ _ i a); [exact I|exact GE|reflexivity|left; exact ON| |].
           ++ pose proof (TX _ [] _ _ G) as T. exact (finish_show_error nu n _ _ T eq_refl).
           ++ discriminate.
        -- rewrite <- (set_lk_same w) in S at 2.
           pose proof (gives_step O w e c (w_lk w) [ASpawnRefresh i] [] _ S) as G.
           assert (forall x, In x [ASpawnRefresh i] -> forall o, x <> AEmit o) as NE by (intros x [<-|[]] o; discriminate).
           specialize (G NE). do 3 eexists. split; [exact G|].
           eapply (sh_expired _ _ _ _ _ _ _ i a); [exact I|exact GE|reflexivity|right; left; reflexivity| |].
           ++ pose proof (TX _ [ASpawnRefresh i] _ _ G) as T. exact (finish_show_error nu n _ _ T eq_refl).
           ++ discriminate.
Qed.

(** * refresh *)

Inductive refreshes (w : world) (nu : bool) (n : str) (lk' : locked) (acts : list action) (r : client_result) : Prop :=
| rs_unknown : (forall ts, ~ holds w n ts) -> lk' = w_lk w -> fails_saying r ($"No account '" ++ n ++ $"'") -> refreshes w nu n lk' acts r
| rs_active i a : In (mkEntry n i (TSActive a)) (details (w_lk w)) -> lk' = w_lk w -> In (ASpawnRefresh i) acts ->
    r = ok_with [] -> refreshes w nu n lk' acts r
| rs_inactive ts u : holds w n ts -> (forall a, ts <> TSActive a) -> awaiting w lk' n u ->
    fails_saying r (told nu u) -> refreshes w nu n lk' acts r.

Lemma refresh_table O w e nu n :
  text_laws O -> url_laws O -> utf8_posts (w_trace w) -> reachable O w -> asked w e (client_request (CRefresh nu n)) -> utf8 n ->
  exists lk' acts r, gives O w e (CRefresh nu n) lk' acts r /\ refreshes w nu n lk' acts r.
Proof.
  intros TL UL PO R AS U. set (c := CRefresh nu n) in *.
  assert (c <> CDump) as ND by discriminate.
  pose proof (refresh_served O w e nu n R AS U) as (S1 & S2).
  assert (forall lk' pre s r, gives O w e c lk' (pre ++ [AEmit (OReply (client_request c) s)]) r -> utf8 s) as TX.
  { intros lk' pre s r G. eapply (gives_text O w e c lk' _ r TL PO R AS ND G). apply in_or_app. right. left. reflexivity. }
  assert (forall ts i, In (mkEntry n i ts) (details (w_lk w)) -> (forall a, ts <> TSActive a) ->
            exists lk' acts r, gives O w e c lk' acts r /\ refreshes w nu n lk' acts r) as INA.
  { intros ts i I NA. destruct (holds_configured O w n _ R (entry_holds _ _ _ _ I)) as (act & CF & _).
    destruct (refresh_served_inactive O w e nu n ts act R AS U UL (entry_holds _ _ _ _ I) NA CF) as (u & lk' & X).
    cbv zeta in X. destruct X as (_ & BE & S).
    pose proof (gives_step O w e c lk' [ASigNotifier] _ _ S) as G.
    assert (forall x, In x [ASigNotifier] -> forall o, x <> AEmit o) as NE by (intros x [<-|[]] o; discriminate).
    specialize (G NE). do 3 eexists. split; [exact G|].
    apply (rs_inactive _ _ _ _ _ _ ts u); [exact (entry_holds _ _ _ _ I)|exact NA|eapply becomes_awaiting; exact BE|].
    pose proof (TX _ [ASigNotifier] _ _ G) as T. exact (finish_refresh_pending nu n _ _ T eq_refl). }
  destruct (known_dec O w n R) as [NH|(i & ts & I)].
  - pose proof (gives_answer O w e c _ (S1 NH)) as G. do 3 eexists. split; [exact G|].
    apply rs_unknown; [exact NH|reflexivity|]. pose proof (TX _ [] _ _ G) as T.
    exact (finish_refresh_error nu n _ _ T eq_refl).
  - destruct ts as [|cvr ln st u|a]; [eapply INA; [exact I|discriminate]..|].
    pose proof (S2 i a I) as S. rewrite <- (set_lk_same w) in S at 2.
    pose proof (gives_step O w e c (w_lk w) [ASpawnRefresh i] [] _ S) as G.
    assert (forall x, In x [ASpawnRefresh i] -> forall o, x <> AEmit o) as NE by (intros x [<-|[]] o; discriminate).
    specialize (G NE). do 3 eexists. split; [exact G|].
    apply (rs_active _ _ _ _ _ _ i a); [exact I|reflexivity|left; reflexivity|reflexivity].
Qed.

(** * The other commands *)

(** One reply after signals, with its text. *)
Lemma reply_utf8 O w e c lk' pre s r :
  text_laws O -> utf8_posts (w_trace w) -> reachable O w -> asked w e (client_request c) -> c <> CDump ->
  gives O w e c lk' (pre ++ [AEmit (OReply (client_request c) s)]) r -> utf8 s.
Proof.
  intros TL PO R AS ND G. eapply (gives_text O w e c lk' _ r TL PO R AS ND G). apply in_or_app. right. left. reflexivity.
Qed.

Lemma signals_only (l : list action) :
  forallb (fun a => match a with AEmit _ => false | _ => true end) l = true -> forall x, In x l -> forall o, x <> AEmit o.
Proof. intros F x I o ->. rewrite forallb_forall in F. specialize (F _ I). discriminate F. Qed.

Lemma revoke_table O w e n :
  text_laws O -> utf8_posts (w_trace w) -> reachable O w -> asked w e (client_request (CRevoke n)) -> utf8 n ->
  exists lk' acts r, gives O w e (CRevoke n) lk' acts r
    /\ ((forall ts, ~ holds w n ts) /\ lk' = w_lk w /\ fails_saying r ($"No account '" ++ n ++ $"'")
        \/ (exists ts, holds w n ts) /\ becomes w lk' n TSEmpty /\ r = ok_with []).
Proof.
  intros TL PO R AS U. pose proof (revoke_served O w e n R AS U) as (S1 & S2).
  destruct (known_dec O w n R) as [NH|(i & ts & I)].
  - pose proof (gives_answer O w e (CRevoke n) _ (S1 NH)) as G. do 3 eexists. split; [exact G|]. left.
    split; [exact NH|]. split; [reflexivity|].
    assert (CRevoke n <> CDump) as ND by discriminate. pose proof (reply_utf8 O w e _ _ [] _ _ TL PO R AS ND G) as T.
    exact (finish_simple_error (CRevoke n) _ _ Logic.I T eq_refl).
  - destruct (S2 ts (entry_holds _ _ _ _ I)) as (lk' & S & BE).
    pose proof (gives_step O w e (CRevoke n) lk' [APushEvent n EvRevoked; ASigEventer] [] _ S (signals_only [APushEvent n EvRevoked; ASigEventer] eq_refl)) as G.
    do 3 eexists. split; [exact G|]. right. split; [exists ts; exact (entry_holds _ _ _ _ I)|]. split; [exact BE|reflexivity].
Qed.

Lemma reload_table O w e :
  text_laws O -> utf8_posts (w_trace w) -> reachable O w -> asked w e (client_request CReload) ->
  exists lk' acts r, gives O w e CReload lk' acts r
    /\ ((exists m, config_from_path O e = Err m /\ lk' = w_lk w /\ fails_saying r m)
        \/ exists c, config_from_path O e = Val c /\ lconfig lk' = c /\ r = ok_with []).
Proof.
  intros TL PO R AS. pose proof AS as (A & N & C). destruct (config_from_path O e) as [c|m|] eqn:CF.
  - destruct (reload_ok O w e c R A N C CF) as (lk' & S & LC & _).
    pose proof (gives_step O w e CReload lk' [ASigNotifier; ASigRefresher] [OConfig c] _ S (signals_only [ASigNotifier; ASigRefresher] eq_refl)) as G.
    do 3 eexists. split; [exact G|]. right. exists c. split; [reflexivity|]. split; [exact LC|reflexivity].
  - pose proof (gives_answer O w e CReload _ (reload_failed O w e m R A N C CF)) as G.
    do 3 eexists. split; [exact G|]. left. exists m. split; [reflexivity|]. split; [reflexivity|].
    assert (CReload <> CDump) as ND by discriminate. pose proof (reply_utf8 O w e _ _ [] _ _ TL PO R AS ND G) as T.
    exact (finish_simple_error CReload _ _ Logic.I T eq_refl).
  - exfalso. apply (never_panics O w (LTick 0 e) R); [apply not_status; rewrite C; discriminate|].
    rewrite (main_step _ _ _ _ R A N C). cbn [client_request]. rewrite reload_request. unfold req_reload. rewrite CF. reflexivity.
Qed.

Lemma restore_table O w e bytes :
  text_laws O -> utf8_posts (w_trace w) -> reachable O w -> asked w e (client_request (CRestore bytes)) ->
  exists lk' acts r, gives O w e (CRestore bytes) lk' acts r
    /\ (((List.length bytes < 12)%nat \/ o_decrypt O (firstn 12 bytes) (skipn 12 bytes) = None) /\ lk' = w_lk w
        /\ (exists m, m <> [] /\ fails_saying r m)
        \/ (12 <= List.length bytes)%nat /\ (exists plain, o_decrypt O (firstn 12 bytes) (skipn 12 bytes) = Some plain)
           /\ restores_to O w e (client_request (CRestore bytes)) lk' /\ r = ok_with []).
Proof.
  intros TL PO R AS. pose proof AS as (A & N & C). cbn [client_request] in C.
  assert (CRestore bytes <> CDump) as ND by discriminate.
  pose proof (main_step _ _ _ _ R A N C) as MS. rewrite request_restore in MS.
  assert (forall m, m <> [] -> req_restore O e w ($"restore:" ++ bytes) bytes = Val (w_lk w, reply ($"restore:" ++ bytes) ($"error:" ++ m), []) ->
            exists r, gives O w e (CRestore bytes) (w_lk w) [AEmit (OReply (client_request (CRestore bytes)) ($"error:" ++ m))] r
                      /\ exists m, m <> [] /\ fails_saying r m) as BAD.
  { intros m NM E. assert (just_answers O w e (client_request (CRestore bytes)) ($"error:" ++ m)) as J.
    { unfold just_answers. rewrite <- (set_lk_same w) at 2. exact (main_val O w e _ _ _ _ R A N C E). }
    pose proof (gives_answer O w e (CRestore bytes) _ J) as G. eexists. split; [exact G|].
    pose proof (reply_utf8 O w e _ _ [] _ _ TL PO R AS ND G) as T. exists m. split; [exact NM|].
    exact (finish_simple_error (CRestore bytes) _ _ Logic.I T eq_refl). }
  unfold req_restore in MS, BAD. unfold auth_restore in MS, BAD. change nonce_len with 12%nat in *.
  destruct (Nat.ltb_spec (List.length bytes) 12) as [LT|GE].
  - destruct (BAD $"Input too short" ltac:(discriminate) eq_refl) as (r & G & M).
    do 3 eexists. split; [exact G|]. left. split; [left; exact LT|]. split; [reflexivity|exact M].
  - destruct (o_decrypt O (firstn 12 bytes) (skipn 12 bytes)) as [plain|] eqn:DE.
    2: { destruct (BAD $"Restoring dump failed" ltac:(discriminate) eq_refl) as (r & G & M).
         do 3 eexists. split; [exact G|]. left. split; [right; reflexivity|]. split; [reflexivity|exact M]. }
    assert (exists lk', restores_to O w e (client_request (CRestore bytes)) lk') as (lk' & S).
    { destruct (locked_restore (w_lk w) plain (e_clk e) (e_hash e)) as [lk'|m|] eqn:LR.
      - exists lk'. unfold restores_to. apply (main_val O w e ($"restore:" ++ bytes) _ _ _ R A N C). rewrite request_restore.
        unfold req_restore, auth_restore. change nonce_len with 12%nat. destruct (Nat.ltb_spec (List.length bytes) 12); [lia|].
        rewrite DE, LR. reflexivity.
      - exists (w_lk w). unfold restores_to. apply (main_val O w e ($"restore:" ++ bytes) _ _ _ R A N C). rewrite request_restore.
        unfold req_restore, auth_restore. change nonce_len with 12%nat. destruct (Nat.ltb_spec (List.length bytes) 12); [lia|].
        rewrite DE, LR. reflexivity.
      - exfalso. apply (never_panics O w (LTick 0 e) R); [apply not_status; rewrite C; discriminate|]. rewrite MS. reflexivity. }
    pose proof (gives_step O w e (CRestore bytes) lk' [ASigNotifier; ASigRefresher] [] _ S (signals_only [ASigNotifier; ASigRefresher] eq_refl)) as G.
    do 3 eexists. split; [exact G|]. right. split; [exact GE|]. split; [exists plain; reflexivity|]. split; [exact S|reflexivity].
Qed.

Lemma status_table O w e :
  text_laws O -> utf8_posts (w_trace w) -> reachable O w -> asked w e (client_request CStatus) ->
  ~ breaks_down O w (LTick 0 e) ->
  exists lines acts, gives O w e CStatus (w_lk w) acts (ok_with (join [nl] lines ++ [nl])) /\ says_all O w e lines.
Proof.
  intros TL PO R AS NB. pose proof AS as (A & N & C). destruct (status_lists O w e R A N C NB) as (txts & lines & S & L & P & SO & K).
  pose proof (gives_answer O w e CStatus _ S) as G. assert (CStatus <> CDump) as ND by discriminate.
  pose proof (reply_utf8 O w e _ _ [] _ _ TL PO R AS ND G) as T.
  exists lines, [AEmit (OReply (client_request CStatus) ($"ok:" ++ join [nl] lines))]. split.
  - assert (client_finish CStatus ($"ok:" ++ join [nl] lines) = ok_with (join [nl] lines ++ [nl])) as E.
    { cbn [client_finish]. unfold utf8 in T. rewrite T. reflexivity. }
    rewrite <- E. exact G.
  - split; [exact SO|]. exists txts. auto.
Qed.

Lemma dump_table O w e :
  reachable O w -> asked w e (client_request CDump) ->
  (exists txt, gives O w e CDump (w_lk w) [AEmit (OReply (client_request CDump) txt)] (ok_with txt)
               /\ just_answers O w e $"dump:" txt)
  \/ (gives O w e CDump (w_lk w) [] (ok_with []) /\ step O w (LTick 0 e) = SNext (emit w [OClient $"dump:"])).
Proof.
  intros R AS. pose proof AS as (A & N & C). cbn [client_request] in C.
  destruct (auth_dump O (w_lk w) (e_clk e) (e_hash e) (e_nonce e)) as [txt|m|] eqn:AD.
  - left. exists txt. assert (just_answers O w e $"dump:" txt) as J by (apply (asked_dump O w e txt R AS), AD).
    split; [exact (gives_answer O w e CDump txt J)|exact J].
  - right. assert (step O w (LTick 0 e) = SNext (emit w [OClient $"dump:"])) as S.
    { eapply main_err; try eassumption. rewrite request_dump, AD. reflexivity. }
    split; [exact (gives_silence O w e CDump N S)|exact S].
  - exfalso. apply (never_panics O w (LTick 0 e) R); [apply not_status; rewrite C; discriminate|].
    rewrite (main_step _ _ _ _ R A N C), request_dump, AD. reflexivity.
Qed.

Lemma shutdown_table O w e :
  reachable O w -> asked w e (client_request CShutdown) -> gives O w e CShutdown (w_lk w) [AHalt] (ok_with []).
Proof.
  intros R AS. pose proof AS as (A & N & C). split; [|split; [|reflexivity]].
  - exists []. exact (main_val O w e $"shutdown:" _ _ _ R A N C eq_refl).
  - intros q s [I|[]]. discriminate I.
Qed.

Lemma info_table O w e :
  reachable O w -> asked w e (client_request CInfo) ->
  just_answers O w e $"info:" (info_reply w).
Proof.
  intros R AS. pose proof AS as (A & N & C). unfold just_answers. rewrite <- (set_lk_same w) at 2.
  exact (main_val O w e $"info:" _ _ _ R A N C eq_refl).
Qed.

Lemma every_command_served O w e c :
  reachable O w -> asked w e (client_request c) -> (forall n, names c = Some n -> utf8 n) -> url_laws O -> text_laws O ->
  utf8_posts (w_trace w) -> ~ breaks_down O w (LTick 0 e) ->
  exists lk' acts r, gives O w e c lk' acts r.
Proof.
  intros R AS U UL TL PO NB. destruct c as [| |nu n| |bytes|n|nu n| |].
  - destruct (dump_table O w e R AS) as [(txt & G & _)|[G _]]; eauto.
  - pose proof (gives_answer O w e CInfo _ (info_table O w e R AS)) as G. eauto.
  - destruct (refresh_table O w e nu n TL UL PO R AS (U n eq_refl)) as (lk' & acts & r & G & _). eauto.
  - destruct (reload_table O w e TL PO R AS) as (lk' & acts & r & G & _). eauto.
  - destruct (restore_table O w e bytes TL PO R AS) as (lk' & acts & r & G & _). eauto.
  - destruct (revoke_table O w e n TL PO R AS (U n eq_refl)) as (lk' & acts & r & G & _). eauto.
  - destruct (show_table O w e nu n TL UL PO R AS (U n eq_refl)) as (lk' & acts & r & G & _). eauto.
  - pose proof (shutdown_table O w e R AS) as G. eauto.
  - destruct (status_table O w e TL PO R AS NB) as (lines & acts & G & _). eauto.
Qed.

(** * For every result *)

Lemma show_result O w e nu n lk' acts r :
  ready O w -> asked w e (client_request (CShow nu n)) -> utf8 n -> gives O w e (CShow nu n) lk' acts r ->
  (succeeded r <-> usable w n (env_now e))
  /\ (forall a, holds w n (TSActive a) -> (env_now e < expiry a)%Z -> r_stdout r = access_token a ++ [nl])
  /\ (~ usable w n (env_now e) -> exists m, m <> [] /\ fails_saying r m)
  /\ ((forall ts, ~ holds w n ts) -> fails_saying r ($"No account '" ++ n ++ $"'"))
  /\ (forall ts, holds w n ts -> (forall a, ts <> TSActive a) -> exists u, awaiting w lk' n u /\ fails_saying r (told nu u))
  /\ (forall i a, In (mkEntry n i (TSActive a)) (details (w_lk w)) -> (expiry a <= env_now e)%Z ->
        ongoing a = true \/ In (ASpawnRefresh i) acts)
  /\ (holds w n TSEmpty \/ lk' = w_lk w).
Proof.
  intros (TL & UL & R & PO) AS U G. destruct (show_table O w e nu n TL UL PO R AS U) as (lk0 & acts0 & r0 & G0 & T).
  destruct (gives_unique O w e _ _ _ _ _ _ _ AS G0 G) as (-> & -> & ->). clear G0.
  assert (forall ts ts', holds w n ts -> holds w n ts' -> ts = ts') as HF by (intros ts ts'; apply (holds_fun O w n ts ts' R)).
  destruct T as [NH -> [FO FE]|i a I LT -> ->|i a m I GE -> HOW [FO FE] NM|cvr ln st u HO -> [FO FE]|u HO AW [FO FE]].
  - unfold succeeded, exit_code. rewrite FE.
    split. { split; [discriminate|intros (a & H & _); destruct (NH _ H)]. }
    split; [intros a H; destruct (NH _ H)|].
    split; [intros _; exists ($"No account '" ++ n ++ $"'"); split; [discriminate|split; assumption]|].
    split; [intros _; split; assumption|]. split; [intros ts H; destruct (NH _ H)|].
    split; [intros i a I; destruct (NH _ (entry_holds _ _ _ _ I))|]. right. reflexivity.
  - pose proof (entry_holds _ _ _ _ I) as HO.
    assert (usable w n (env_now e)) as US by (exists a; split; assumption).
    split; [split; [intros _; exact US|reflexivity]|].
    split; [intros a' H' _; specialize (HF _ _ HO H'); injection HF as <-; reflexivity|].
    split; [intros X; contradiction|]. split; [intros X; destruct (X _ HO)|].
    split; [intros ts H NA; exfalso; apply (NA a); apply HF; assumption|].
    split; [|right; reflexivity]. intros i' a' I' GE. specialize (HF _ _ HO (entry_holds _ _ _ _ I')). injection HF as <-. lia.
  - pose proof (entry_holds _ _ _ _ I) as HO. unfold succeeded, exit_code. rewrite FE.
    split. { split; [discriminate|]. intros (a' & H' & LT). specialize (HF _ _ HO H'). injection HF as <-. lia. }
    split; [intros a' H' LT; specialize (HF _ _ HO H'); injection HF as <-; lia|].
    split; [intros _; exists m; split; [exact NM|split; assumption]|].
    split; [intros X; destruct (X _ HO)|].
    split; [intros ts H NA; exfalso; apply (NA a); apply HF; assumption|].
    split; [|right; reflexivity]. intros i' a' I' _.
    assert (mkEntry n i (TSActive a) = mkEntry n i' (TSActive a')) as E.
    { apply (wf_name_inj (w_lk w)); [apply (inv_wf _ _ (reach_inv _ _ R))|exact I|exact I'|reflexivity]. }
    injection E as <- <-. exact HOW.
  - unfold succeeded, exit_code. rewrite FE.
    split. { split; [discriminate|]. intros (a' & H' & LT). specialize (HF _ _ HO H'). discriminate. }
    split; [intros a' H' LT; specialize (HF _ _ HO H'); discriminate|].
    split; [intros _; exists (told nu u); split; [discriminate|split; assumption]|].
    split; [intros X; destruct (X _ HO)|].
    split. { intros ts _ _. exists u. split; [exists cvr, ln, st; rewrite set_lk_same; exact HO|split; assumption]. }
    split; [|right; reflexivity]. intros i' a' I' _. specialize (HF _ _ HO (entry_holds _ _ _ _ I')). discriminate.
  - unfold succeeded, exit_code. rewrite FE.
    split. { split; [discriminate|]. intros (a' & H' & LT). specialize (HF _ _ HO H'). discriminate. }
    split; [intros a' H' LT; specialize (HF _ _ HO H'); discriminate|].
    split; [intros _; exists (told nu u); split; [discriminate|split; assumption]|].
    split; [intros X; destruct (X _ HO)|].
    split. { intros ts _ _. exists u. split; [exact AW|split; assumption]. }
    split; [|left; exact HO]. intros i' a' I' _. specialize (HF _ _ HO (entry_holds _ _ _ _ I')). discriminate.
Qed.

Lemma refresh_result O w e nu n lk' acts r :
  ready O w -> asked w e (client_request (CRefresh nu n)) -> utf8 n -> gives O w e (CRefresh nu n) lk' acts r ->
  (succeeded r <-> has_token w n)
  /\ r_stdout r = []
  /\ ((forall ts, ~ holds w n ts) -> lk' = w_lk w /\ fails_saying r ($"No account '" ++ n ++ $"'"))
  /\ (forall ts, holds w n ts -> (forall a, ts <> TSActive a) -> exists u, awaiting w lk' n u /\ fails_saying r (told nu u))
  /\ (forall i a, In (mkEntry n i (TSActive a)) (details (w_lk w)) -> lk' = w_lk w /\ In (ASpawnRefresh i) acts).
Proof.
  intros (TL & UL & R & PO) AS U G. destruct (refresh_table O w e nu n TL UL PO R AS U) as (lk0 & acts0 & r0 & G0 & T).
  destruct (gives_unique O w e _ _ _ _ _ _ _ AS G0 G) as (-> & -> & ->). clear G0.
  assert (forall ts ts', holds w n ts -> holds w n ts' -> ts = ts') as HF by (intros ts ts'; apply (holds_fun O w n ts ts' R)).
  destruct T as [NH -> [FO FE]|i a I -> HOW ->|ts u HO NA AW [FO FE]].
  - unfold succeeded, exit_code. rewrite FE.
    split. { split; [discriminate|intros (a & H); destruct (NH _ H)]. }
    split; [exact FO|]. split; [intros _; split; [reflexivity|split; assumption]|].
    split; [intros ts H; destruct (NH _ H)|]. intros i a I; destruct (NH _ (entry_holds _ _ _ _ I)).
  - pose proof (entry_holds _ _ _ _ I) as HO.
    split; [split; [intros _; exists a; exact HO|reflexivity]|]. split; [reflexivity|].
    split; [intros X; destruct (X _ HO)|].
    split; [intros ts H NA; exfalso; apply (NA a); apply HF; assumption|].
    intros i' a' I'. assert (mkEntry n i (TSActive a) = mkEntry n i' (TSActive a')) as E.
    { apply (wf_name_inj (w_lk w)); [apply (inv_wf _ _ (reach_inv _ _ R))|exact I|exact I'|reflexivity]. }
    injection E as <- <-. split; [reflexivity|exact HOW].
  - unfold succeeded, exit_code. rewrite FE.
    split. { split; [discriminate|]. intros (a & H). destruct (NA a). apply HF; assumption. }
    split; [exact FO|]. split; [intros X; destruct (X _ HO)|].
    split; [intros ts' _ _; exists u; split; [exact AW|split; assumption]|].
    intros i a I. destruct (NA a). apply HF; [exact HO|exact (entry_holds _ _ _ _ I)].
Qed.

Lemma revoke_result O w e n lk' acts r :
  ready O w -> asked w e (client_request (CRevoke n)) -> utf8 n -> gives O w e (CRevoke n) lk' acts r ->
  (succeeded r <-> exists ts, holds w n ts)
  /\ r_stdout r = []
  /\ (succeeded r -> becomes w lk' n TSEmpty)
  /\ (~ succeeded r -> lk' = w_lk w /\ fails_saying r ($"No account '" ++ n ++ $"'")).
Proof.
  intros (TL & UL & R & PO) AS U G. destruct (revoke_table O w e n TL PO R AS U) as (lk0 & acts0 & r0 & G0 & T).
  destruct (gives_unique O w e _ _ _ _ _ _ _ AS G0 G) as (-> & -> & ->). clear G0.
  destruct T as [(NH & -> & FO & FE)|(HO & BE & ->)].
  - unfold succeeded, exit_code. rewrite FE. split; [split; [discriminate|intros (ts & H); destruct (NH _ H)]|].
    split; [exact FO|]. split; [discriminate|]. intros _. split; [reflexivity|split; assumption].
  - split; [split; [intros _; exact HO|reflexivity]|]. split; [reflexivity|]. split; [intros _; exact BE|].
    intros X. destruct X. reflexivity.
Qed.

Lemma reload_result O w e lk' acts r :
  ready O w -> asked w e (client_request CReload) -> gives O w e CReload lk' acts r ->
  (succeeded r <-> exists c, config_from_path O e = Val c)
  /\ r_stdout r = []
  /\ (forall c, config_from_path O e = Val c -> lconfig lk' = c)
  /\ (forall m, config_from_path O e = Err m -> lk' = w_lk w /\ fails_saying r m).
Proof.
  intros (TL & UL & R & PO) AS G. destruct (reload_table O w e TL PO R AS) as (lk0 & acts0 & r0 & G0 & T).
  destruct (gives_unique O w e _ _ _ _ _ _ _ AS G0 G) as (-> & -> & ->). clear G0.
  destruct T as [(m & E & -> & FO & FE)|(c & E & LC & ->)].
  - unfold succeeded, exit_code. rewrite FE, E. split; [split; [discriminate|intros (c & X); discriminate X]|].
    split; [exact FO|]. split; [discriminate|]. intros m' [= <-]. split; [reflexivity|split; assumption].
  - rewrite E. split; [split; [eauto|reflexivity]|]. split; [reflexivity|]. split; [intros c' [= <-]; exact LC|discriminate].
Qed.

Lemma restore_result O w e bytes lk' acts r :
  ready O w -> asked w e (client_request (CRestore bytes)) -> gives O w e (CRestore bytes) lk' acts r ->
  (succeeded r <-> (12 <= List.length bytes)%nat /\ exists plain, o_decrypt O (firstn 12 bytes) (skipn 12 bytes) = Some plain)
  /\ r_stdout r = []
  /\ (succeeded r -> restores_to O w e (client_request (CRestore bytes)) lk')
  /\ (~ succeeded r -> lk' = w_lk w /\ exists m, m <> [] /\ fails_saying r m).
Proof.
  intros (TL & UL & R & PO) AS G. destruct (restore_table O w e bytes TL PO R AS) as (lk0 & acts0 & r0 & G0 & T).
  destruct (gives_unique O w e _ _ _ _ _ _ _ AS G0 G) as (-> & -> & ->). clear G0.
  destruct T as [(BAD & -> & m & NM & FO & FE)|(GE & PL & S & ->)].
  - unfold succeeded, exit_code. rewrite FE. split.
    { split; [discriminate|]. intros (GE & plain & DE). exfalso. destruct BAD as [LT|N]; [lia|congruence]. }
    split; [exact FO|]. split; [discriminate|]. intros _. split; [reflexivity|]. exists m. split; [exact NM|split; assumption].
  - split; [split; [auto|reflexivity]|]. split; [reflexivity|]. split; [intros _; exact S|]. intros X. destruct X. reflexivity.
Qed.

Lemma status_result O w e lk' acts r :
  ready O w -> asked w e (client_request CStatus) -> gives O w e CStatus lk' acts r ->
  lk' = w_lk w /\ exists lines, says_all O w e lines /\ r = mkResult (join [nl] lines ++ [nl]) None.
Proof.
  intros (TL & UL & R & PO) AS G. destruct (status_table O w e TL PO R AS) as (lines & acts0 & G0 & T).
  { intros B. pose proof (breaks_down_panics _ _ _ R B) as P. destruct G as [(vs & S) _]. congruence. }
  destruct (gives_unique O w e _ _ _ _ _ _ _ AS G0 G) as (<- & _ & <-). split; [reflexivity|]. exists lines. split; [exact T|reflexivity].
Qed.

Lemma shutdown_result O w e lk' acts r :
  reachable O w -> asked w e (client_request CShutdown) -> gives O w e CShutdown lk' acts r ->
  acts = [AHalt] /\ r = mkResult [] None.
Proof.
  intros R AS G. pose proof (shutdown_table O w e R AS) as G0.
  destruct (gives_unique O w e _ _ _ _ _ _ _ AS G0 G) as (_ & <- & <-). split; reflexivity.
Qed.

Lemma dump_result O w e lk' acts r :
  reachable O w -> asked w e (client_request CDump) -> gives O w e CDump lk' acts r ->
  lk' = w_lk w /\ succeeded r
  /\ (r_stdout r <> [] -> just_answers O w e $"dump:" (r_stdout r)).
Proof.
  intros R AS G. destruct (dump_table O w e R AS) as [(txt & G0 & J)|[G0 S]];
    destruct (gives_unique O w e _ _ _ _ _ _ _ AS G0 G) as (<- & <- & <-).
  - split; [reflexivity|]. split; [reflexivity|]. intros _. exact J.
  - split; [reflexivity|]. split; [reflexivity|]. intros X. destruct X. reflexivity.
Qed.

(** * info *)

Lemma digit_plain c v : digit_of c v -> plain_char c = true.
Proof.
  intros [B ->]. assert (v = 0 \/ v = 1 \/ v = 2 \/ v = 3 \/ v = 4 \/ v = 5 \/ v = 6 \/ v = 7 \/ v = 8 \/ v = 9)%Z as K by lia.
  repeat (destruct K as [->|K]; [reflexivity|]). subst v. reflexivity.
Qed.

Lemma decimal_plain s v : decimal s v -> plain s.
Proof.
  induction 1 as [c v D|s n c v D IH DC]; unfold plain.
  - simpl. rewrite (digit_plain _ _ D). reflexivity.
  - rewrite forallb_app, IH. simpl. rewrite (digit_plain _ _ DC). reflexivity.
Qed.

Lemma opt_port_shown p : port_shown p (opt_port p).
Proof. destruct p as [n|]; [apply dec_of_N_spec|reflexivity]. Qed.

Lemma opt_port_plain p : plain (opt_port p).
Proof. destruct p as [n|]; [eapply decimal_plain, dec_of_N_spec|reflexivity]. Qed.

Lemma key_plain key : plain (key_text key).
Proof.
  assert (forall n, (n < 16)%N -> plain_char (hex_digit n) = true) as H.
  { intros n L. assert (forallb (fun k => plain_char (hex_digit (N.of_nat k))) (seq 0 16) = true) as F by (vm_compute; reflexivity).
    rewrite forallb_forall in F. specialize (F (N.to_nat n)). rewrite N2Nat.id in F. apply F, in_seq. lia. }
  assert (forall c, plain [hex_digit (N_of_ascii c / 16); hex_digit (N_of_ascii c mod 16)]) as P.
  { intros c. pose proof (N_ascii_bounded c) as B. unfold plain. cbn [forallb].
    rewrite (H _ (N.div_lt_upper_bound _ 16 16 ltac:(discriminate) B)), (H _ (N.mod_lt _ 16 ltac:(discriminate))). reflexivity. }
  unfold key_text, plain. induction key as [|c key IH]; [reflexivity|]. cbn [map].
  destruct key as [|c' key]; [apply P|]. cbn [map] in IH |- *. cbn [join]. rewrite !forallb_app. rewrite (P c). exact IH.
Qed.

Lemma info_is_object w :
  info_reply w = object_text ([($"http_port", opt_port (w_http w)); ($"https_port", opt_port (w_https w))]
    ++ match w_pubkey w with Some k => [($"https_pub_key", k)] | None => [] end).
Proof.
  unfold info_reply, object_text. destruct (w_pubkey w) as [k|]; unfold quoted, in_quotes; cbn [map app join fst snd];
    do 12 (rewrite <- ?app_assoc; cbn [app]); reflexivity.
Qed.

(** What [info] is told by a server that runs. *)
Definition running_info (w : world) : json :=
  JObj ([($"http_port", JStr (opt_port (w_http w))); ($"https_port", JStr (opt_port (w_https w)))]
        ++ match w_pubkey w with Some k => [($"https_pub_key", JStr k)] | None => [] end).

Lemma info_read O w : json_law O -> reachable O w -> server_info O (Replied (info_reply w)) = Some (running_info w).
Proof.
  intros JL R. unfold server_info. assert (utf8_valid (info_reply w) = true) as -> by exact (info_txt w (pubkey_utf8 O w R)).
  rewrite info_is_object, JL.
  - unfold running_info. destruct (w_pubkey w); reflexivity.
  - apply Forall_app. split.
    + repeat constructor; apply opt_port_plain.
    + destruct (w_pubkey w) as [k|] eqn:E; [|constructor]. destruct (reach_pubkey O w R k E) as [key ->].
      repeat constructor. apply key_plain.
Qed.

Lemma lines_app l m : lines (l ++ m) = lines l ++ lines m.
Proof. unfold lines. rewrite map_app, concat_app. reflexivity. Qed.

Lemma info_head_lines a : info_head a = lines (about (ia_prog a) (ia_version a) (ia_cache a) (ia_config a)).
Proof. unfold info_head, lines, about. cbn [map List.concat]. rewrite <- !app_assoc, app_nil_r. reflexivity. Qed.

Lemma info_shows O w e a :
  json_law O -> reachable O w -> asked w e (client_request CInfo) ->
  exists txt h s,
    just_answers O w e (client_request CInfo) txt
    /\ port_shown (w_http w) h /\ port_shown (w_https w) s
    /\ info_text O a (Replied txt)
       = Val (lines (about (ia_prog a) (ia_version a) (ia_cache a) (ia_config a)
              ++ [$"server running:"; $"  HTTP port: " ++ h; $"  HTTPS port: " ++ s]
              ++ match w_pubkey w with Some k => [$"  HTTPS public key: " ++ k] | None => [] end))
    /\ exists v, json_get $"server_running" (info_json O a (Replied txt)) = Some (JBool true)
                 /\ json_get $"server_info" (info_json O a (Replied txt)) = Some v
                 /\ json_str $"http_port" v = Some h /\ json_str $"https_port" v = Some s
                 /\ json_str $"https_pub_key" v = w_pubkey w.
Proof.
  intros JL R AS. exists (info_reply w), (opt_port (w_http w)), (opt_port (w_https w)).
  split; [exact (info_table O w e R AS)|]. split; [apply opt_port_shown|]. split; [apply opt_port_shown|].
  pose proof (info_read O w JL R) as IR. split.
  - assert (json_str $"http_port" (running_info w) = Some (opt_port (w_http w))) as J1 by (unfold running_info; destruct (w_pubkey w); reflexivity).
    assert (json_str $"https_port" (running_info w) = Some (opt_port (w_https w))) as J2 by (unfold running_info; destruct (w_pubkey w); reflexivity).
    assert (json_get $"https_pub_key" (running_info w) = option_map JStr (w_pubkey w)) as J3 by (unfold running_info; destruct (w_pubkey w); reflexivity).
    unfold info_text. rewrite IR, J1, J2, J3. rewrite lines_app, <- info_head_lines.
    destruct (w_pubkey w) as [k|]; cbn [option_map]; cbv zeta; f_equal; f_equal; unfold lines; cbn [app map List.concat];
      do 12 (rewrite <- ?app_assoc; cbn [app]); rewrite ?app_nil_r; reflexivity.
  - exists (running_info w). unfold info_json. rewrite IR. split; [reflexivity|]. split; [reflexivity|].
    unfold running_info. destruct (w_pubkey w); repeat split.
Qed.

Lemma info_alone O a v : server_info O v = None ->
  info_text O a v = Val (lines (about (ia_prog a) (ia_version a) (ia_cache a) (ia_config a) ++ [$"server not running"]))
  /\ json_get $"server_running" (info_json O a v) = Some (JBool false) /\ json_get $"server_info" (info_json O a v) = None.
Proof. intros E. unfold info_text, info_json. rewrite E, lines_app, <- info_head_lines. repeat split. Qed.

Lemma info_itself O a v :
  let j := info_json O a v in
  json_get $"executed_as" j = Some (JStr (ia_prog a)) /\ json_get $"pizauth_version" j = Some (JStr (ia_version a))
  /\ json_get $"cache_directory" j = Some (JStr (ia_cache a)) /\ json_get $"config_file" j = Some (JStr (ia_config a))
  /\ json_get $"info_format_version" j = Some (JNum 2).
Proof. cbv zeta. unfold info_json. destruct (server_info O v); repeat split. Qed.

(** * What dumps and refreshes may cost *)

Lemma dump_output O w e lk' acts r :
  text_laws O -> utf8_posts (w_trace w) -> fits w -> cipher_law O -> List.length (e_nonce e) = 12%nat -> wall_ok e ->
  reachable O w -> asked w e (client_request CDump) -> gives O w e CDump lk' acts r -> r_stdout r <> [] ->
  (exists d, carries O (r_stdout r) d)
  /\ forall w2 e2 lk2 acts2 r2, ready O w2 -> asked w2 e2 (client_request (CRestore (r_stdout r))) ->
       gives O w2 e2 (CRestore (r_stdout r)) lk2 acts2 r2 -> succeeded r2.
Proof.
  intros TL PO F CL NL WO R AS G NE. destruct (dump_result O w e lk' acts r R AS G) as (_ & _ & J). specialize (J NE).
  destruct (dump_carries O w e (r_stdout r) CL NL (texts_from_inputs O w TL R PO F) WO R AS J) as (d & C & _).
  split; [exists d; exact C|]. intros w2 e2 lk2 acts2 r2 RD AS2 G2.
  apply (restore_result O w2 e2 (r_stdout r) lk2 acts2 r2 RD AS2 G2).
  destruct C as (L & plain & DE & _). split; [exact L|]. exists plain. exact DE.
Qed.

Lemma lost_means_asked O w tid e w' n a :
  reachable O w -> step O w (LTick tid e) = SNext w' -> tid <> 0 -> holds w n (TSActive a) ->
  refresh_token a <> None -> (forall a', ~ holds w' n (TSActive a')) ->
  exists rt r, refresh_token a = Some rt /\ refreshed_with (w_trace w) rt r.
Proof.
  intros R S T H NN L. pose proof (token_lost O w (LTick tid e) w' n a R S H L) as W.
  inversion W; subst; try congruence; eauto.
Qed.

Lemma sent_to_provider O w e nu n ts c lk' acts r :
  ready O w -> asked w e (client_request c) -> utf8 n -> c = CShow nu n \/ c = CRefresh nu n ->
  gives O w e c lk' acts r -> holds w n ts -> (forall a, ts <> TSActive a) ->
  exists u, awaiting w lk' n u /\ fails_saying r (told nu u).
Proof.
  intros RD AS U [->| ->] G H NA.
  - destruct (show_result O w e nu n lk' acts r RD AS U G) as (_ & _ & _ & _ & K & _). exact (K ts H NA).
  - destruct (refresh_result O w e nu n lk' acts r RD AS U G) as (_ & _ & _ & K & _). exact (K ts H NA).
Qed.

Lemma finish_refused c :
  fails_saying (client_run c Refused) $"pizauth authenticator not running or not responding"
  /\ ~ succeeded (client_run c Refused).
Proof. split; [split; reflexivity|discriminate]. Qed.
