(** Everything the server keeps and says is text. *)
From Verif Require Import Base BaseLemmas Time Utf8 Base64 Url UrlLemmas Json Oracles Config Dump State Http
  Timers Server StateLemmas ConfigLemmas SpecServer Steps Inv Reach Own Trace Origin SpecDump Codec SpecRestore Basic Client DumpLemmas ClientLemmas SpecText Utf8Lemmas TextConfig.

(** * ASCII *)

Definition seven (s : str) : Prop := forallb (between 0 127) s = true.

Lemma seven_utf8 s : seven s -> utf8 s.
Proof. apply utf8_valid_ascii. Qed.

Lemma seven_app a b : seven (a ++ b) <-> seven a /\ seven b.
Proof. unfold seven. rewrite forallb_app. apply andb_true_iff. Qed.

Lemma seven_digits fuel : forall n acc, seven acc -> seven (dec_digits fuel n acc).
Proof.
  induction fuel as [|fuel IH]; intros n acc A; [exact A|]. cbn [dec_digits].
  assert (seven (ascii_of_N (48 + n mod 10) :: acc)) as A'.
  { unfold seven. cbn [forallb]. apply andb_true_iff. split; [|exact A].
    assert (n mod 10 < 10)%N as L by (apply N.mod_lt; discriminate).
    remember (n mod 10)%N as m eqn:M. clear M.
    unfold between. rewrite N_ascii_embedding by lia. apply andb_true_iff. split; apply N.leb_le; lia. }
  destruct (n <? 10)%N; [exact A'|apply IH, A'].
Qed.

Lemma seven_dec n : seven (dec_of_N n).
Proof. apply seven_digits. reflexivity. Qed.

Lemma seven_b64 s : seven (b64_encode s).
Proof.
  pose proof (b64_encode_alphabet s) as A. unfold seven. rewrite forallb_forall in *. intros c I. specialize (A c I).
  revert A. unfold b64_alphabet, between. rewrite !orb_true_iff, !andb_true_iff, !N.leb_le, !N.eqb_eq. lia.
Qed.

Lemma seven_form s : seven (form_encode s).
Proof.
  induction s as [|c s IH]; [reflexivity|]. change (form_encode (c :: s)) with (form_byte c ++ form_encode s).
  apply seven_app. split; [|exact IH].
  apply (byte_sweep (fun c => forallb (between 0 127) (form_byte c)) ltac:(vm_compute; reflexivity)).
Qed.

Lemma seven_append ps : forall q, seven q -> seven (append_pairs q ps).
Proof.
  induction ps as [|p ps IH]; intros q Q; [exact Q|]. cbn [append_pairs]. apply IH.
  apply seven_app. split; [exact Q|]. apply seven_app. split; [destruct q; reflexivity|].
  apply seven_app. split; [apply seven_form|]. apply seven_app. split; [reflexivity|apply seven_form].
Qed.

(** A URL written in ASCII, by component. *)
Definition seven_opt (o : option str) : Prop := match o with Some s => seven s | None => True end.

Record seven_url (u : url) : Prop := {
  su_scheme : seven (u_scheme u);
  su_user : seven (u_user u);
  su_host : seven_opt (u_host u);
  su_path : seven (u_path u);
  su_query : seven_opt (u_query u);
  su_frag : seven_opt (u_frag u);
}.

Lemma seven_url_iff u : seven (url_to_str u) <-> seven_url u.
Proof.
  unfold url_to_str. rewrite !seven_app. split.
  - intros (S & _ & U & H & _ & P & Q & F). constructor; try assumption.
    + destruct (u_host u); [exact H|exact Logic.I].
    + destruct (u_query u); [apply (proj2 (proj1 (seven_app $"?" s) Q))|exact Logic.I].
    + destruct (u_frag u); [apply (proj2 (proj1 (seven_app $"#" s) F))|exact Logic.I].
  - intros [S U H P Q F]. repeat split; try assumption.
    + destruct (u_host u); [exact H|reflexivity].
    + destruct (u_port u); [apply (seven_app $":"); split; [reflexivity|apply seven_dec]|reflexivity].
    + destruct (u_query u); [apply (seven_app $"?"); split; [reflexivity|exact Q]|reflexivity].
    + destruct (u_frag u); [apply (seven_app $"#"); split; [reflexivity|exact F]|reflexivity].
Qed.

Lemma seven_set_port u p u' : seven_url u -> set_port u p = Some u' -> seven_url u'.
Proof.
  intros [S U H P Q F]. unfold set_port. destruct (u_host u) as [[|c h]|] eqn:E; try discriminate.
  intros [= <-]. constructor; simpl; assumption.
Qed.

Lemma seven_extend u ps : seven_url u -> seven_url (extend_pairs u ps).
Proof.
  intros [S U H P Q F]. constructor; simpl; try assumption. apply seven_append. destruct (u_query u); [exact Q|reflexivity].
Qed.

Lemma seven_redirect O act hp hsp u : text_laws O -> account_redirect_uri O act hp hsp = Val u -> seven_url u.
Proof.
  intros TL. unfold account_redirect_uri. destruct (negb (is_some hp || is_some hsp)); [discriminate|].
  destruct (o_url_parse O (a_redirect_uri act)) as [v|] eqn:P; [|discriminate]. cbn [ok_or bind].
  apply (tl_url _ TL), seven_url_iff in P.
  destruct (is_some hsp && starts_with $"https" (map ascii_lower (a_redirect_uri act))).
  - destruct (set_port v hsp) as [x|] eqn:SP; [|discriminate]. intros [= <-]. eapply seven_set_port; eassumption.
  - destruct (set_port v hp) as [x|] eqn:SP; [|discriminate]. intros [= <-]. eapply seven_set_port; eassumption.
Qed.

(** * JSON *)

Lemma lookup_last_in {A} k (m : list (str * A)) x : lookup_last k m = Some x -> exists k', In (k', x) m.
Proof.
  induction m as [|[k' v] m IH]; simpl; [discriminate|]. destruct (lookup_last k m) as [y|].
  - intros [= <-]. destruct (IH eq_refl) as (k2 & I). exists k2. right. exact I.
  - destruct (str_eqb k k'); [|discriminate]. intros [= <-]. exists k'. left. reflexivity.
Qed.

Lemma json_get_string k v s : json_get k v = Some (JStr s) -> string_in s v.
Proof.
  unfold json_get. destruct v; try discriminate. intros H. apply lookup_last_in in H as (k' & I).
  eapply si_value; [exact I|constructor].
Qed.

Lemma json_str_text O body v k s : text_laws O -> utf8 body -> o_json O body = inl v -> json_str k v = Some s -> utf8 s.
Proof.
  intros TL U J H. eapply (tl_json _ TL); try eassumption. unfold json_str in H.
  destruct (json_get k v) as [[| | | |x| |]|] eqn:G; try discriminate. injection H as ->. eapply json_get_string. exact G.
Qed.

(** * Queries *)

Lemma lookup_in_pair {A} k (m : list (str * A)) x : lookup k m = Some x -> exists k', In (k', x) m.
Proof.
  induction m as [|[k' v] m IH]; simpl; [discriminate|]. destruct (str_eqb k k').
  - intros [= <-]. exists k'. left. reflexivity.
  - intros H. destruct (IH H) as (k2 & I). exists k2. right. exact I.
Qed.

Lemma query_text k u s : lookup k (query_pairs u) = Some s -> utf8 s.
Proof.
  intros H. apply lookup_in_pair in H as (k' & I). unfold query_pairs, form_parse in I.
  apply in_map_iff in I as (seg & E & _). unfold parse_segment in E.
  destruct (split_first "="%char seg) as [[a b]|]; injection E as _ <-; [apply utf8_lossy_text|reflexivity].
Qed.

(** * Dumps *)

Definition yields {A} (P : A -> Prop) (d : decoder A) : Prop := forall s x r, d s = Some (x, r) -> P x.

Lemma yields_bind {A B} (P : A -> Prop) (Q : B -> Prop) (d : decoder A) (f : A -> decoder B) :
  yields P d -> (forall x, P x -> yields Q (f x)) -> yields Q (dbind d f).
Proof.
  intros D F s y r. unfold dbind. destruct (d s) as [[x s']|] eqn:E; [|discriminate]. intros H.
  eapply F; [eapply D; exact E|exact H].
Qed.

Lemma yields_ret {A} (P : A -> Prop) x : P x -> yields P (dret x).
Proof. intros H s y r [= <- _]. exact H. Qed.

Lemma yields_any {A} (d : decoder A) : yields (fun _ => True) d.
Proof. intros s x r _. exact Logic.I. Qed.

Lemma yields_str : yields utf8 dec_str.
Proof.
  unfold dec_str. eapply yields_bind; [apply yields_any|]. intros k _. eapply yields_bind; [apply yields_any|].
  intros b _ s x r. destruct (utf8_valid b) eqn:U; [|discriminate]. intros [= <- _]. exact U.
Qed.

Lemma yields_opt {A} (P : A -> Prop) (d : decoder A) : yields P d -> yields (opt_all P) (dec_opt d).
Proof.
  intros D. unfold dec_opt. eapply yields_bind; [apply yields_any|]. intros t _.
  destruct (t =? 0)%N; [apply yields_ret, opt_all_none|]. destruct (t =? 1)%N; [|intros s x r H; discriminate].
  eapply yields_bind; [exact D|]. intros x X. apply yields_ret, opt_all_some, X.
Qed.

Lemma yields_n {A} (P : A -> Prop) (d : decoder A) k : yields P d -> yields (Forall P) (dec_n d k).
Proof.
  intros D. induction k as [|k IH]; cbn [dec_n]; [apply yields_ret; constructor|].
  eapply yields_bind; [exact D|]. intros x X. eapply yields_bind; [exact IH|]. intros l L. apply yields_ret. constructor; assumption.
Qed.

Definition utf8_dumped (t : tokenstate_dump) : Prop :=
  match t with DEmpty => True | DActive tok _ _ rt => utf8 tok /\ opt_all utf8 rt end.

Lemma yields_tokenstate : yields utf8_dumped dec_tokenstate_dump.
Proof.
  unfold dec_tokenstate_dump. eapply yields_bind; [apply yields_any|]. intros t _.
  destruct (t =? 0)%N; [apply yields_ret; exact Logic.I|]. destruct (t =? 1)%N; [|intros s x r H; discriminate].
  eapply yields_bind; [apply yields_str|]. intros tok T. eapply yields_bind; [apply yields_any|]. intros ob _.
  eapply yields_bind; [apply yields_any|]. intros ex _. eapply yields_bind; [apply yields_opt, yields_str|]. intros rt R.
  apply yields_ret. split; assumption.
Qed.

Lemma fold_insert_forall {A} (P : str * A -> Prop) l : forall m,
  (forall k v, In (k, v) l -> P (k, v)) -> Forall P m -> Forall P (fold_left (fun m kv => map_insert (fst kv) (snd kv) m) l m).
Proof.
  induction l as [|[k v] l IH]; intros m H F; [exact F|]. cbn [fold_left]. apply IH.
  - intros k' v' I. apply H. right. exact I.
  - apply map_insert_forall; [apply H; left; reflexivity|exact F].
Qed.

(** The values of a map built from [l] are values of [l]. *)
Lemma fold_insert_snd {A} (P : A -> Prop) l : forall m,
  Forall (fun kv : str * A => P (snd kv)) l -> Forall (fun kv => P (snd kv)) m ->
  Forall (fun kv => P (snd kv)) (fold_left (fun m kv => map_insert (fst kv) (snd kv) m) l m).
Proof.
  induction l as [|[k v] l IH]; intros m H F; [exact F|]. inversion H as [|? ? H1 H2]. subst. cbn [fold_left].
  apply IH; [exact H2|]. apply map_insert_forall; [exact H1|exact F].
Qed.

Lemma dump_text plain d n ad td :
  deserialize plain = Some d -> lookup n (d_accounts d) = Some (ad, td) -> utf8_dumped td.
Proof.
  unfold deserialize. destruct (dec_dump plain) as [[d' r]|] eqn:E; [|discriminate]. intros [= ->] L.
  assert (Forall (fun kv => utf8_dumped (snd (snd kv))) (d_accounts d)) as F.
  { revert plain d r E L. change (yields (fun d => lookup n (d_accounts d) = Some (ad, td) ->
      Forall (fun kv => utf8_dumped (snd (snd kv))) (d_accounts d)) dec_dump).
    unfold dec_dump. eapply yields_bind; [apply yields_any|]. intros v _.
    eapply yields_bind with (P := Forall (fun kv => utf8_dumped (snd (snd kv)))).
    - unfold dec_list. eapply yields_bind; [apply yields_any|]. intros k _. apply yields_n. unfold dec_entry.
      eapply yields_bind; [apply yields_any|]. intros nm _. eapply yields_bind; [apply yields_any|]. intros a _.
      eapply yields_bind; [apply yields_tokenstate|]. intros ts T. apply yields_ret. exact T.
    - intros l F. apply yields_ret. intros _. cbn [d_accounts]. unfold map_of_list.
      apply (fold_insert_snd (fun p => utf8_dumped (snd p))); [exact F|constructor]. }
  apply lookup_in_pair in L as (k' & I). rewrite Forall_forall in F. apply (F _ I).
Qed.

(** * The invariant *)

Definition action_txt (a : action) : Prop :=
  match a with
  | APushEvent n _ => utf8 n
  | AEmit o => utf8_shown o
  | _ => True
  end.

Fixpoint pc_txt (p : pc) : Prop :=
  match p with
  | PDo a k => action_txt a /\ pc_txt k
  | PRefPost _ n r uri ps => utf8 n /\ utf8 r /\ utf8 uri /\ utf8_pairs ps
  | PRefBody _ n r b => utf8 n /\ utf8 r /\ utf8 b
  | PRefGot _ n tok _ rt _ => utf8 n /\ utf8 tok /\ opt_all utf8 rt
  | PRefPerm _ n m | PRefTransient _ n m => utf8 n /\ utf8 m
  | PRefCmd _ n cmd => utf8 n /\ utf8 cmd
  | PRefCmdDone _ n _ => utf8 n
  | PHttpPost _ uri ps _ => utf8 uri /\ utf8_pairs ps
  | PHttpBody _ b => utf8 b
  | PHttpFail _ m => utf8 m
  | PHttpNotify n m _ => utf8 n /\ utf8 m
  | PEvCmd n _ => utf8 n
  | PEvRun cmd n _ => utf8 cmd /\ utf8 n
  | _ => True
  end.

Record txt (w : world) : Prop := {
  tx_state : utf8_state (w_lk w);
  tx_threads : Forall pc_txt (w_threads w);
  tx_queue : Forall (fun p => utf8 (fst p)) (w_evq w);
  tx_trace : Forall utf8_shown (w_trace w);
}.

Lemma account_txt lk n act : utf8_state lk -> account_of lk n = Some act -> utf8_account act.
Proof.
  intros [C _] A. unfold account_of in A. apply lookup_in_pair in A as (k & I).
  pose proof (uc_accounts _ C) as F. rewrite Forall_forall in F. apply (F _ I).
Qed.

Lemma entry_txt lk e : utf8_state lk -> has lk e -> utf8 (d_name e) /\ utf8_token (d_ts e).
Proof. intros [_ D] H. apply D, H. Qed.

Lemma bump_txt k lk i ts : utf8_state lk -> utf8_token ts -> utf8_state (bump k lk i ts).
Proof.
  intros [C D] T. split; [exact C|]. intros e I. apply bump_in in I as [(e1 & I1 & _ & ->)|[I1 _]]; [|apply D, I1].
  split; [apply (D _ I1)|exact T].
Qed.

Lemma refresh_pairs_txt act r : utf8_account act -> utf8 r -> utf8_pairs (refresh_pairs act r).
Proof.
  intros A R. unfold refresh_pairs, utf8_pairs. apply Forall_app. split.
  - repeat constructor; try reflexivity; simpl; try assumption. apply A.
  - pose proof (ua_secret _ A) as S. destruct (a_client_secret act) as [x|]; [|constructor].
    constructor; [|constructor]. split; [reflexivity|apply S; reflexivity].
Qed.

Lemma code_pairs_txt act code v ru :
  utf8_account act -> utf8 code -> utf8 v -> utf8 ru -> utf8_pairs (code_pairs act code v ru).
Proof.
  intros A C V R. unfold code_pairs, utf8_pairs. apply Forall_app. split.
  - repeat constructor; try reflexivity; simpl; try assumption. apply A.
  - pose proof (ua_secret _ A) as S. destruct (a_client_secret act) as [x|]; [|constructor].
    constructor; [|constructor]. split; [reflexivity|apply S; reflexivity].
Qed.

Lemma status_reason_txt code b : opt_all utf8 b -> utf8 (status_reason code b).
Proof.
  intros B. unfold status_reason. destruct b as [r|]; [|apply seven_utf8, seven_dec].
  apply utf8_app; [apply seven_utf8, seven_dec|]. apply utf8_app; [reflexivity|apply B; reflexivity].
Qed.

Lemma ref_body_txt O e i n r b : text_laws O -> utf8 n -> utf8 r -> utf8 b -> pc_txt (ref_body_next O e i n r b).
Proof.
  intros TL N R B. assert (forall m, utf8 m -> utf8 ($"Refreshing " ++ n ++ $" failed: " ++ m)) as MS.
  { intros m M. apply utf8_app; [reflexivity|]. apply utf8_app; [exact N|]. apply utf8_app; [reflexivity|exact M]. }
  unfold ref_body_next. destruct (o_json O b) as [v|m] eqn:J.
  2: { split; [exact N|]. apply MS. eapply (tl_json_err _ TL); eassumption. }
  assert (forall k s, json_str k v = Some s -> utf8 s) as JS by (intros k s; eapply json_str_text; eassumption).
  destruct (json_str $"error" v) as [m|] eqn:E; [split; [exact N|]; apply MS; eapply JS; exact E|].
  destruct (json_str $"access_token" v) as [tok|] eqn:A; [|split; [exact N|reflexivity]].
  destruct (json_u64 $"expires_in" v) as [ex|]; [|split; [exact N|reflexivity]].
  destruct (json_str $"token_type" v) as [ty|]; [|split; [exact N|reflexivity]].
  destruct (str_eqb ty $"Bearer"); [|split; [exact N|reflexivity]].
  split; [exact N|]. split; [eapply JS; exact A|].
  destruct (json_get $"refresh_token" v) as [[| | | |x| |]|] eqn:G; try exact (opt_all_none utf8); apply opt_all_some; [|exact R].
  eapply (tl_json _ TL); [exact B|exact J|]. eapply json_get_string. exact G.
Qed.

Lemma auth_failed_txt n m : utf8 n -> utf8 m -> utf8 ($"Authentication for " ++ n ++ $" failed: " ++ m).
Proof.
  intros N M. apply utf8_app; [reflexivity|]. apply utf8_app; [exact N|]. apply utf8_app; [reflexivity|exact M].
Qed.

Lemma emit_cmds_txt l k :
  Forall (fun p : str * str * url => utf8 (fst (fst p)) /\ utf8 (snd (fst p)) /\ utf8 (url_to_str (snd p))) l ->
  pc_txt k -> pc_txt (emit_cmds l k).
Proof.
  intros F K. induction F as [|[[n c] u] l (X1 & X2 & X3) F IH]; [exact K|]. cbn [emit_cmds pc_txt action_txt utf8_shown].
  split; [|exact IH]. repeat split; assumption.
Qed.

Lemma spawn_all_txt l k : pc_txt k -> pc_txt (spawn_all l k).
Proof. intros K. induction l as [|i l IH]; [exact K|]. split; [exact Logic.I|exact IH]. Qed.

(** Continuations that [csr] does not describe down to the last string. *)
Definition loose (p : pc) : bool :=
  match p with PMain | PHttpStart _ _ | PHttpBody _ _ => true | _ => false end.

(** The state after a critical section, and what it shows. *)
Lemma csr_txt O w e p lk' p' os :
  text_laws O -> wf (w_lk w) -> csr O w e p lk' p' os -> utf8_state (w_lk w) -> pc_txt p ->
  (forall uri ps r, In (OPost uri ps r) os -> utf8_post r) ->
  utf8_state lk' /\ Forall utf8_shown os /\ (loose p = false -> pc_txt p').
Proof.
  intros TL W C ST PT PO.
  assert (forall e0, has (w_lk w) e0 -> utf8 (d_name e0) /\ utf8_token (d_ts e0)) as EN
    by (intros e0; apply entry_txt; exact ST).
  assert (forall n act, account_of (w_lk w) n = Some act -> utf8_account act) as AC
    by (intros n act; apply account_txt; exact ST).
  assert (forall e0 a, has (w_lk w) e0 -> d_ts e0 = TSActive a -> utf8 (access_token a) /\ opt_all utf8 (refresh_token a)) as TK.
  { intros e0 a H T. destruct (EN e0 H) as [_ X]. rewrite T in X. exact X. }
  assert (forall n ev, utf8 n -> pc_txt (push_event n ev PDone)) as PE by (intros n ev U; repeat split; exact U).
  assert (forall k i ts (P Q : Prop), utf8_token ts -> P -> Q -> utf8_state (bump k (w_lk w) i ts) /\ P /\ Q) as B.
  { intros k i ts P Q T HP HQ. split; [apply bump_txt; assumption|]. split; assumption. }
  destruct C; cbn [pc_txt] in PT;
    try (split; [exact ST|]; split; [repeat constructor; fail|]; intros NM; discriminate NM);
    try (split; [exact ST|]; split; [repeat constructor; fail|]; intros NM; repeat split; try tauto; fail).
  - (* m_auth *)
    destruct (EN e0 ltac:(assumption)) as [N _]. apply B; [|constructor; [exact Logic.I|constructor; [|constructor]]|discriminate].
    + split; [apply seven_utf8, seven_b64|]. split; [apply seven_utf8, seven_b64|].
      apply seven_utf8, seven_url_iff, seven_extend, seven_url_iff.
      eapply (tl_url _ TL). eassumption.
    + split; [exact N|]. apply seven_utf8, seven_url_iff, seven_extend, seven_url_iff.
      eapply (tl_url _ TL). eassumption.
  - (* m_revoke *) apply B; [exact Logic.I|repeat constructor|discriminate].
  - (* m_reload *)
    pose proof (config_path_text O e) as CT.
    match goal with X : config_from_path _ _ = _ |- _ => rewrite X in CT end. cbn [utf8_outcome] in CT.
    match goal with U : update_conf _ _ = _, CO : conf_ok _ _ |- _ =>
      destruct (update_conf_spec _ _ _ W (co_wf _ _ CO) U) as (_ & _ & LC & K) end.
    split; [|split; [constructor; [exact Logic.I|constructor; [exact CT|constructor]]|discriminate]].
    split; [rewrite LC; exact CT|]. intros e0 I0. destruct (K e0 I0) as (a' & A' & X).
    unfold account_of in A'. rewrite LC in A'. pose proof (uc_accounts _ CT) as F. rewrite Forall_forall in F.
    assert (utf8 (d_name e0)) as N by (apply lookup_in in A'; exact (proj1 (F _ A'))).
    split; [exact N|].
    destruct (account_of (w_lk w) (d_name e0)) as [a|]; [destruct (secure_eq a' a)|];
      [apply (EN e0 X)|destruct X as [_ X]; rewrite X; exact Logic.I|destruct X as [_ X]; rewrite X; exact Logic.I].
  - (* m_restore *)
    split; [|split; [repeat constructor|discriminate]].
    match goal with E : lconfig lk' = _ |- _ => split; [rewrite E; apply ST|] end.
    intros e' I'. match goal with F : Forall2 _ _ _ |- _ => destruct (Forall2_in_r _ _ _ _ F I') as (e0 & I0 & NE & X) end.
    destruct (EN e0 I0) as [N T]. rewrite NE. split; [exact N|].
    destruct X as [->|[_ (NA & act & ad & td & i & L & LD & SR & TE & _)]]; [exact T|].
    assert (utf8_dumped td) as U by (eapply dump_text; eassumption).
    rewrite TE. destruct td as [|tok ob ex rt]; [exact Logic.I|]. exact U.
  - (* r_start *)
    destruct (EN e0 ltac:(assumption)) as [N _]. destruct (TK e0 a ltac:(assumption) ltac:(assumption)) as [T1 T2].
    assert (utf8 r) as UR by (apply T2; assumption). assert (utf8_account act) as UA by (eapply AC; eassumption).
    apply B; [split; assumption|constructor|]. intros _. repeat split; try assumption; [exact (ua_token_uri _ UA)|].
    apply refresh_pairs_txt; assumption.
  - (* r_start_none *) apply B; [exact Logic.I|constructor|intros _; exact Logic.I].
  - (* r_post *)
    destruct PT as (N & R & U & P). specialize (PO uri pairs (e_post e) (or_introl eq_refl)).
    split; [exact ST|]. split; [repeat constructor; assumption|]. intros _. unfold ref_post_next.
    destruct (e_post e) as [b|m|c b|k m]; simpl in PO |- *; try tauto.
    + split; [exact N|]. apply status_reason_txt, PO.
    + destruct (is_transient k); split; assumption.
  - (* r_body *) split; [exact ST|]. split; [constructor|]. intros _. apply ref_body_txt; tauto.
  - (* r_got *) destruct PT as (N & T & R). apply B; [split; assumption|constructor|]. intros _. repeat split; exact N.
  - (* r_got_bad *) apply B; [exact Logic.I|constructor|]. intros _. apply PE. tauto.
  - (* r_perm *) apply B; [exact Logic.I|constructor|]. intros _. apply PE. tauto.
  - (* r_trans *)
    destruct (TK e0 a ltac:(assumption) ltac:(assumption)) as [T1 T2]. apply B; [split; assumption|constructor|]. intros _. repeat split.
  - (* r_trans_cmd *)
    destruct (TK e0 a ltac:(assumption) ltac:(assumption)) as [T1 T2]. apply B; [split; assumption|constructor|]. intros _.
    split; [apply PT|]. destruct ST as [SC _]. apply (uc_transient_cmd _ SC). assumption.
  - (* r_cmd *) split; [exact ST|]. split; [constructor; [split; apply PT|constructor]|]. intros _. apply PT.
  - (* r_cmd_ok *)
    destruct (TK e0 a ltac:(assumption) ltac:(assumption)) as [T1 T2]. apply B; [split; assumption|constructor|]. intros _. repeat split.
  - (* r_cmd_fail *) apply B; [exact Logic.I|constructor|]. intros _. repeat split; exact PT.
  - (* h_error *) apply B; [exact Logic.I|constructor|discriminate].
  - (* h_post *)
    destruct PT as (U & P). specialize (PO uri pairs (e_post e) (or_introl eq_refl)).
    split; [exact ST|]. split; [repeat constructor; assumption|]. intros _. unfold http_post_next.
    destruct (e_post e) as [b|m|c b|k m]; simpl in PO |- *; try tauto.
    + apply status_reason_txt, PO.
    + destruct tries as [|[|n]]; [| |split; assumption]; exact (utf8_app $"couldn't connect to " uri eq_refl U).
  - (* h_body_ok *)
    assert (forall k s, json_str k v = Some s -> utf8 s) as JS by (intros k s; eapply json_str_text; eassumption).
    apply B; [|constructor|discriminate]. split; [eapply JS; eassumption|]. intros x. apply JS.
  - (* h_fail *)
    destruct (EN e0 ltac:(assumption)) as [N _]. apply B; [exact Logic.I|constructor|]. intros _. split; [exact N|].
    apply auth_failed_txt; assumption.
  - (* h_notify_cmd *)
    split; [exact ST|]. split.
    + constructor; [|constructor]. split; [|exact PT]. destruct ST as [SC _]. apply (uc_error_cmd _ SC). assumption.
    + intros _. destruct wa; [apply PE, PT|exact Logic.I].
  - (* h_notify_log *)
    split; [exact ST|]. split; [constructor; [exact PT|constructor]|]. intros _. destruct wa; [apply PE, PT|exact Logic.I].
  - (* v_pop_cmd *)
    split; [exact ST|]. split; [constructor|]. intros _. split; [|exact PT]. destruct ST as [SC _]. apply (uc_event_cmd _ SC). assumption.
  - (* v_run *) split; [exact ST|]. split; [constructor; [exact PT|constructor]|]. intros _. exact Logic.I.
  - (* n_scan *)
    split.
    + match goal with E : lconfig lk' = _ |- _ => split; [rewrite E; apply ST|] end.
      intros e' I'. match goal with F : Forall2 _ _ _ |- _ => destruct (Forall2_in_r _ _ _ _ F I') as (e0 & I0 & X) end.
      destruct (EN e0 I0) as [N T]. destruct (notify_due (w_lk w) (env_now e) e0); [|subst e'; split; assumption].
      destruct X as (NE & _ & TE). rewrite NE, TE. split; [exact N|]. destruct (d_ts e0); exact T.
    + split; [constructor|]. intros _. apply emit_cmds_txt; [|exact Logic.I]. rewrite Forall_forall. intros [[n c] u] I.
      apply in_flat_map in I as (e0 & I0 & I). destruct (EN e0 I0) as [N T]. unfold notify_cmds in I.
      destruct (notify_due (w_lk w) (env_now e) e0); [|destruct I].
      destruct ST as [SC _]. pose proof (uc_auth_cmd _ SC) as AU.
      destruct (c_auth_notify_cmd (lconfig (w_lk w))) as [cmd|]; [|destruct I].
      destruct (d_ts e0) as [|cvr ln st u0|a]; try (destruct I; fail). cbn [pending_url] in I. destruct I as [[= <- <- <-]|[]].
      cbn [fst snd]. split; [exact N|]. split; [apply AU; reflexivity|apply T].
  - (* f_scan *) split; [exact ST|]. split; [constructor|]. intros _. apply spawn_all_txt. exact Logic.I.
Qed.

(** * Requests *)

Definition cs_txt (c : cs) : Prop := forall lk p os, c = Val (lk, p, os) -> pc_txt p.

Lemma cs_val lk p os : pc_txt p -> cs_txt (Val (lk, p, os)).
Proof. intros P lk' p' os' [= _ <- _]. exact P. Qed.

Lemma cs_bind {A} (o : outcome A) (f : A -> cs) : (forall x, o = Val x -> cs_txt (f x)) -> cs_txt (bind o f).
Proof. intros H. destruct o as [x|m|]; [apply H; reflexivity| |]; intros lk p os E; discriminate E. Qed.

Lemma token_at lk i ts : utf8_state lk -> ct_tokenstate lk i = Val ts -> utf8_token ts.
Proof.
  intros [_ D]. unfold ct_tokenstate, find_id. destruct (find _ (details lk)) as [e|] eqn:F; [|discriminate].
  intros [= <-]. apply find_some in F as [I _]. apply (D _ I).
Qed.

Lemma account_at lk i act : utf8_state lk -> ct_account lk i = Val act -> utf8_account act.
Proof.
  intros S. unfold ct_account, find_id. destruct (find _ (details lk)) as [e|] eqn:F; [|discriminate].
  cbn [unwrap bind]. destruct (lookup (d_name e) (c_accounts (lconfig lk))) as [a|] eqn:L; [|discriminate].
  intros [= <-]. eapply account_txt; [exact S|exact L].
Qed.

Lemma no_account_txt n : utf8 n -> utf8 (no_account n).
Proof. intros N. apply utf8_app; [reflexivity|]. apply utf8_app; [exact N|reflexivity]. Qed.

Lemma pending_txt wu u : utf8 (url_to_str u) -> utf8 (pending_reply wu u).
Proof. intros U. unfold pending_reply. destruct (str_eqb wu $"withurl"); [apply utf8_app; [reflexivity|exact U]|reflexivity]. Qed.

Lemma reply_txt req s : utf8 s -> pc_txt (reply req s).
Proof. intros U. split; [right; exact U|exact Logic.I]. Qed.

Lemma split_txt c s a b : ascii7 c -> utf8 s -> split_first c s = Some (a, b) -> utf8 a /\ utf8 b.
Proof. intros C U H. apply split_first_some in H as [-> _]. eapply utf8_cut; eassumption. Qed.

Lemma from_utf8_val s x : from_utf8 s = Val x -> utf8 x.
Proof. unfold from_utf8. destruct (utf8_valid s) eqn:U; [intros [= <-]; exact U|discriminate]. Qed.

Lemma request_url_txt O e hp hsp lk i lk' u :
  text_laws O -> request_token O e hp hsp lk i = Val (lk', u) -> utf8 (url_to_str u).
Proof.
  intros TL. unfold request_token. destruct (ct_tokenstate lk i) as [ts|m|]; try discriminate. cbn [bind].
  assert (forall o : outcome (locked * url), (o = Val (lk', u) -> utf8 (url_to_str u)) ->
    match ts with TSActive _ => Panic | _ => o end = Val (lk', u) -> utf8 (url_to_str u)) as K.
  { intros o H E. destruct ts; try discriminate; apply H; exact E. }
  apply K. destruct (ct_account lk i) as [act|m|]; try discriminate. cbn [bind].
  destruct (account_redirect_uri O act hp hsp) as [ru|m|]; try discriminate. cbn [bind].
  destruct (o_url_parse O (a_auth_uri act)) as [base|] eqn:P; [|discriminate]. cbn [ok_or bind].
  match goal with |- context [tokenstate_replace ?a ?b ?c] => destruct (tokenstate_replace a b c) as [[l2 i2]|m|] end;
    try discriminate. cbn [bind]. intros [= _ <-].
  apply seven_utf8, seven_url_iff, seven_extend, seven_url_iff. eapply (tl_url _ TL). exact P.
Qed.

Lemma request_and_reply_txt O e w req wu n i : text_laws O -> cs_txt (request_and_reply O e w req wu n i).
Proof.
  intros TL. apply cs_bind. intros [lk' u] E. apply cs_val. split; [exact Logic.I|]. apply reply_txt, pending_txt.
  eapply request_url_txt; eassumption.
Qed.

Lemma seven_space : ascii7 " "%char. Proof. reflexivity. Qed.
Lemma seven_colon : ascii7 ":"%char. Proof. reflexivity. Qed.

Lemma req_refresh_txt O e w req rest : text_laws O -> utf8_state (w_lk w) -> cs_txt (req_refresh O e w req rest).
Proof.
  intros TL ST. apply cs_bind. intros rest' R. apply from_utf8_val in R.
  destruct (split_first " "%char rest') as [[wu n]|] eqn:S; [|intros lk p os E; discriminate E].
  destruct (split_txt _ _ _ _ seven_space R S) as [_ N].
  destruct (validate_act_name (w_lk w) n) as [i|]; [|apply cs_val, reply_txt, no_account_txt, N].
  apply cs_bind. intros [|cvr ln st u|a] _; try (apply request_and_reply_txt; exact TL).
  apply cs_val. split; [exact Logic.I|]. apply reply_txt. reflexivity.
Qed.

Lemma req_show_txt O e w req rest : text_laws O -> utf8_state (w_lk w) -> cs_txt (req_showtoken O e w req rest).
Proof.
  intros TL ST. apply cs_bind. intros rest' R. apply from_utf8_val in R.
  destruct (split_first " "%char rest') as [[wu n]|] eqn:S; [|intros lk p os E; discriminate E].
  destruct (split_txt _ _ _ _ seven_space R S) as [_ N].
  destruct (validate_act_name (w_lk w) n) as [i|]; [|apply cs_val, reply_txt, no_account_txt, N].
  apply cs_bind. intros ts T. apply (token_at _ _ _ ST) in T.
  destruct ts as [|cvr ln st u|a]; [apply request_and_reply_txt; exact TL| |].
  - apply cs_val, reply_txt, pending_txt, T.
  - destruct (env_now e <? expiry a)%Z; [|destruct (ongoing a)].
    + apply cs_val, reply_txt. apply utf8_app; [reflexivity|exact (proj1 T)].
    + apply cs_val, reply_txt. reflexivity.
    + apply cs_val. split; [exact Logic.I|]. apply reply_txt. reflexivity.
Qed.

Lemma req_revoke_txt w req rest : cs_txt (req_revoke w req rest).
Proof.
  apply cs_bind. intros n R. apply from_utf8_val in R. destruct (validate_act_name (w_lk w) n) as [i|].
  - apply cs_bind. intros [lk' i'] _. apply cs_val. split; [exact R|]. split; [exact Logic.I|]. apply reply_txt. reflexivity.
  - apply cs_val, reply_txt, no_account_txt, R.
Qed.

Lemma signalled_txt req s : utf8 s -> pc_txt (PDo ASigNotifier (PDo ASigRefresher (reply req s))).
Proof. intros U. split; [exact Logic.I|]. split; [exact Logic.I|]. apply reply_txt, U. Qed.

Lemma req_reload_txt O e w req : cs_txt (req_reload O e w req).
Proof.
  unfold req_reload. pose proof (config_path_text O e) as CT. destruct (config_from_path O e) as [c|m|].
  - apply cs_bind. intros lk' _. apply cs_val, signalled_txt. reflexivity.
  - apply cs_val, reply_txt. apply utf8_app; [reflexivity|exact CT].
  - intros lk p os E. discriminate E.
Qed.

Lemma req_restore_txt O e w req rest : cs_txt (req_restore O e w req rest).
Proof.
  unfold req_restore.
  assert (forall m, auth_restore O (w_lk w) rest (e_clk e) (e_hash e) = Err m -> utf8 m) as K.
  { intros m. unfold auth_restore. destruct (List.length rest <? nonce_len); [intros [= <-]; reflexivity|].
    destruct (o_decrypt O _ _) as [d|]; [|intros [= <-]; reflexivity].
    destruct (locked_restore (w_lk w) d (e_clk e) (e_hash e)); discriminate. }
  destruct (auth_restore O (w_lk w) rest (e_clk e) (e_hash e)) as [lk'|m|].
  - apply cs_val, signalled_txt. reflexivity.
  - apply cs_val, reply_txt. apply utf8_app; [reflexivity|apply K; reflexivity].
  - intros lk p os E. discriminate E.
Qed.

Lemma instant_txt O r i t : text_laws O -> instant_fmt O r i = Val t -> utf8 t.
Proof.
  intros TL E. destruct (instant_fmt_spec O r i) as [(t' & E' & [[_ ->]|[_ F]])|[E' _]]; rewrite E' in E; [..|discriminate E];
    injection E as <-; [reflexivity|exact (tl_time _ TL _ _ F)].
Qed.

Lemma val_same {A} (x y : A) : Val x = Val y -> y = x.
Proof. congruence. Qed.

Lemma status_text_txt O r1 r2 r3 ts t : text_laws O -> status_text O r1 r2 r3 ts = Val t -> utf8 t.
Proof.
  intros TL. pose proof (fun r i t => instant_txt O r i t TL) as IT. unfold status_text.
  destruct ts as [|cvr [i|] st u|a]; try (intros [= <-]; reflexivity).
  - destruct (instant_fmt O r1 i) as [x| |] eqn:E; cbn [bind]; try discriminate. apply IT in E. intros V. rewrite (val_same _ _ V).
    apply utf8_app; [reflexivity|]. apply utf8_app; [exact E|reflexivity].
  - destruct (ri1 r1 <? expiry a)%Z; [|destruct (last_attempt a) as [i|]; [|intros [= <-]; reflexivity]].
    + destruct (instant_fmt O r2 (obtained a)) as [x| |] eqn:E; cbn [bind]; try discriminate. apply IT in E.
      destruct (instant_fmt O r3 (expiry a)) as [y| |] eqn:E2; cbn [bind]; try discriminate. apply IT in E2. intros V. rewrite (val_same _ _ V).
      repeat (apply utf8_app; [first [assumption|reflexivity]|]). reflexivity.
    + destruct (instant_fmt O r2 i) as [x| |] eqn:E; cbn [bind]; try discriminate. apply IT in E. intros V. rewrite (val_same _ _ V).
      repeat (apply utf8_app; [first [assumption|reflexivity]|]). reflexivity.
Qed.

Lemma status_lines_txt O lk clk ids : text_laws O -> utf8_state lk -> forall j l,
  status_lines O lk clk j ids = Val l -> Forall utf8 l.
Proof.
  intros TL ST. induction ids as [|i ids IH]; intros j l; cbn [status_lines]; [intros [= <-]; constructor|].
  destruct (ct_account lk i) as [act|m|] eqn:A; try discriminate. cbn [bind].
  destruct (ct_tokenstate lk i) as [ts|m|]; try discriminate. cbn [bind].
  destruct (status_text O _ _ _ ts) as [txt|m|] eqn:ST1; try discriminate. cbn [bind].
  destruct (status_lines O lk clk (S j) ids) as [l0|m|] eqn:E; try discriminate. intros [= <-].
  constructor; [|eapply IH; exact E]. apply (account_at _ _ _ ST) in A. apply utf8_app; [exact (ua_name _ A)|].
  refine (utf8_app $": " _ eq_refl _). exact (status_text_txt _ _ _ _ _ _ TL ST1).
Qed.

Lemma req_status_txt O e w req : text_laws O -> utf8_state (w_lk w) -> cs_txt (req_status O e w req).
Proof.
  intros TL ST. apply cs_bind. intros l L. apply (status_lines_txt _ _ _ _ TL ST) in L. apply cs_val, reply_txt.
  assert (Forall utf8 (str_sort l)) as F.
  { rewrite Forall_forall in *. intros s I. apply L. eapply Permutation.Permutation_in; [apply str_sort_perm|exact I]. }
  destruct (str_sort l) as [|x l']; [reflexivity|]. apply utf8_app; [reflexivity|]. apply utf8_join; [reflexivity|exact F].
Qed.

Lemma quoted_txt s : utf8 s -> utf8 (quoted s).
Proof. intros U. apply utf8_cons; [reflexivity|]. apply utf8_app; [exact U|reflexivity]. Qed.

Lemma info_txt w : opt_all utf8 (w_pubkey w) -> utf8 (info_reply w).
Proof.
  intros K. assert (forall p, utf8 (opt_port p)) as OP.
  { intros [n|]; [apply seven_utf8, seven_dec|reflexivity]. }
  unfold info_reply.
  repeat (apply utf8_app; [first [reflexivity|apply quoted_txt; first [reflexivity|apply OP]]|]).
  apply utf8_app; [|reflexivity]. destruct (w_pubkey w) as [k|]; [|reflexivity].
  repeat (apply utf8_app; [first [reflexivity|apply quoted_txt; reflexivity]|]). apply quoted_txt, K. reflexivity.
Qed.

Lemma request_txt O e w req :
  text_laws O -> utf8_state (w_lk w) -> opt_all utf8 (w_pubkey w) -> cs_txt (request O e w req).
Proof.
  intros TL ST PK. unfold request. destruct (split_first ":"%char req) as [[cmd rest]|] eqn:SF; [|intros lk p os E; discriminate E].
  apply cs_bind. intros cmd' CU. unfold from_utf8 in CU. destruct (utf8_valid cmd) eqn:U; [|discriminate]. injection CU as <-.
  unfold dispatch. cbv zeta.
  destruct (str_eqb cmd $"dump" && match rest with [] => true | _ :: _ => false end) eqn:D.
  { apply andb_true_iff in D as [D1 D2]. apply cs_bind. intros d _. apply cs_val. split; [|exact Logic.I]. left.
    destruct (str_eqb_spec cmd $"dump") as [E|]; [|discriminate]. destruct rest; [|discriminate].
    apply split_first_some in SF as [-> _]. rewrite E. reflexivity. }
  destruct (str_eqb cmd $"info" && match rest with [] => true | _ :: _ => false end); [apply cs_val, reply_txt, info_txt, PK|].
  destruct (str_eqb cmd $"reload" && match rest with [] => true | _ :: _ => false end); [apply req_reload_txt|].
  destruct (str_eqb cmd $"refresh"); [apply req_refresh_txt; assumption|].
  destruct (str_eqb cmd $"restore"); [apply req_restore_txt|].
  destruct (str_eqb cmd $"revoke"); [apply req_revoke_txt|].
  destruct (str_eqb cmd $"showtoken"); [apply req_show_txt; assumption|].
  destruct (str_eqb cmd $"shutdown" && match rest with [] => true | _ :: _ => false end); [apply cs_val; split; exact Logic.I|].
  destruct (str_eqb cmd $"status" && match rest with [] => true | _ :: _ => false end); [apply req_status_txt; assumption|].
  apply cs_val, reply_txt. apply utf8_app; [reflexivity|]. apply utf8_app; [exact U|reflexivity].
Qed.

(** * Browsers *)

Lemma respond_txt s k : utf8 s -> pc_txt k -> pc_txt (respond s k).
Proof. intros U K. split; [exact U|exact K]. Qed.

Lemma http_start_txt O w https bytes : text_laws O -> utf8_state (w_lk w) -> cs_txt (http_start O w https bytes).
Proof.
  intros TL ST. unfold http_start. cbv zeta. destruct (parse_get O https bytes) as [uri|]; [|apply cs_val, respond_txt; [reflexivity|exact Logic.I]].
  destruct (find_pair $"state" (query_pairs uri)) as [st|]; [|apply cs_val, respond_txt; [reflexivity|exact Logic.I]].
  destruct (act_id_matching_token_state (w_lk w) st) as [i|]; [|apply cs_val, respond_txt; [reflexivity|exact Logic.I]].
  apply cs_bind. intros act A. apply (account_at _ _ _ ST) in A. apply cs_bind. intros ru R. apply (seven_redirect _ _ _ _ _ TL) in R.
  match goal with |- cs_txt (if ?x then _ else _) => destruct x end; [apply cs_val, respond_txt; [reflexivity|exact Logic.I]|].
  unfold find_pair. destruct (lookup $"error" (query_pairs uri)) as [reason|] eqn:ER.
  - apply query_text in ER. apply cs_bind. intros [lk' i'] TR. apply cs_bind. intros act' A'.
    assert (utf8_state lk') as ST'.
    { unfold tokenstate_replace in TR.
      match type of TR with context [update_first ?f ?g ?l] => destruct (update_first f g l) as [ds|] eqn:UF end; [|discriminate].
      injection TR as <- _. split; [apply ST|]. cbn [details]. intros e I.
      assert (forall ds0 ds1, update_first (fun e => (d_id e =? i)%N) (fun e => mkEntry (d_name e) (account_count (w_lk w)) TSEmpty) ds0 = Some ds1 ->
        (forall x, In x ds0 -> utf8 (d_name x) /\ utf8_token (d_ts x)) -> forall x, In x ds1 -> utf8 (d_name x) /\ utf8_token (d_ts x)) as K.
      { induction ds0 as [|y ds0 IH]; intros ds1; cbn [update_first]; [discriminate|]. destruct (d_id y =? i)%N.
        - intros [= <-] H x [<-|X]; [split; [apply (H y); left; reflexivity|exact Logic.I]|apply H; right; exact X].
        - destruct (update_first _ _ ds0) as [l|]; [|discriminate]. intros [= <-] H x [<-|X]; [apply H; left; reflexivity|].
          eapply IH; [reflexivity| |exact X]. intros z Z. apply H. right. exact Z. }
      eapply K; [exact UF|apply ST|exact I]. }
    apply (account_at _ _ _ ST') in A'. apply cs_val, respond_txt; [reflexivity|]. split; [exact (ua_name _ A')|].
    apply auth_failed_txt; [exact (ua_name _ A')|exact ER].
  - destruct (lookup $"code" (query_pairs uri)) as [code|] eqn:CO; [|apply cs_val, respond_txt; [reflexivity|exact Logic.I]].
    apply query_text in CO. apply cs_bind. intros ts T. apply (token_at _ _ _ ST) in T.
    destruct ts as [|cvr ln st' u|a]; try (intros lk p os E; discriminate E).
    apply cs_val, respond_txt; [reflexivity|]. split; [exact (ua_token_uri _ A)|].
    apply code_pairs_txt; [exact A|exact CO|apply T|]. apply seven_utf8, seven_url_iff, R.
Qed.

Lemma http_body_txt O e lk i body : text_laws O -> utf8_state lk -> utf8 body -> cs_txt (http_body O e lk i body).
Proof.
  intros TL ST B. unfold http_body. destruct (o_json O body) as [v|m] eqn:J.
  2: { apply cs_val. apply utf8_app; [reflexivity|]. eapply (tl_json_err _ TL); eassumption. }
  destruct (is_act_id_valid lk i); [|apply cs_val; exact Logic.I].
  destruct (json_str $"error" v) as [m|] eqn:E; [apply cs_val; eapply json_str_text; eassumption|].
  destruct (json_str $"token_type" v) as [ty|]; [|apply cs_val; reflexivity].
  destruct (json_u64 $"expires_in" v) as [ex|]; [|apply cs_val; reflexivity].
  destruct (json_str $"access_token" v) as [tok|]; [|apply cs_val; reflexivity].
  destruct (str_eqb ty $"Bearer"); [|apply cs_val; reflexivity]. cbv zeta.
  apply cs_bind. intros x _. apply cs_bind. intros act A. apply (account_at _ _ _ ST) in A. apply cs_bind. intros [lk' i'] _.
  apply cs_val. repeat split. exact (ua_name _ A).
Qed.

(** * Every step *)

Lemma loose_step O w tid e p w' :
  text_laws O -> w_alive w = true -> nth_error (w_threads w) tid = Some p -> loose p = true ->
  txt w -> opt_all utf8 (w_pubkey w) -> step O w (LTick tid e) = SNext w' -> Forall pc_txt (w_threads w').
Proof.
  intros TL AL N L [ST TH _ _] PK S. unfold step in S. rewrite AL, N in S. cbn [negb] in S.
  assert (forall w0 fb c, w_threads w0 = w_threads w -> pc_txt fb -> cs_txt c -> run_cs w0 tid fb c = SNext w' -> Forall pc_txt (w_threads w')) as K.
  { intros w0 fb c E F C R. unfold run_cs in R. destruct c as [[[lk q] os]|m|]; [| |discriminate]; injection R as <-;
      cbn [emit set_thread set_lk w_threads]; rewrite E; apply forall_list_set; try exact TH; [eapply C; reflexivity|exact F]. }
  assert (pc_txt p) as PT by (rewrite Forall_forall in TH; apply TH; eapply nth_error_In; exact N).
  destruct p; try discriminate L; cbn [step_thread] in S.
  - destruct (e_client e) as [req|]; [|discriminate]. eapply K in S; [exact S|reflexivity|exact Logic.I|apply request_txt; assumption].
  - eapply K in S; [exact S|reflexivity|exact Logic.I|apply http_start_txt; assumption].
  - eapply K in S; [exact S|reflexivity|exact Logic.I|apply http_body_txt; assumption].
Qed.

Lemma utf8_posts_app a b : utf8_posts (a ++ b) <-> utf8_posts a /\ utf8_posts b.
Proof.
  split.
  - intros H. split; intros uri ps r I; apply (H uri ps r); apply in_or_app; [left|right]; exact I.
  - intros [A B] uri ps r I. apply in_app_or in I as [I|I]; [apply (A _ _ _ I)|apply (B _ _ _ I)].
Qed.

Lemma tstep_txt O w l w' :
  text_laws O -> inv O w -> w_alive w = true -> step O w l = SNext w' -> tstep O w l w' ->
  utf8_posts (w_trace w') -> opt_all utf8 (w_pubkey w) -> txt w -> txt w'.
Proof.
  intros TL I AL S T PO PK X. pose proof X as [ST TH QU TR].
  destruct T as [tid e p lk' p' os N C|tid e p w' N SY|https bytes P].
  - assert (pc_txt p) as PT by (rewrite Forall_forall in TH; apply TH; eapply nth_error_In; exact N).
    cbn [after_cs emit set_thread set_lk w_trace] in PO. apply utf8_posts_app in PO as [_ PO].
    destruct (csr_txt _ _ _ _ _ _ _ TL (inv_wf _ _ I) C ST PT PO) as (ST' & OS & K).
    constructor; cbn [after_cs emit set_thread set_lk w_lk w_threads w_evq w_trace]; [exact ST'| |exact QU|apply Forall_app; split; assumption].
    destruct (loose p) eqn:L.
    + exact (loose_step _ _ _ _ _ _ TL AL N L X PK S).
    + apply forall_list_set; [exact TH|]. apply K. reflexivity.
  - assert (pc_txt p) as PT by (rewrite Forall_forall in TH; apply TH; eapply nth_error_In; exact N).
    destruct SY; try (constructor; simpl; try assumption; apply forall_list_set; [exact TH|exact Logic.I]).
    + destruct PT as [PA PK']. assert (Forall pc_txt (list_set tid k (w_threads w))) as F by (apply forall_list_set; assumption).
      destruct a; constructor; simpl; try assumption.
      * apply Forall_app. split; [exact QU|]. constructor; [exact PA|constructor].
      * apply Forall_app. split; [exact TR|]. constructor; [exact PA|constructor].
      * apply Forall_app. split; [exact F|]. constructor; [exact Logic.I|constructor].
      * apply Forall_app. split; [exact TR|]. constructor; [exact PA|constructor].
      * apply Forall_app. split; [exact TR|]. constructor; [exact Logic.I|constructor].
    + match goal with E : w_evq w = _ |- _ => rewrite E in QU end. inversion QU as [|? ? Q1 Q2]. subst.
      constructor; simpl; try assumption. apply forall_list_set; [exact TH|exact Q1].
  - constructor; simpl; try assumption.
    + apply Forall_app. split; [exact TH|]. constructor; [exact Logic.I|constructor].
    + apply Forall_app. split; [exact TR|]. constructor; [exact Logic.I|constructor].
Qed.

Lemma tstep_pubkey O w l w' : tstep O w l w' -> w_pubkey w' = w_pubkey w.
Proof.
  intros T. destruct T as [tid e p lk' p' os N C|tid e p w' N SY|https bytes P]; [reflexivity| |reflexivity].
  destruct SY; try reflexivity. destruct a; reflexivity.
Qed.

Lemma pubkey_text key : utf8 (key_text key).
Proof.
  assert (forall n, (n < 16)%N -> between 0 127 (hex_digit n) = true) as H.
  { intros n L. assert (forallb (fun k => between 0 127 (hex_digit (N.of_nat k))) (seq 0 16) = true) as F by (vm_compute; reflexivity).
    rewrite forallb_forall in F. specialize (F (N.to_nat n)). rewrite N2Nat.id in F. apply F, in_seq. lia. }
  apply utf8_join; [reflexivity|]. rewrite Forall_forall. intros s I. apply in_map_iff in I as (c & <- & _).
  pose proof (N_ascii_bounded c) as B.
  apply utf8_cons; [apply H; apply N.div_lt_upper_bound; [discriminate|exact B]|].
  apply utf8_cons; [apply H; apply N.mod_lt; discriminate|reflexivity].
Qed.

Lemma reach_pubkey O w : reachable O w -> forall k, w_pubkey w = Some k -> exists key, k = key_text key.
Proof.
  apply (reach_ind O (fun w => forall k, w_pubkey w = Some k -> exists key, k = key_text key)).
  - intros e c hp hsp pk _ _ k. cbn [init_world w_pubkey]. destruct (c_https_listen c); [|discriminate]. intros [= <-]. eauto.
  - intros w0 l w' _ _ _ _ IH _ T k. rewrite (tstep_pubkey _ _ _ _ T). apply IH.
Qed.

Lemma pubkey_utf8 O w : reachable O w -> opt_all utf8 (w_pubkey w).
Proof. intros R k E. destruct (reach_pubkey O w R k E) as [key ->]. apply pubkey_text. Qed.

Lemma tstep_grows O w l w' : tstep O w l w' -> exists os, w_trace w' = w_trace w ++ os.
Proof.
  intros T. destruct T as [tid e p lk' p' os N C|tid e p w' N SY|https bytes P]; [exists os; reflexivity| |eexists; reflexivity].
  destruct SY; try (exists []; symmetry; apply app_nil_r). destruct a; try (exists []; symmetry; apply app_nil_r); eexists; reflexivity.
Qed.

Lemma reach_txt O w :
  text_laws O -> reachable O w -> utf8_posts (w_trace w) -> txt w.
Proof.
  intros TL R. revert w R. apply (reach_ind O (fun w => utf8_posts (w_trace w) -> txt w)).
  - intros e c hp hsp pk C _ _. pose proof (config_path_text O e) as CT. rewrite C in CT. cbn [utf8_outcome] in CT.
    constructor; simpl.
    + split; [exact CT|]. simpl.
      assert (forall ns k e0, Forall utf8 ns -> In e0 (new_details ns k) -> utf8 (d_name e0) /\ utf8_token (d_ts e0)) as K.
      { induction ns as [|n ns IH]; intros k e0 F I; [destruct I|]. inversion F as [|? ? F1 F2]. subst.
        cbn [new_details] in I. destruct I as [<-|I]; [split; [exact F1|exact Logic.I]|eapply IH; eassumption]. }
      intros e0. apply K. unfold keys. rewrite Forall_map. pose proof (uc_accounts _ CT) as F.
      eapply Forall_impl; [|exact F]. intros p [X _]. exact X.
    + repeat constructor.
    + constructor.
    + constructor; [exact CT|constructor].
  - intros w l w' R I I' AL IH S T PO. destruct (tstep_grows _ _ _ _ T) as (os & E). pose proof PO as PO'. rewrite E in PO'. apply utf8_posts_app in PO' as [PO' _].
    exact (tstep_txt _ _ _ _ TL I AL S T PO (pubkey_utf8 _ _ R) (IH PO')).
Qed.

(** * Consequences *)

Lemma texts_from_inputs O w :
  text_laws O -> reachable O w -> utf8_posts (w_trace w) -> fits w -> texts w.
Proof.
  intros TL R PO [F1 F2 F3 F4]. destruct (reach_txt _ _ TL R PO) as [ST _ _ _].
  assert (forall s, utf8 s -> short s -> text s) as T by (intros s A B; split; assumption).
  assert (forall n ts, holds w n ts -> utf8 n /\ utf8_token ts) as HO.
  { intros n ts (e0 & I & <- & <-). apply (proj2 ST), I. }
  constructor.
  - exact F1.
  - intros n ts H. apply T; [apply (proj1 (HO _ _ H))|apply (F2 _ _ H)].
  - intros n act C. pose proof (account_txt _ _ _ ST C) as A. destruct (F3 _ _ C) as (G1 & G2 & G3 & G4 & G5 & G6 & G7 & G8 & G9).
    split; [apply T; [apply (ua_auth_uri _ A)|exact G1]|].
    split. { pose proof (ua_fields _ A) as UF. unfold utf8_pairs in UF. rewrite Forall_forall in *. intros kv I.
      destruct (UF _ I), (G2 _ I). split; apply T; assumption. }
    split; [exact G3|]. split; [apply T; [apply (ua_client_id _ A)|exact G4]|].
    split; [intros x X; apply T; [apply (ua_secret _ A _ X)|apply (G5 _ X)]|].
    split; [apply T; [apply (ua_redirect _ A)|exact G6]|].
    split. { pose proof (ua_scopes _ A) as US. rewrite Forall_forall in *. intros x I. apply T; [apply US, I|apply G7, I]. }
    split; [exact G8|]. apply T; [apply (ua_token_uri _ A)|exact G9].
  - intros n a H. destruct (HO _ _ H) as [_ [T1 T2]]. destruct (F4 _ _ H) as [S1 S2].
    split; [apply T; assumption|]. intros x X. apply T; [apply (T2 _ X)|apply (S2 _ X)].
Qed.

Lemma reply_read O w c s :
  text_laws O -> reachable O w -> utf8_posts (w_trace w) ->
  In (OReply (client_request c) s) (w_trace w) -> c <> CDump -> utf8_valid s = true.
Proof.
  intros TL R PO I NE. destruct (reach_txt _ _ TL R PO) as [_ _ _ TR]. rewrite Forall_forall in TR.
  destruct (TR _ I) as [E|U]; [|exact U]. exfalso. apply NE. apply client_request_inj. exact E.
Qed.

Lemma show_from_inputs O w e nu n i a :
  text_laws O -> utf8_posts (w_trace w) ->
  reachable O w -> asked w e (client_request (CShow nu n)) ->
  In (mkEntry n i (TSActive a)) (details (w_lk w)) -> (env_now e < expiry a)%Z ->
  exists txt,
    just_answers O w e (client_request (CShow nu n)) txt
    /\ client_finish (CShow nu n) txt = mkResult (access_token a ++ [nl]) None.
Proof.
  intros TL PO R A I L. destruct (reach_txt _ _ TL R PO) as [[_ ST] _ _ _].
  destruct (ST _ I) as [N T]. exact (show_end_to_end O w e nu n i a R A N I L (proj1 T)).
Qed.
