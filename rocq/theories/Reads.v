(** What a configuration text means as a whole, and that the order of its
    fields and options does not matter (C45, C46). *)
From Verif Require Import Base BaseLemmas Time Url Oracles ConfigLex ConfigParse Config SpecConfig SpecGrammar
  LexLemmas ConfigParseProofs ConfigLemmas Lexing SpecLex SpecBlocks Blocks Tops.
From Coq Require Import Permutation.

Lemma reads_sound O h s c : config_from_str O h s = Val c -> reads_as O s c.
Proof.
  unfold config_from_str. destruct (lex s) as [toks|] eqn:L; [|discriminate].
  destruct (parse_tokens toks) as [tl|] eqn:P; [|discriminate]. intros E.
  apply parse_tokens_grammar in P. exists toks, tl. split; [apply lex_iff; exact L|]. split; [exact P|].
  eapply config_means_sound; [|exact E]. eapply g_toplevels_ok; [exact P|]. eapply lex_ok. exact L.
Qed.

Lemma reads_complete O h s c :
  reads_as O s c ->
  exists l, Permutation (c_accounts c) l /\ config_from_str O h s = Val (with_accounts c l).
Proof.
  intros (toks & tl & L & P & M). apply lex_iff in L.
  destruct (config_means_complete O h tl c) as (l & PL & E); [|exact M|].
  - eapply g_toplevels_ok; [exact P|]. eapply lex_ok. exact L.
  - exists l. split; [exact PL|]. unfold config_from_str. rewrite L.
    apply parse_tokens_grammar in P. rewrite P. exact E.
Qed.

Lemma grammar_unique ts l l' : g_toplevels ts l -> g_toplevels ts l' -> l = l'.
Proof. rewrite <- !parse_tokens_grammar. congruence. Qed.

(** * Order of fields *)

Lemma optional_same {E T V} (K : T -> E) (means : T -> V -> Prop) l l' o :
  (forall x, In x l <-> In x l') -> optional K means l o -> optional K means l' o.
Proof.
  intros S. unfold optional. destruct o as [v|].
  - intros (t & I & M). exists t. split; [apply S, I|exact M].
  - intros N (t & I). apply N. exists t. apply S, I.
Qed.

Lemma default_same {E T V} (K : T -> E) (means : T -> V -> Prop) d l l' v :
  (forall x, In x l <-> In x l') -> default K means d l v -> default K means d l' v.
Proof.
  intros S [(t & I & M)|[N ->]]; [left; exists t; split; [apply S, I|exact M]|right].
  split; [|reflexivity]. intros (t & I). apply N. exists t. apply S, I.
Qed.

Lemma perm_in {A} (l l' : list A) : Permutation l l' -> forall x, In x l <-> In x l'.
Proof. intros P x. split; apply Permutation_in; [exact P|apply Permutation_sym, P]. Qed.

Lemma block_means_perm O name fs fs' act :
  Permutation fs fs' -> block_means O name fs act -> block_means O name fs' act.
Proof.
  intros P M. pose proof (perm_in _ _ P) as S. destruct M. constructor.
  - eapply Permutation_NoDup; [apply Permutation_map, P|assumption].
  - assumption.
  - rewrite <- S. assumption.
  - rewrite <- S. assumption.
  - rewrite <- S. assumption.
  - eapply optional_same; eassumption.
  - eapply default_same; eassumption.
  - eapply optional_same; eassumption.
  - eapply optional_same; eassumption.
  - eapply optional_same; eassumption.
  - eapply default_same; eassumption.
  - eapply default_same; eassumption.
  - intros ((t & I) & X). apply bm_no_clash. split; [exists t; apply S, I|exact X].
Qed.

Lemma from_fields_perm O name fs fs' act :
  Forall field_ok fs -> Permutation fs fs' -> from_fields O name fs = Val act -> from_fields O name fs' = Val act.
Proof.
  intros F P E. apply from_fields_iff in E; [|exact F].
  apply from_fields_iff; [eapply Permutation_Forall; eassumption|]. eapply block_means_perm; eassumption.
Qed.

(** * Order of options *)

Lemma flat_map_perm {A B} (g : A -> list B) l l' : Permutation l l' -> Permutation (flat_map g l) (flat_map g l').
Proof.
  intros P. induction P as [|x l l' P IH|x y l|l l2 l3 P IH P' IH']; simpl.
  - constructor.
  - apply Permutation_app_head. exact IH.
  - rewrite !app_assoc. apply Permutation_app_tail, Permutation_app_comm.
  - eapply Permutation_trans; eassumption.
Qed.

Lemma listen_same K none ts ts' o :
  (forall x, In x ts <-> In x ts') -> listen_means K none ts o -> listen_means K none ts' o.
Proof.
  intros S. unfold listen_means. destruct o as [a|].
  - intros [I|(N1 & N2 & ->)]; [left; apply S, I|right].
    repeat split; [intros (s & I); apply N1; exists s; apply S, I|rewrite <- S; exact N2].
  - apply S.
Qed.

Lemma config_means_perm O ts ts' c :
  Permutation ts ts' -> (forall name fs, last_block name ts fs <-> last_block name ts' fs) ->
  config_means O ts c -> config_means O ts' c.
Proof.
  intros P LB M. pose proof (perm_in _ _ P) as S. destruct M. constructor; try assumption.
  - rewrite <- S. assumption.
  - eapply Permutation_NoDup; [apply flat_map_perm, P|assumption].
  - intros n fs I. apply S in I. eauto.
  - intros name act. rewrite cm_accounts. split; intros (fs & L & B); exists fs; (split; [apply LB, L|exact B]).
  - destruct cm_some_account as (n & fs & I). exists n, fs. apply S, I.
  - eapply optional_same; eassumption.
  - eapply default_same; eassumption.
  - eapply optional_same; eassumption.
  - eapply listen_same; eassumption.
  - eapply listen_same; eassumption.
  - eapply optional_same; eassumption.
  - eapply optional_same; eassumption.
  - eapply optional_same; eassumption.
  - eapply optional_same; eassumption.
  - eapply optional_same; eassumption.
Qed.

Lemma config_perm O h ts ts' c :
  Forall top_ok ts -> Permutation ts ts' ->
  (forall name fs, last_block name ts fs <-> last_block name ts' fs) ->
  config_of_toplevels O h ts = Val c ->
  exists l, Permutation (c_accounts c) l /\ config_of_toplevels O h ts' = Val (with_accounts c l).
Proof.
  intros F P LB E. apply config_means_complete; [eapply Permutation_Forall; eassumption|].
  eapply config_means_perm; [exact P|exact LB|]. eapply config_means_sound; eassumption.
Qed.

(** Distinct names: the order of the blocks does not matter either. *)
Lemma distinct_last_block name ts fs :
  (forall n f f' a b, ts = a ++ TLAccount n f :: b -> ~ In (TLAccount n f') b) ->
  (last_block name ts fs <-> In (TLAccount (quote_string name) fs) ts).
Proof.
  intros D. split; [apply last_block_in|]. intros I. apply in_split in I as (a & b & ->).
  exists a, b. split; [reflexivity|]. intros (f' & I). exact (D _ _ f' a b eq_refl I).
Qed.

Lemma block_names_split ts n f f' a b :
  NoDup (flat_map block_names ts) -> ts = a ++ TLAccount n f :: b -> ~ In (TLAccount n f') b.
Proof.
  intros N -> I. rewrite flat_map_app in N. cbn [flat_map block_names app] in N.
  apply NoDup_remove_2 in N. apply N, in_or_app. right. apply in_flat_map. exists (TLAccount n f'). split; [exact I|left; reflexivity].
Qed.

Lemma config_perm_distinct O h ts ts' c :
  Forall top_ok ts -> Permutation ts ts' -> NoDup (flat_map block_names ts) ->
  config_of_toplevels O h ts = Val c ->
  exists l, Permutation (c_accounts c) l /\ config_of_toplevels O h ts' = Val (with_accounts c l).
Proof.
  intros F P N. apply config_perm; [exact F|exact P|]. intros name fs.
  rewrite !distinct_last_block.
  - apply perm_in, P.
  - intros n f f' a b. apply block_names_split. eapply Permutation_NoDup; [apply flat_map_perm, P|exact N].
  - intros n f f' a b. apply block_names_split, N.
Qed.

(** * C47 *)

Lemma accepted_servers O h s c :
  config_from_str O h s = Val c ->
  ~ (c_http_listen c = None /\ c_https_listen c = None)
  /\ c_accounts c <> []
  /\ forall name act, In (name, act) (c_accounts c) ->
       (forall r, a_redirect_uri act = $"https:" ++ r -> c_https_listen c <> None)
       /\ (forall r, a_redirect_uri act = $"http:" ++ r -> c_http_listen c <> None).
Proof.
  intros E. pose proof (config_from_str_ok _ _ _ _ E) as K.
  destruct (reads_sound _ _ _ _ E) as (toks & tl & _ & _ & M). split; [exact (cm_some_listen _ _ _ M)|]. split.
  - destruct (cm_some_account _ _ _ M) as (n & fs & I).
    destruct (cm_blocks _ _ _ M _ _ I) as (name & act & -> & B).
    destruct (last_block_exists _ _ _ I) as (fs' & L).
    destruct (cm_blocks _ _ _ M _ _ (last_block_in _ _ _ L)) as (name' & act' & Q & B').
    apply quote_inj in Q. subst name'.
    assert (In (name, act') (c_accounts c)) as X by (apply (cm_accounts _ _ _ M); eauto).
    intros N. rewrite N in X. destruct X.
  - intros name act I. destruct (cm_redirects _ _ _ M name act I) as [A B]. split.
    + intros r X. apply (A ($":" ++ r)). rewrite X. reflexivity.
    + intros r X. apply (B ($":" ++ r)); [rewrite X; reflexivity|]. intros r'. discriminate.
Qed.

(** * C48 *)

Lemma hint_not_in_fields O name fs act t v :
  block_means O name fs act -> In (FLoginHint t) fs -> ~ In ($"login_hint", v) (a_auth_uri_fields act).
Proof. intros M I X. apply (bm_no_clash _ _ _ _ M). eauto. Qed.

(** * From the text *)

Lemma text_items_ok s toks l : lexes s toks -> g_toplevels toks l -> Forall top_ok l.
Proof. intros L G. eapply g_toplevels_ok; [exact G|]. eapply lex_ok, lex_iff, L. Qed.

Lemma text_fields_ok s toks l n fs :
  lexes s toks -> g_toplevels toks l -> In (TLAccount n fs) l -> Forall field_ok fs.
Proof.
  intros L G I. pose proof (text_items_ok _ _ _ L G) as F. rewrite Forall_forall in F. apply (F _ I).
Qed.

Lemma time_rejected_iff s n c u :
  decimal s n -> time_unit c u ->
  ((exists m, time_str_to_duration (s ++ [c]) = Err m) <-> (2 ^ 64 <= n * u)%Z).
Proof.
  intros D U. rewrite (time_str_value s n c u D U). change two64 with (2 ^ 64)%Z.
  destruct (Z.ltb_spec (n * u) (2 ^ 64)) as [L|L].
  - split; [intros (m & E); discriminate|lia].
  - split; [intros _; exact L|intros _]. destruct (n <? 2 ^ 64)%Z; eauto.
Qed.

Lemma lex_time t : time_lexeme t -> lex t = Some [TkTime t].
Proof.
  intros T. apply lex_iff.
  pose (r := mkRule (fun text _ => time_lexeme text) (fun text => Some (TkTime text))).
  replace t with (t ++ []) at 1 by apply app_nil_r.
  apply (lexes_more [] r (skipn 1 lex_rules) t [] []).
  - reflexivity.
  - destruct T as (s & n & c & u & -> & _). destruct s; discriminate.
  - exact T.
  - intros r' text' rest' _ E _. apply (f_equal (@List.length ascii)) in E. rewrite !app_length in E. simpl in E. lia.
  - intros r' [].
  - constructor.
Qed.
