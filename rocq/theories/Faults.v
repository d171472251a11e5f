(** What config.rs finds wrong with fields, blocks and items is what
    SpecReport.v says is wrong with them. *)
From Verif Require Import Base BaseLemmas Time Url Oracles ConfigLex ConfigParse Config Located SpecConfig SpecGrammar SpecLex
  SpecBlocks SpecReport LexLemmas Lexing ConfigParseProofs ConfigLemmas Blocks Tops Reads Places Locate.

(** * Times and addresses *)

Lemma duration_cases t :
  time_lexeme t ->
  (exists d, time_str_to_duration t = Val d /\ ~ too_long t)
  \/ (exists r, time_str_to_duration t = Err ($"Invalid time: " ++ r) /\ too_long t).
Proof.
  intros T. pose proof (time_value_iff t) as I. destruct (time_str_to_duration t) as [d|m|] eqn:E.
  - left. exists d. split; [reflexivity|]. intros N. apply N. exists d. apply I; [exact T|reflexivity].
  - right. assert (exists r, m = $"Invalid time: " ++ r) as (r & ->).
    { unfold time_str_to_duration in E. destruct (time_inner t); try discriminate. injection E as <-. eexists. reflexivity. }
    exists r. split; [reflexivity|]. intros (d & V). apply I in V; [discriminate|exact T].
  - destruct (time_lexeme_no_panic t T E).
Qed.

Lemma uri_cases {T} O n s v (slot : option T) :
  s = quote_string v ->
  match slot with
  | Some _ => check_not_assigned_uri O n s slot = Err (repeated n)
  | None =>
      (check_not_assigned_uri O n s slot = Val v /\ http_uri O v)
      \/ (check_not_assigned_uri O n s slot = Err $"Invalid URI" /\ o_url_parse O v = None)
      \/ (check_not_assigned_uri O n s slot = Err $"not a valid HTTP or HTTPS URI"
          /\ exists u, o_url_parse O v = Some u /\ u_scheme u <> $"http" /\ u_scheme u <> $"https")
  end.
Proof.
  intros ->. destruct slot; [reflexivity|]. unfold check_not_assigned_uri. rewrite unescape_quote.
  destruct (o_url_parse O v) as [u|] eqn:U; [|auto].
  destruct (str_eqb (u_scheme u) $"http" || str_eqb (u_scheme u) $"https") eqn:E.
  - left. split; [reflexivity|]. exists u. split; [exact U|]. apply orb_true_iff in E as [E|E]; apply str_eqb_eq in E; auto.
  - right. right. split; [reflexivity|]. exists u. split; [reflexivity|]. apply orb_false_iff in E as [E1 E2].
    split; intros X; [rewrite X in E1|rewrite X in E2]; discriminate.
Qed.

(** * Fields *)

Lemma valid_iff O f : field_ok f ->
  (valid O f <-> (forall s, uri_of f = Some s -> exists v, s = quote_string v /\ http_uri O v)
                 /\ (forall t, time_of f = Some t -> ~ too_long t)).
Proof.
  intros K. assert (forall v, http_uri O (unescape_str (quote_string v)) <-> http_uri O v) as Q
    by (intros v; rewrite unescape_quote; reflexivity).
  assert (forall t, time_lexeme t -> ((exists d, time_str_to_duration t = Val d) <-> ~ too_long t)) as TQ.
  { intros t T. destruct (duration_cases t T) as [(d & E & N)|(r & E & N)]; rewrite E; split; try tauto; eauto.
    intros (d & F). discriminate. }
  destruct f; cbn [valid uri_of time_of field_ok] in *;
    try (split; [intros _; split; intros ? F; discriminate F|exact (fun _ => Logic.I)]).
  all: first
    [ destruct K as (v & ->); rewrite Q; split;
      [intros H; split; [intros z F; injection F as <-; eauto|intros z F; discriminate F]
      |intros (H & _); destruct (H _ eq_refl) as (v' & E & U); apply quote_inj in E as ->; exact U]
    | rewrite (TQ _ K); split;
      [intros H; split; [intros z F; discriminate F|intros z F; injection F as <-; exact H]
      |intros (_ & H); apply H; reflexivity] ].
Qed.

Lemma field_fine_iff O fs f : field_ok f ->
  (field_fine O fs f <-> ~ In (field_name f) (map field_name fs) /\ valid O f).
Proof. intros K. unfold field_fine. rewrite (valid_iff O f K). reflexivity. Qed.

Lemma fields_fine_snoc O fs f : fields_fine O (fs ++ [f]) <-> fields_fine O fs /\ field_fine O fs f.
Proof.
  split.
  - intros F. split; [|apply (F fs f []); reflexivity]. intros b x a ->. apply (F b x (a ++ [f])).
    rewrite <- app_assoc. reflexivity.
  - intros (F & X) b y a E. apply snoc_split in E as [(-> & -> & ->)|(a' & -> & ->)]; [exact X|].
    apply (F b y a'). reflexivity.
Qed.

Lemma fields_fine_iff O fs : Forall field_ok fs ->
  (fields_fine O fs <-> NoDup (map field_name fs) /\ Forall (valid O) fs).
Proof.
  induction fs as [|f fs IH] using rev_ind; intros K.
  - split; [intros _; split; constructor|]. intros _ b x a E. destruct b; discriminate.
  - apply Forall_app in K as [K K1]. inversion K1 as [|? ? KF _]; subst.
    rewrite fields_fine_snoc, (IH K), (field_fine_iff O fs f KF), map_app, Forall_app. cbn [map].
    rewrite NoDup_snoc. split.
    + intros ((N & V) & NI & VF). auto.
    + intros ((N & NI) & V & VF). inversion VF; subst. auto.
Qed.

Definition field_outcome (O : oracles) (s : str) (fs : list field) (f : field) (sp : span) (o : outcome field_acc) : Prop :=
  match o with
  | Val a => field_fine O fs f /\ a = fill (fs ++ [f])
  | Err m =>
      (exists m0, field_fault O fs f m0 /\ m = error_at_span s sp m0)
      \/ (~ In (field_name f) (map field_name fs)
          /\ exists t r, time_of f = Some t /\ too_long t /\ m = $"Invalid time: " ++ r)
  | Panic => False
  end.

Lemma not_not_in (x : str) l : ~ ~ In x l -> In x l.
Proof. intros H. destruct (in_dec (list_eq_dec ascii_dec) x l) as [I|N]; [exact I|destruct (H N)]. Qed.

Lemma slot_cases {V} (g : option V) (x : str) l : (g = None <-> ~ In x l) ->
  (g = None /\ ~ In x l) \/ ((exists v, g = Some v) /\ In x l).
Proof.
  intros K. destruct g as [v|]; [right|left; split; [reflexivity|apply K; reflexivity]].
  split; [eauto|]. apply not_not_in. intros N. apply K in N. discriminate.
Qed.

Lemma bind_err {A B} (o : outcome A) (f : A -> outcome B) m :
  bind o f = Err m -> o = Err m \/ exists x, o = Val x /\ f x = Err m.
Proof. destruct o as [x|e|]; cbn; intros E; [right; eauto|left; congruence|discriminate]. Qed.

Lemma at_span_err {A} s sp (o : outcome A) m :
  at_span s sp o = Err m -> exists m0, o = Err m0 /\ m = error_at_span s sp m0.
Proof. destruct o as [x|e|]; cbn; intros E; try discriminate. injection E as <-. eauto. Qed.

Lemma at_span_val {A} s sp (o : outcome A) x : at_span s sp o = Val x -> o = Val x.
Proof. destruct o; cbn; congruence. Qed.

(** A field that may not come twice. *)
Lemma str_field_err {T B} O s fs f sp n lexeme (g : option T) (k : str -> B) m :
  field_name f = n -> (g = None <-> ~ In n (map field_name fs)) ->
  (x <- at_span s sp (check_not_assigned_str n lexeme g) ;; Val (k x)) = Err m ->
  exists m0, field_fault O fs f m0 /\ m = error_at_span s sp m0.
Proof.
  intros FN K E. apply bind_err in E as [E|(x & _ & E)]; [|discriminate]. apply at_span_err in E as (m0 & E & ->).
  exists m0. split; [|reflexivity]. destruct (slot_cases _ _ _ K) as [(N & _)|((w & N) & I)]; rewrite N in E; [discriminate|].
  injection E as <-. rewrite <- FN in *. apply ff_repeated, I.
Qed.

Lemma list_field_err {T B} O s fs f sp n (g : option T) (k : B) m :
  field_name f = n -> (g = None <-> ~ In n (map field_name fs)) ->
  (_ <- at_span s sp (check_not_assigned n g) ;; Val k) = Err m ->
  exists m0, field_fault O fs f m0 /\ m = error_at_span s sp m0.
Proof.
  intros FN K E. apply bind_err in E as [E|(x & _ & E)]; [|discriminate]. apply at_span_err in E as (m0 & E & ->).
  exists m0. split; [|reflexivity]. destruct (slot_cases _ _ _ K) as [(N & _)|((w & N) & I)]; rewrite N in E; [discriminate|].
  injection E as <-. rewrite <- FN in *. apply ff_repeated, I.
Qed.

Lemma uri_field_err {T B} O s fs f sp n lexeme v (g : option T) (k : str -> B) m :
  field_name f = n -> (g = None <-> ~ In n (map field_name fs)) -> uri_of f = Some lexeme -> lexeme = quote_string v ->
  (x <- at_span s sp (check_not_assigned_uri O n lexeme g) ;; Val (k x)) = Err m ->
  exists m0, field_fault O fs f m0 /\ m = error_at_span s sp m0.
Proof.
  intros FN K UF EL E. apply bind_err in E as [E|(x & _ & E)]; [|discriminate]. apply at_span_err in E as (m0 & E & ->).
  exists m0. split; [|reflexivity]. pose proof (uri_cases O n lexeme v g EL) as U. rewrite <- FN in K. rewrite EL in UF.
  destruct (slot_cases _ _ _ K) as [(N & NI)|((w & N) & I)]; rewrite N in E, U.
  - destruct U as [(X & _)|[(X & P)|(X & u & P & S1 & S2)]]; rewrite X in E; [discriminate| |]; injection E as <-.
    + eapply ff_no_uri; eassumption.
    + eapply ff_other_uri; eassumption.
  - rewrite U in E. injection E as <-. rewrite <- FN. apply ff_repeated, I.
Qed.

Lemma time_field_err {T B} O s fs f sp n t (g : option T) (k : Z -> B) m :
  field_name f = n -> (g = None <-> ~ In n (map field_name fs)) -> time_of f = Some t -> time_lexeme t ->
  (x <- at_span s sp (check_not_assigned_time n t g) ;; d <- time_str_to_duration x ;; Val (k d)) = Err m ->
  (exists m0, field_fault O fs f m0 /\ m = error_at_span s sp m0)
  \/ (~ In (field_name f) (map field_name fs)
      /\ exists t r, time_of f = Some t /\ too_long t /\ m = $"Invalid time: " ++ r).
Proof.
  intros FN K TF TL E. rewrite <- FN in K. apply bind_err in E as [E|(x & E1 & E)].
  - left. apply at_span_err in E as (m0 & E & ->). exists m0. split; [|reflexivity].
    destruct (slot_cases _ _ _ K) as [(N & _)|((w & N) & I)]; rewrite N in E; [discriminate|].
    injection E as <-. rewrite <- FN. apply ff_repeated, I.
  - right. apply at_span_val in E1. destruct (slot_cases _ _ _ K) as [(N & NI)|((w & N) & I)]; rewrite N in E1; [|discriminate].
    injection E1 as <-. split; [exact NI|]. apply bind_err in E as [E|(d & _ & E)]; [|discriminate].
    destruct (duration_cases t TL) as [(d & X & _)|(r & X & L)]; rewrite X in E; [discriminate|]. injection E as <-.
    exists t, r. auto.
Qed.

Lemma l_field_outcome O s fs f ls :
  Forall (valid O) fs -> field_ok f ->
  field_outcome O s fs f (field_span (f, ls)) (l_field_step O s (fill fs) (f, ls)).
Proof.
  intros F K. pose proof (field_step_same O s (fill fs) (f, ls)) as S. cbn [fst] in S.
  destruct (l_field_step O s (fill fs) (f, ls)) as [a|m|] eqn:E.
  - destruct (field_step O (fill fs) f) as [a0|m|] eqn:E0; cbn in S; try tauto. subst a0.
    apply field_step_iff in E0 as (V & NI & ->); [|exact F]. split; [apply field_fine_iff; auto|reflexivity].
  - clear S. unfold l_field_step in E. set (sp := field_span (f, ls)) in *. cbn [fill fst] in E.
    pose proof (slot_free O s_auth $"auth_uri" fs ltac:(slot) F) as K1.
    pose proof (slot_free O s_fields $"auth_uri_fields" fs ltac:(slot) F) as K2.
    pose proof (slot_free O s_id $"client_id" fs ltac:(slot) F) as K3.
    pose proof (slot_free O s_secret $"client_secret" fs ltac:(slot) F) as K4.
    pose proof (slot_free O s_hint $"login_hint" fs ltac:(slot) F) as K5.
    pose proof (slot_free O s_redirect $"redirect_uri" fs ltac:(slot) F) as K6.
    pose proof (slot_free O s_at_least $"refresh_at_least" fs ltac:(slot) F) as K7.
    pose proof (slot_free O s_before $"refresh_before_expiry" fs ltac:(slot) F) as K8.
    pose proof (slot_free O s_retry $"refresh_retry" fs ltac:(slot) F) as K9.
    pose proof (slot_free O s_scopes $"scopes" fs ltac:(slot) F) as K10.
    pose proof (slot_free O s_token $"token_uri" fs ltac:(slot) F) as K11.
    unfold fill in E. cbn [field_outcome]. destruct f; cbn [field_ok] in K.
    + left. destruct K as (v & K). eapply uri_field_err; [reflexivity|exact K1|reflexivity|exact K|exact E].
    + left. eapply list_field_err; [reflexivity|exact K2|exact E].
    + left. eapply str_field_err; [reflexivity|exact K3|exact E].
    + left. eapply str_field_err; [reflexivity|exact K4|exact E].
    + left. eapply str_field_err; [reflexivity|exact K5|exact E].
    + left. destruct K as (v & K). eapply uri_field_err; [reflexivity|exact K6|reflexivity|exact K|exact E].
    + eapply time_field_err; [reflexivity|exact K7|reflexivity|exact K|exact E].
    + eapply time_field_err; [reflexivity|exact K8|reflexivity|exact K|exact E].
    + eapply time_field_err; [reflexivity|exact K9|reflexivity|exact K|exact E].
    + left. eapply list_field_err; [reflexivity|exact K10|exact E].
    + left. destruct K as (v & K). eapply uri_field_err; [reflexivity|exact K11|reflexivity|exact K|exact E].
  - destruct (field_step O (fill fs) f) as [a0|m|] eqn:E0; cbn in S; try tauto. exact (field_step_no_panic O (fill fs) f K E0).
Qed.

(** No field is both wrong and fine, or wrong for two reasons. *)
Lemma field_fault_not_fine O fs f m : field_fault O fs f m -> ~ field_fine O fs f.
Proof.
  intros X (NI & U & _). destruct X as [I|v _ UF P|v u _ UF P S1 S2]; [exact (NI I)| |];
    destruct (U _ UF) as (v' & E & u' & P' & S); apply quote_inj in E as <-; rewrite P in P'; [discriminate|].
  injection P' as <-. destruct S; contradiction.
Qed.

Lemma field_fault_unique O fs f m m' : field_fault O fs f m -> field_fault O fs f m' -> m = m'.
Proof.
  intros X Y.
  destruct X as [I|v N UF P|v u N UF P S1 S2]; destruct Y as [I'|v' N' UF' P'|v' u' N' UF' P' S1' S2'];
    try contradiction; try reflexivity;
    assert (quote_string v = quote_string v') as E by congruence; apply quote_inj in E as <-; rewrite P in P'; discriminate.
Qed.

Lemma field_fault_in_time O fs f m t :
  field_fault O fs f m -> time_of f = Some t -> In (field_name f) (map field_name fs).
Proof. intros X T. destruct X as [I|v N UF P|v u N UF P S1 S2]; [exact I| |]; destruct f; discriminate. Qed.

(** * Blocks *)

(** What is wrong with the field [p], those before it being fine. *)
Definition field_wrong (O : oracles) (s : str) (fs : list field) (p : field * list lexeme) (m : str) : Prop :=
  (exists m0, field_fault O fs (fst p) m0 /\ m = error_at_span s (field_span p) m0)
  \/ (~ In (field_name (fst p)) (map field_name fs)
      /\ exists t r, time_of (fst p) = Some t /\ too_long t /\ m = $"Invalid time: " ++ r).

Lemma l_fields_loop_app O s a ps ps' :
  l_fields_loop O s a (ps ++ ps') = (a' <- l_fields_loop O s a ps ;; l_fields_loop O s a' ps').
Proof.
  revert a. induction ps as [|p ps IH]; intros a; [reflexivity|]. cbn [app l_fields_loop].
  destruct (l_field_step O s a p) as [a'|m|]; cbn [bind]; [apply IH|reflexivity|reflexivity].
Qed.

Lemma l_fields_fine O s ps :
  Forall field_ok (map fst ps) -> fields_fine O (map fst ps) -> l_fields_loop O s facc0 ps = Val (fill (map fst ps)).
Proof.
  intros K F. apply (fields_fine_iff O _ K) in F as (N & V). pose proof (fields_loop_same O s ps facc0) as S.
  rewrite (proj2 (fields_loop_iff O (map fst ps) _) (conj N (conj V eq_refl))) in S.
  destruct (l_fields_loop O s facc0 ps); cbn in S; try tauto. congruence.
Qed.

Lemma l_fields_outcome O s ps :
  Forall field_ok (map fst ps) ->
  match l_fields_loop O s facc0 ps with
  | Val a => fields_fine O (map fst ps) /\ a = fill (map fst ps)
  | Err m => exists ps1 p ps2, ps = ps1 ++ p :: ps2 /\ fields_fine O (map fst ps1) /\ field_wrong O s (map fst ps1) p m
  | Panic => False
  end.
Proof.
  induction ps as [|p ps IH] using rev_ind; intros K.
  - cbn. split; [|reflexivity]. intros b f a E. destruct b; discriminate.
  - rewrite map_app in *. apply Forall_app in K as [K KP]. specialize (IH K). rewrite l_fields_loop_app.
    destruct (l_fields_loop O s facc0 ps) as [a|m|]; cbn [bind].
    + destruct IH as (F & ->). pose proof (fields_fine_iff O _ K) as FI. pose proof (proj1 FI F) as (_ & V).
      inversion KP as [|? ? KF _]; subst. destruct p as [f ls]. cbn [fst] in KF.
      pose proof (l_field_outcome O s (map fst ps) f ls V KF) as FO. cbn [l_fields_loop].
      destruct (l_field_step O s (fill (map fst ps)) (f, ls)) as [a|m|]; cbn [bind field_outcome] in *.
      * destruct FO as (FF & ->). cbn [map fst]. split; [|reflexivity]. apply fields_fine_snoc. auto.
      * exists ps, (f, ls), []. split; [reflexivity|]. split; [exact F|]. exact FO.
      * exact FO.
    + destruct IH as (ps1 & q & ps2 & -> & F & W). exists ps1, q, (ps2 ++ [p]). rewrite <- app_assoc. auto.
    + exact IH.
Qed.

Lemma fields_fine_stop O s ps1 p ps2 :
  Forall field_ok (map fst (ps1 ++ p :: ps2)) -> fields_fine O (map fst ps1) ->
  forall m, l_fields_loop O s facc0 (ps1 ++ p :: ps2) = Err m -> ~ field_fine O (map fst ps1) (fst p) ->
  field_wrong O s (map fst ps1) p m.
Proof.
  intros K F m E NF. rewrite map_app in K. apply Forall_app in K as [K KP]. inversion KP as [|? ? KF _]; subst.
  rewrite l_fields_loop_app, (l_fields_fine O s ps1 K F) in E. cbn [bind l_fields_loop] in E.
  pose proof (proj1 (fields_fine_iff O _ K) F) as (_ & V). destruct p as [f ls]. cbn [fst] in *.
  pose proof (l_field_outcome O s (map fst ps1) f ls V KF) as FO.
  destruct (l_field_step O s (fill (map fst ps1)) (f, ls)) as [a|m0|]; cbn [bind field_outcome] in *; [tauto| |tauto].
  injection E as <-. exact FO.
Qed.

Lemma fields_stop O s ps1 p ps2 :
  Forall field_ok (map fst (ps1 ++ p :: ps2)) -> fields_fine O (map fst ps1) ->
  ~ field_fine O (map fst ps1) (fst p) -> exists m, l_fields_loop O s facc0 (ps1 ++ p :: ps2) = Err m.
Proof.
  intros K F NF. pose proof (l_fields_outcome O s _ K) as LO.
  destruct (l_fields_loop O s facc0 (ps1 ++ p :: ps2)) as [a|m|]; [|eauto|tauto].
  destruct NF. destruct LO as (FF & _). apply (FF _ _ (map fst ps2)). rewrite map_app. reflexivity.
Qed.

Lemma names_in {V} O (g : field -> option V) nm fs :
  (forall f, valid O f -> (field_name f = nm <-> g f <> None)) -> Forall (valid O) fs ->
  (first_of g fs = None /\ ~ In nm (map field_name fs))
  \/ ((exists v, first_of g fs = Some v) /\ In nm (map field_name fs)).
Proof. intros S F. apply slot_cases. exact (slot_free O g nm fs S F). Qed.

Lemma clash_again O fs :
  NoDup (map field_name fs) -> Forall (valid O) fs -> Forall field_ok fs ->
  ((exists v, In ($"login_hint", v) (opt_default [] (first_of s_fields fs)))
   <-> exists l v, In (FAuthUriFields l) fs /\ In (quote_string $"login_hint", v) l).
Proof.
  intros N V K. destruct (field_kinds O fs N V K) as (_ & _ & _ & _ & _ & _ & _ & KD & _). split.
  - intros (v & I). destruct (first_of s_fields fs) as [l0|] eqn:E; [|destruct I]. cbn [opt_default] in I.
    apply first_of_some in E as (f & IF & E). destruct f; cbn [s_fields] in E; try discriminate. injection E as <-.
    apply in_map_iff in I as ((k & w) & E & I). cbn [fst snd] in E. injection E as E _.
    pose proof (proj1 (Forall_forall _ _) K _ IF) as KF. cbn [field_ok] in KF.
    pose proof (proj1 (Forall_forall _ _) KF _ I) as ((k0 & EK) & _). cbn [fst] in EK. subst k. rewrite unescape_quote in E. subst k0.
    eauto.
  - intros (l & v & IF & I). destruct (first_of s_fields fs) as [l0|] eqn:E.
    + apply first_of_some in E as (f & IF' & E). destruct f; cbn [s_fields] in E; try discriminate. injection E as <-.
      rewrite (kd_one _ _ _ _ KD _ _ IF IF') in I. exists (unescape_str v). cbn [opt_default]. apply in_map_iff.
      exists (quote_string $"login_hint", v). cbn [fst snd]. rewrite unescape_quote. auto.
    + pose proof (proj1 (first_of_none _ _) E _ IF) as Z. discriminate.
Qed.

Lemma block_outcome O n fs :
  NoDup (map field_name fs) -> Forall (valid O) fs -> Forall field_ok fs ->
  match fields_finish n (fill fs) with
  | Val _ => ~ exists m, block_fault fs m
  | Err m => block_fault fs m
  | Panic => False
  end.
Proof.
  intros N V K. pose proof (clash_again O fs N V K) as CA. pose proof (clash_iff fs K) as CI. rewrite CA in CI. clear CA.
  unfold fields_finish, fill.
  cbn [f_auth_uri f_client_id f_token_uri f_login_hint f_auth_uri_fields f_client_secret f_redirect_uri
       f_refresh_at_least f_refresh_before_expiry f_refresh_retry f_scopes].
  destruct (names_in O s_auth $"auth_uri" fs ltac:(slot) V) as [(E1 & I1)|((v1 & E1) & I1)]; rewrite E1; cbn [check_assigned bind].
  { apply (bf_missing fs [] $"auth_uri" [$"client_id"; $"token_uri"]); [reflexivity|intros x []|exact I1]. }
  destruct (names_in O s_id $"client_id" fs ltac:(slot) V) as [(E2 & I2)|((v2 & E2) & I2)]; rewrite E2; cbn [check_assigned bind].
  { apply (bf_missing fs [$"auth_uri"] $"client_id" [$"token_uri"]); [reflexivity|intros x [<-|[]]; exact I1|exact I2]. }
  destruct (names_in O s_token $"token_uri" fs ltac:(slot) V) as [(E3 & I3)|((v3 & E3) & I3)]; rewrite E3; cbn [check_assigned bind].
  { apply (bf_missing fs [$"auth_uri"; $"client_id"] $"token_uri" []);
      [reflexivity|intros x [<-|[<-|[]]]; [exact I1|exact I2]|exact I3]. }
  assert (forall x, In x [$"auth_uri"; $"client_id"; $"token_uri"] -> In x (map field_name fs)) as AI.
  { intros x [<-|[<-|[<-|[]]]]; assumption. }
  match goal with |- match (if ?b then _ else _) with _ => _ end => destruct b eqn:B end.
  - destruct (proj1 CI eq_refl) as (H1 & H2). apply bf_clash; assumption.
  - intros (m & X). destruct X as [n1 nm n2 EN _ NI|_ H1 H2].
    + apply NI, AI. rewrite EN. apply in_elt.
    + discriminate (proj2 CI (conj H1 H2)).
Qed.

Lemma block_fault_unique fs m m' : block_fault fs m -> block_fault fs m' -> m = m'.
Proof.
  assert (forall n1 nm n2, [$"auth_uri"; $"client_id"; $"token_uri"] = n1 ++ nm :: n2 ->
    ~ In nm (map field_name fs) -> In nm [$"auth_uri"; $"client_id"; $"token_uri"]) as A.
  { intros n1 nm n2 E _. rewrite E. apply in_elt. }
  intros X Y. destruct X as [n1 nm n2 EN B NI|AI H1 H2]; destruct Y as [n1' nm' n2' EN' B' NI'|AI' H1' H2'].
  - f_equal. rewrite EN in EN'. clear EN A. revert n1' EN' B'. induction n1 as [|x n1 IH]; intros [|y n1'] E B'.
    + injection E as E _. exact E.
    + injection E as E _. subst. destruct (NI (B' _ (or_introl eq_refl))).
    + injection E as E _. subst. destruct (NI' (B _ (or_introl eq_refl))).
    + injection E as _ E. apply (IH (fun z I => B z (or_intror I)) n1' E). intros z I. apply B'. right. exact I.
  - destruct (NI (AI' _ (A _ _ _ EN NI))).
  - destruct (NI' (AI _ (A _ _ _ EN' NI'))).
  - reflexivity.
Qed.

Lemma block_fine_iff O n fs :
  Forall field_ok fs ->
  ((exists act, from_fields O n fs = Val act) <-> fields_fine O fs /\ ~ exists m, block_fault fs m).
Proof.
  intros K. unfold from_fields. split.
  - intros (act & E). apply bind_iff in E as (a & E1 & E). apply fields_loop_iff in E1 as (N & V & ->).
    pose proof (block_outcome O n fs N V K) as B. rewrite E in B. split; [|exact B]. apply (fields_fine_iff O fs K). auto.
  - intros (F & B). apply (fields_fine_iff O fs K) in F as (N & V).
    rewrite (proj2 (fields_loop_iff O fs _) (conj N (conj V eq_refl))). cbn [bind].
    pose proof (block_outcome O n fs N V K) as BO. destruct (fields_finish n (fill fs)) as [act|m|]; [eauto| |tauto].
    destruct B. eauto.
Qed.
