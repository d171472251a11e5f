(** Account blocks and options mean what SpecBlocks.v says (C42, C45-C48). *)
From Verif Require Import Base BaseLemmas Time Url Oracles ConfigLex ConfigParse Config SpecConfig SpecGrammar
  LexLemmas ConfigParseProofs ConfigLemmas Lexing SpecLex SpecBlocks.
From Coq Require Import Permutation.

(** * Times (C42) *)

Lemma decimal_inj s n : decimal s n -> forall n', decimal s n' -> n = n'.
Proof. intros D n' D'. apply decimal_val in D. apply decimal_val in D'. congruence. Qed.

Lemma time_unit_inj c u u' : time_unit c u -> time_unit c u' -> u = u'.
Proof. destruct 1; intros H; inversion H; reflexivity. Qed.

Lemma time_value_iff t d : time_lexeme t -> (time_str_to_duration t = Val d <-> time_value t d).
Proof.
  intros (s & n & c & u & -> & D & U). rewrite (time_str_value s n c u D U). split.
  - intros E. exists s, n, c, u. split; [reflexivity|]. split; [exact D|]. split; [exact U|].
    destruct (Z.ltb_spec (n * u) two64) as [L|L].
    + injection E as <-. split; [exact L|]. reflexivity.
    + destruct (n <? two64)%Z; discriminate.
  - intros (s' & n' & c' & u' & E & D' & U' & L & ->).
    apply app_inj_tail in E as [<- <-]. rewrite (decimal_inj _ _ D' _ D), (time_unit_inj _ _ _ U' U) in *.
    destruct (Z.ltb_spec (n * u) two64) as [K|K]; [reflexivity|]. exfalso. 
    change two64 with (2 ^ 64)%Z in K. lia.
Qed.

(** * Looking up the first entry of a kind *)

Fixpoint first_of {F V} (g : F -> option V) (l : list F) : option V :=
  match l with [] => None | f :: l' => match g f with Some v => Some v | None => first_of g l' end end.

Lemma first_of_snoc {F V} (g : F -> option V) l f :
  first_of g (l ++ [f]) = match first_of g l with Some v => Some v | None => g f end.
Proof.
  induction l as [|x l IH]; simpl; [destruct (g f); reflexivity|]. destruct (g x); [reflexivity|exact IH].
Qed.

Lemma first_of_some {F V} (g : F -> option V) l v : first_of g l = Some v -> exists f, In f l /\ g f = Some v.
Proof.
  induction l as [|x l IH]; simpl; [discriminate|]. destruct (g x) as [w|] eqn:E.
  - intros H. injection H as <-. eauto.
  - intros H. destruct (IH H) as (f & I & G). eauto.
Qed.

Lemma first_of_none {F V} (g : F -> option V) l : first_of g l = None <-> forall f, In f l -> g f = None.
Proof.
  induction l as [|x l IH]; simpl; [split; [intros _ f []|reflexivity]|]. destruct (g x) as [w|] eqn:E.
  - split; [discriminate|]. intros H. rewrite (H x (or_introl eq_refl)) in E. discriminate.
  - rewrite IH. split.
    + intros H f [<-|I]; auto.
    + intros H f I. apply H. auto.
Qed.

Lemma opt_id {A} (o : option A) : match o with Some v => Some v | None => None end = o.
Proof. destruct o; reflexivity. Qed.

Lemma nodup_map_inj {A B} (g : A -> B) l x y : NoDup (map g l) -> In x l -> In y l -> g x = g y -> x = y.
Proof.
  induction l as [|a l IH]; simpl; [intros _ []|]. intros N. inversion N as [|? ? NI N']; subst.
  intros [<-|Ix] [<-|Iy] E; auto.
  - exfalso. apply NI. rewrite E. apply in_map, Iy.
  - exfalso. apply NI. rewrite <- E. apply in_map, Ix.
Qed.

Lemma NoDup_snoc {A} (l : list A) x : NoDup (l ++ [x]) <-> NoDup l /\ ~ In x l.
Proof.
  split.
  - intros N. split; [eapply NoDup_remove_1 in N; rewrite app_nil_r in N; exact N|].
    apply NoDup_remove_2 in N. rewrite app_nil_r in N. exact N.
  - intros [N NI]. apply NoDup_rev in N. rewrite <- (rev_involutive (l ++ [x])). apply NoDup_rev.
    rewrite rev_app_distr. constructor; [rewrite <- in_rev; exact NI|exact N].
Qed.

(** * Fields *)

Definition val_of {A} (o : outcome A) : option A := match o with Val x => Some x | _ => None end.

Definition s_auth f := match f with FAuthUri s => Some (unescape_str s) | _ => None end.
Definition s_fields f := match f with
  | FAuthUriFields l => Some (map (fun kv => (unescape_str (fst kv), unescape_str (snd kv))) l) | _ => None end.
Definition s_id f := match f with FClientId s => Some (unescape_str s) | _ => None end.
Definition s_secret f := match f with FClientSecret s => Some (unescape_str s) | _ => None end.
Definition s_hint f := match f with FLoginHint s => Some (unescape_str s) | _ => None end.
Definition s_redirect f := match f with FRedirectUri s => Some (unescape_str s) | _ => None end.
Definition s_at_least f := match f with FRefreshAtLeast t => val_of (time_str_to_duration t) | _ => None end.
Definition s_before f := match f with FRefreshBeforeExpiry t => val_of (time_str_to_duration t) | _ => None end.
Definition s_retry f := match f with FRefreshRetry t => val_of (time_str_to_duration t) | _ => None end.
Definition s_scopes f := match f with FScopes l => Some (map unescape_str l) | _ => None end.
Definition s_token f := match f with FTokenUri s => Some (unescape_str s) | _ => None end.

Definition fill (fs : list field) : field_acc :=
  mkFacc (first_of s_auth fs) (first_of s_fields fs) (first_of s_id fs) (first_of s_secret fs)
    (first_of s_hint fs) (first_of s_redirect fs) (first_of s_at_least fs) (first_of s_before fs)
    (first_of s_retry fs) (first_of s_scopes fs) (first_of s_token fs).

Definition valid (O : oracles) (f : field) : Prop :=
  match f with
  | FAuthUri s | FRedirectUri s | FTokenUri s => http_uri O (unescape_str s)
  | FRefreshAtLeast t | FRefreshBeforeExpiry t | FRefreshRetry t => exists d, time_str_to_duration t = Val d
  | _ => True
  end.

Lemma slot_free {V} O (g : field -> option V) nm fs :
  (forall f, valid O f -> (field_name f = nm <-> g f <> None)) -> Forall (valid O) fs ->
  (first_of g fs = None <-> ~ In nm (map field_name fs)).
Proof.
  intros H F. rewrite Forall_forall in F. rewrite first_of_none. split.
  - intros N I. apply in_map_iff in I as (f & E & I). apply (H f (F f I)) in E. apply E, N, I.
  - intros NI f I. destruct (g f) eqn:G; [|reflexivity]. exfalso. apply NI, in_map_iff. exists f. split; [|exact I].
    apply (H f (F f I)). congruence.
Qed.

Ltac slot := match goal with |- forall f, valid ?O f -> _ =>
  let f := fresh "f" in let VF := fresh "VF" in
  intros f VF; destruct f; cbn in VF |- *; try (split; [discriminate|intros NN; destruct (NN eq_refl)]);
  first [split; [discriminate|reflexivity] | destruct VF as (d & ->); split; [discriminate|reflexivity]] end.

Lemma cnau_iff {T} O n l (v : option T) s :
  check_not_assigned_uri O n l v = Val s <-> s = unescape_str l /\ v = None /\ http_uri O s.
Proof.
  split; [apply cnau_val|]. intros (-> & -> & (u & P & S)). unfold check_not_assigned_uri. rewrite P.
  destruct S as [-> | ->]; reflexivity.
Qed.

Lemma bind_iff {A B} (m : outcome A) (f : A -> outcome B) y :
  (x <- m ;; f x) = Val y <-> exists x, m = Val x /\ f x = Val y.
Proof.
  split; [apply bind_inv|]. intros (x & -> & E). exact E.
Qed.

Lemma field_step_iff O fs f a' :
  Forall (valid O) fs ->
  (field_step O (fill fs) f = Val a'
   <-> valid O f /\ ~ In (field_name f) (map field_name fs) /\ a' = fill (fs ++ [f])).
Proof.
  intros F. unfold fill. rewrite !first_of_snoc.
  pose proof (slot_free O s_auth $"auth_uri" fs ltac:(slot) F) as K1.
  pose proof (slot_free O s_fields $"auth_uri_fields" fs ltac:(slot) F) as K2.
  pose proof (slot_free O s_id $"client_id" fs ltac:(slot) F) as K3.
  pose proof (slot_free O s_secret $"client_secret" fs ltac:(slot) F) as K4.
  pose proof (slot_free O s_hint $"login_hint" fs ltac:(slot) F) as K5.
  pose proof (slot_free O s_redirect $"redirect_uri" fs ltac:(slot) F) as K6.
  pose proof (slot_free O s_at_least $"refresh_at_least" fs ltac:(slot) F) as K7.
  pose proof (slot_free O s_before $"refresh_before_expiry" fs ltac:(slot) F) as K8.
  pose proof (slot_free O s_retry $"refresh_retry" fs ltac:(slot) F) as K9.
  pose proof (slot_free O s_scopes $"scopes" fs ltac:(slot) F) as K10.
  pose proof (slot_free O s_token $"token_uri" fs ltac:(slot) F) as K11.
  destruct f; cbn [field_step field_name valid s_auth s_fields s_id s_secret s_hint s_redirect s_at_least s_before
    s_retry s_scopes s_token]; rewrite !opt_id, bind_iff;
  match goal with
  | |- context [check_not_assigned_uri] =>
      first [rewrite <- K1|rewrite <- K6|rewrite <- K11]; split;
      [ intros (x & E & Q); apply cnau_iff in E as (-> & N & U); injection Q as <-; rewrite N; auto
      | intros (U & N & ->); rewrite N; eexists; split; [apply cnau_iff; auto|reflexivity] ]
  | |- context [check_not_assigned_time] =>
      first [rewrite <- K7|rewrite <- K8|rewrite <- K9]; split;
      [ intros (x & E & Q); apply cnat_val in E as (-> & N); apply bind_inv in Q as (d & E & Q);
        injection Q as <-; rewrite N, E; eauto
      | intros ((d & E) & N & ->); rewrite N; eexists; split; [reflexivity|]; rewrite E; reflexivity ]
  | |- _ =>
      first [rewrite <- K2|rewrite <- K3|rewrite <- K4|rewrite <- K5|rewrite <- K10]; split;
      [ intros (x & E & Q);
        match type of E with _ _ ?s = _ => destruct s eqn:N; [discriminate E|]
                           | _ _ _ ?s = _ => destruct s eqn:N; [discriminate E|] end;
        injection Q as <-; try (injection E as <-); auto
      | intros (_ & N & ->); rewrite N; eexists; split; reflexivity ]
  end.
Qed.

Lemma fields_loop_app O a fs fs' :
  fields_loop O a (fs ++ fs') = (a' <- fields_loop O a fs ;; fields_loop O a' fs').
Proof.
  revert a. induction fs as [|f fs IH]; intros a; simpl; [reflexivity|].
  destruct (field_step O a f); simpl; auto.
Qed.

Lemma fields_loop_iff O fs : forall a,
  fields_loop O facc0 fs = Val a <-> NoDup (map field_name fs) /\ Forall (valid O) fs /\ a = fill fs.
Proof.
  induction fs as [|f fs IH] using rev_ind; intros a.
  - cbn. split.
    + intros E. injection E as <-. repeat constructor.
    + intros (_ & _ & ->). reflexivity.
  - rewrite fields_loop_app, bind_iff, map_app. cbn [map]. rewrite NoDup_snoc, Forall_app. split.
    + intros (b & L & S). apply IH in L as (N & V & ->). apply bind_inv in S as (b' & S & E). injection E as <-.
      apply field_step_iff in S as (V1 & NI & ->); [|exact V]. repeat split; auto.
    + intros ((N & NI) & (V & V1) & ->). exists (fill fs). split; [apply IH; auto|].
      cbn [fields_loop]. inversion V1 as [|? ? VF _]; subst.
      assert (field_step O (fill fs) f = Val (fill (fs ++ [f]))) as -> by (apply field_step_iff; auto). reflexivity.
Qed.

(** How a slot relates to the entries of its kind. *)
Record kind {E T V} (K : T -> E) (means : T -> V -> Prop) (g : E -> option V) (l : list E) : Prop := {
  kd_of : forall f v, In f l -> g f = Some v -> exists t, f = K t;
  kd_some : forall t, In (K t) l -> g (K t) <> None;
  kd_val : forall t v, In (K t) l -> (g (K t) = Some v <-> means t v);
  kd_one : forall t t', In (K t) l -> In (K t') l -> t = t';
}.

Lemma optional_iff {E T V} (K : T -> E) (means : T -> V -> Prop) g l o :
  kind K means g l -> (first_of g l = o <-> optional K means l o).
Proof.
  intros [KO KS KV K1]. unfold optional. split.
  - intros E1. destruct o as [v|].
    + apply first_of_some in E1 as (f & I & G). destruct (KO f v I G) as (t & ->). exists t. split; [exact I|].
      apply KV; assumption.
    + rewrite first_of_none in E1. intros (t & I). apply (KS t I), E1, I.
  - destruct o as [v|].
    + intros (t & I & M). apply KV in M; [|exact I]. destruct (first_of g l) as [w|] eqn:E1.
      * apply first_of_some in E1 as (f & I' & G). destruct (KO f w I' G) as (t' & ->).
        rewrite (K1 t t' I I') in M. congruence.
      * rewrite first_of_none in E1. rewrite (E1 _ I) in M. discriminate.
    + intros N. apply first_of_none. intros f I. destruct (g f) as [v|] eqn:G; [|reflexivity].
      destruct (KO f v I G) as (t & ->). destruct N. eauto.
Qed.

Lemma default_iff {E T V} (K : T -> E) (means : T -> V -> Prop) g d l v :
  kind K means g l -> (opt_default d (first_of g l) = v <-> default K means d l v).
Proof.
  intros KD. pose proof (optional_iff K means g l) as OI. unfold default. split.
  - intros E1. destruct (first_of g l) as [w|] eqn:F.
    + simpl in E1. subst w. left. apply (OI (Some v) KD). reflexivity.
    + simpl in E1. subst d. right. split; [|reflexivity]. apply (OI None KD). reflexivity.
  - intros [H|[N ->]].
    + apply (OI (Some v) KD) in H. rewrite H. reflexivity.
    + apply (OI None KD) in N. rewrite N. reflexivity.
Qed.

Lemma unescape_iff t v : is_qstring t -> (Some (unescape_str t) = Some v <-> quoted t v).
Proof.
  intros (w & ->). rewrite unescape_quote. unfold quoted. split.
  - intros E. injection E as ->. reflexivity.
  - intros E. apply quote_inj in E as ->. reflexivity.
Qed.

Lemma unescape_list_iff t v : Forall is_qstring t -> (Some (map unescape_str t) = Some v <-> quoted_list t v).
Proof.
  intros F. unfold quoted_list. split.
  - intros E. injection E as <-. rewrite map_map. induction F as [|x l (w & ->) F IH]; [reflexivity|].
    cbn [map]. rewrite unescape_quote, <- IH. reflexivity.
  - intros ->. f_equal. rewrite map_map. induction v as [|x v IH]; [reflexivity|].
    cbn [map]. rewrite unescape_quote. f_equal. apply IH. inversion F; assumption.
Qed.

Lemma unescape_pairs_iff t v :
  Forall (fun kv => is_qstring (fst kv) /\ is_qstring (snd kv)) t ->
  (Some (map (fun kv => (unescape_str (fst kv), unescape_str (snd kv))) t) = Some v <-> quoted_pairs t v).
Proof.
  intros F. unfold quoted_pairs. split.
  - intros E. injection E as <-. rewrite map_map. induction F as [|x l ((a & Ea) & (b & Eb)) F IH]; [reflexivity|].
    cbn [map]. destruct x as [x1 x2]. cbn [fst snd] in *. subst. rewrite !unescape_quote, <- IH. reflexivity.
  - intros ->. f_equal. rewrite map_map. induction v as [|[x y] v IH]; [reflexivity|].
    cbn [map fst snd]. rewrite !unescape_quote. f_equal. apply IH. inversion F; assumption.
Qed.

Lemma val_of_some {A} (o : outcome A) v : val_of o = Some v <-> o = Val v.
Proof. destruct o; simpl; split; congruence. Qed.

Lemma field_kinds O fs :
  NoDup (map field_name fs) -> Forall (valid O) fs -> Forall field_ok fs ->
  kind FAuthUri (quoted_uri O) s_auth fs /\ kind FTokenUri (quoted_uri O) s_token fs
  /\ kind FRedirectUri (quoted_uri O) s_redirect fs /\ kind FClientId quoted s_id fs
  /\ kind FClientSecret quoted s_secret fs /\ kind FLoginHint quoted s_hint fs
  /\ kind FScopes quoted_list s_scopes fs /\ kind FAuthUriFields quoted_pairs s_fields fs
  /\ kind FRefreshAtLeast time_value s_at_least fs /\ kind FRefreshBeforeExpiry time_value s_before fs
  /\ kind FRefreshRetry time_value s_retry fs.
Proof.
  intros N V F. rewrite Forall_forall in V, F.
  refine (conj _ (conj _ (conj _ (conj _ (conj _ (conj _ (conj _ (conj _ (conj _ (conj _ _))))))))));
  (constructor;
   [ intros f v I G; destruct f; try discriminate G; eauto
   | intros t I; cbn; first [discriminate | destruct (V _ I) as (d & E); rewrite E; discriminate]
   | intros t v I; cbn
   | intros t t' I I'; pose proof (nodup_map_inj _ _ _ _ N I I' eq_refl) as E; congruence ]).
  all: try (apply unescape_iff, (F _ I)).
  all: try (apply unescape_list_iff, (F _ I)).
  all: try (apply unescape_pairs_iff, (F _ I)).
  all: try (rewrite val_of_some; apply time_value_iff, (F _ I)).
  all: unfold quoted_uri; rewrite (unescape_iff t v (F _ I)); pose proof (V _ I) as U; cbn in U; unfold quoted;
    split; [intros ->; rewrite unescape_quote in U; auto|tauto].
Qed.

Lemma check_assigned_iff {T} n (o : option T) x : check_assigned n o = Val x <-> o = Some x.
Proof. destruct o; simpl; split; congruence. Qed.

Lemma block_valid O n fs act : Forall field_ok fs -> block_means O n fs act -> Forall (valid O) fs.
Proof.
  intros F M. apply Forall_forall. intros f I. rewrite Forall_forall in F. pose proof (F f I) as FK.
  assert (forall f', In f' fs -> field_name f' = field_name f -> f' = f) as ONE.
  { intros f' I' E. exact (nodup_map_inj _ _ _ _ (bm_once _ _ _ _ M) I' I E). }
  destruct f; cbn [valid]; auto.
  - destruct (bm_auth_uri _ _ _ _ M) as [I' U]. specialize (ONE _ I' eq_refl). injection ONE as <-.
    rewrite unescape_quote. exact U.
  - destruct (bm_redirect _ _ _ _ M) as [(t & I' & -> & U)|[NO _]]; [|destruct NO; eauto].
    specialize (ONE _ I' eq_refl). injection ONE as <-. rewrite unescape_quote. exact U.
  - pose proof (bm_at_least _ _ _ _ M) as X. destruct (a_refresh_at_least act) as [d|]; [|destruct X; eauto].
    destruct X as (t' & I' & D). specialize (ONE _ I' eq_refl). injection ONE as <-. exists d. apply time_value_iff; assumption.
  - pose proof (bm_before _ _ _ _ M) as X. destruct (a_refresh_before_expiry act) as [d|]; [|destruct X; eauto].
    destruct X as (t' & I' & D). specialize (ONE _ I' eq_refl). injection ONE as <-. exists d. apply time_value_iff; assumption.
  - pose proof (bm_retry _ _ _ _ M) as X. destruct (a_refresh_retry act) as [d|]; [|destruct X; eauto].
    destruct X as (t' & I' & D). specialize (ONE _ I' eq_refl). injection ONE as <-. exists d. apply time_value_iff; assumption.
  - destruct (bm_token_uri _ _ _ _ M) as [I' U]. specialize (ONE _ I' eq_refl). injection ONE as <-.
    rewrite unescape_quote. exact U.
Qed.

Lemma clash_iff fs :
  Forall field_ok fs ->
  (match first_of s_hint fs, first_of s_fields fs with
   | Some _, Some l => existsb (fun kv => str_eqb (fst kv) $"login_hint") l
   | _, _ => false end = true
   <-> (exists t, In (FLoginHint t) fs) /\ exists v, In ($"login_hint", v) (opt_default [] (first_of s_fields fs))).
Proof.
  intros F. split.
  - intros E. destruct (first_of s_hint fs) as [h|] eqn:H; [|discriminate].
    destruct (first_of s_fields fs) as [l|]; [|discriminate]. split.
    + apply first_of_some in H as (f & I & G). destruct f; try discriminate. eauto.
    + apply existsb_exists in E as ([k v] & I & E). apply str_eqb_eq in E. cbn in E. subst k. exists v. exact I.
  - intros ((t & I) & (v & J)). destruct (first_of s_hint fs) as [h|] eqn:H.
    + destruct (first_of s_fields fs) as [l|]; [|destruct J]. apply existsb_exists. exists ($"login_hint", v).
      split; [exact J|]. apply str_eqb_eq. reflexivity.
    + rewrite first_of_none in H. specialize (H _ I). discriminate.
Qed.

(** C45 *)
Lemma from_fields_iff O n fs act :
  Forall field_ok fs -> (from_fields O n fs = Val act <-> block_means O n fs act).
Proof.
  intros F. unfold from_fields. rewrite bind_iff. split.
  - intros (a & L & FIN). apply fields_loop_iff in L as (N & V & ->).
    destruct (field_kinds O fs N V F) as (KA & KT & KR & KI & KS & KH & KSc & KF & K1 & K2 & K3).
    unfold fields_finish in FIN. cbn [fill f_auth_uri f_client_id f_token_uri f_login_hint f_auth_uri_fields
      f_client_secret f_redirect_uri f_refresh_at_least f_refresh_before_expiry f_refresh_retry f_scopes] in FIN.
    apply bind_inv in FIN as (au & E1 & FIN). apply bind_inv in FIN as (ci & E2 & FIN).
    apply bind_inv in FIN as (tu & E3 & FIN). rewrite check_assigned_iff in E1, E2, E3.
    apply (optional_iff _ _ _ _ _ KA) in E1 as (t1 & I1 & -> & U1).
    apply (optional_iff _ _ _ _ _ KI) in E2 as (t2 & I2 & ->).
    apply (optional_iff _ _ _ _ _ KT) in E3 as (t3 & I3 & -> & U3).
    pose proof (clash_iff fs F) as CL.
    match type of FIN with (if ?b then _ else _) = _ => destruct b; [discriminate|] end.
    injection FIN as <-. constructor; cbn; auto.
    + apply (optional_iff _ _ _ _ _ KS). reflexivity.
    + apply (default_iff _ _ _ _ _ _ KR). reflexivity.
    + apply (optional_iff _ _ _ _ _ K1). reflexivity.
    + apply (optional_iff _ _ _ _ _ K2). reflexivity.
    + apply (optional_iff _ _ _ _ _ K3). reflexivity.
    + apply (default_iff _ _ _ _ _ _ KSc). reflexivity.
    + apply (default_iff _ _ _ _ _ _ KF). reflexivity.
    + intros X. apply CL in X. discriminate.
  - intros M. pose proof (block_valid O n fs act F M) as V. pose proof (bm_once _ _ _ _ M) as N.
    exists (fill fs). split; [apply fields_loop_iff; auto|].
    destruct (field_kinds O fs N V F) as (KA & KT & KR & KI & KS & KH & KSc & KF & K1 & K2 & K3).
    pose proof (clash_iff fs F) as CL. destruct M as [_ MN [MA1 MA2] MC [MT1 MT2] MS MR M1 M2 M3 MSc MF MX].
    unfold fields_finish. cbn [fill f_auth_uri f_client_id f_token_uri f_login_hint f_auth_uri_fields
      f_client_secret f_redirect_uri f_refresh_at_least f_refresh_before_expiry f_refresh_retry f_scopes].
    assert (first_of s_auth fs = Some (a_auth_uri act)) as -> by (apply (optional_iff _ _ _ _ _ KA); eexists; split; [exact MA1|split; auto]).
    assert (first_of s_id fs = Some (a_client_id act)) as -> by (apply (optional_iff _ _ _ _ _ KI); eexists; split; [exact MC|reflexivity]).
    assert (first_of s_token fs = Some (a_token_uri act)) as -> by (apply (optional_iff _ _ _ _ _ KT); eexists; split; [exact MT1|split; auto]).
    cbn [check_assigned bind].
    apply (optional_iff _ _ _ _ _ KS) in MS. apply (default_iff _ _ _ _ _ _ KR) in MR.
    apply (optional_iff _ _ _ _ _ K1) in M1. apply (optional_iff _ _ _ _ _ K2) in M2.
    apply (optional_iff _ _ _ _ _ K3) in M3. apply (default_iff _ _ _ _ _ _ KSc) in MSc.
    apply (default_iff _ _ _ _ _ _ KF) in MF.
    match goal with |- (if ?b then _ else _) = _ => destruct b eqn:B end.
    { exfalso. apply MX. rewrite <- MF. apply CL. reflexivity. }
    rewrite MS, M1, M2, M3, MF, MSc. change default_redirect_uri with ($"http://localhost/"). rewrite MR, <- MN.
    destruct act; reflexivity.
Qed.
