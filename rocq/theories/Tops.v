(** The whole configuration file means what SpecBlocks.v says (C46-C48). *)
From Verif Require Import Base BaseLemmas Time Url Oracles ConfigLex ConfigParse Config SpecConfig SpecGrammar
  LexLemmas ConfigParseProofs ConfigLemmas Lexing SpecLex SpecBlocks Blocks.
From Coq Require Import Permutation.

Definition o_anc t := match t with TLAuthNotifyCmd s => Some (unescape_str s) | _ => None end.
Definition o_ani t := match t with TLAuthNotifyInterval s => val_of (time_str_to_duration s) | _ => None end.
Definition o_enc t := match t with TLErrorNotifyCmd s => Some (unescape_str s) | _ => None end.
Definition o_http t := match t with
  | TLHttpListen s => Some (Some (unescape_str s)) | TLHttpListenNone => Some None | _ => None end.
Definition o_https t := match t with
  | TLHttpsListen s => Some (Some (unescape_str s)) | TLHttpsListenNone => Some None | _ => None end.
Definition o_tei t := match t with TLTransientErrorIfCmd s => Some (unescape_str s) | _ => None end.
Definition o_ral t := match t with TLRefreshAtLeast s => val_of (time_str_to_duration s) | _ => None end.
Definition o_rbe t := match t with TLRefreshBeforeExpiry s => val_of (time_str_to_duration s) | _ => None end.
Definition o_rr t := match t with TLRefreshRetry s => val_of (time_str_to_duration s) | _ => None end.
Definition o_tec t := match t with TLTokenEventCmd s => Some (unescape_str s) | _ => None end.

Definition add_block (O : oracles) (m : list (str * account)) (t : toplevel) : list (str * account) :=
  match t with
  | TLAccount n fs =>
      match from_fields O (unescape_str n) fs with Val act => map_insert (unescape_str n) act m | _ => m end
  | _ => m
  end.
Definition blocks O ts := fold_left (add_block O) ts [].

Definition tfill O (ts : list toplevel) : top_acc :=
  mkTacc (blocks O ts) (first_of o_anc ts) (first_of o_ani ts) (first_of o_enc ts) (first_of o_http ts)
    (first_of o_https ts) (first_of o_tei ts) (first_of o_ral ts) (first_of o_rbe ts) (first_of o_rr ts)
    (first_of o_tec ts).

Definition tvalid (O : oracles) (t : toplevel) : Prop :=
  match t with
  | TLAccount n fs => exists act, from_fields O (unescape_str n) fs = Val act
  | TLAuthErrorCmd => False
  | TLAuthNotifyInterval t | TLRefreshAtLeast t | TLRefreshBeforeExpiry t | TLRefreshRetry t =>
      exists d, time_str_to_duration t = Val d
  | _ => True
  end.

Lemma tslot_free {V} O (g : toplevel -> option V) nm ts :
  (forall t, tvalid O t -> (In nm (option_names t) <-> g t <> None)) -> Forall (tvalid O) ts ->
  (first_of g ts = None <-> ~ In nm (flat_map option_names ts)).
Proof.
  intros H F. rewrite Forall_forall in F. rewrite first_of_none. split.
  - intros N I. apply in_flat_map in I as (f & I & E). apply (H f (F f I)) in E. apply E, N, I.
  - intros NI f I. destruct (g f) eqn:G; [|reflexivity]. exfalso. apply NI, in_flat_map. exists f. split; [exact I|].
    apply (H f (F f I)). congruence.
Qed.

Ltac tslot := match goal with |- forall t, tvalid ?O t -> _ =>
  let t := fresh "t" in let VF := fresh "VF" in
  intros t VF; destruct t; cbn in VF |- *;
  try (split; [intros [NN|[]]; discriminate NN|intros NN; destruct (NN eq_refl)]);
  try (split; [intros []|intros NN; destruct (NN eq_refl)]);
  first [split; [discriminate|auto] | destruct VF as (d & ->); split; [discriminate|auto]] end.

Lemma blocks_snoc O ts t : blocks O (ts ++ [t]) = add_block O (blocks O ts) t.
Proof. unfold blocks. rewrite fold_left_app. reflexivity. Qed.

Lemma top_step_iff O ts t a' :
  Forall (tvalid O) ts ->
  (top_step O (tfill O ts) t = Val a'
   <-> tvalid O t /\ (forall x, In x (option_names t) -> ~ In x (flat_map option_names ts)) /\ a' = tfill O (ts ++ [t])).
Proof.
  intros F. unfold tfill. rewrite !first_of_snoc, blocks_snoc.
  pose proof (tslot_free O o_anc $"auth_notify_cmd" ts ltac:(tslot) F) as K1.
  pose proof (tslot_free O o_ani $"auth_notify_interval" ts ltac:(tslot) F) as K2.
  pose proof (tslot_free O o_enc $"error_notify_cmd" ts ltac:(tslot) F) as K3.
  pose proof (tslot_free O o_http $"http_listen" ts ltac:(tslot) F) as K4.
  pose proof (tslot_free O o_https $"https_listen" ts ltac:(tslot) F) as K5.
  pose proof (tslot_free O o_tei $"transient_error_if_cmd" ts ltac:(tslot) F) as K6.
  pose proof (tslot_free O o_ral $"refresh_at_least" ts ltac:(tslot) F) as K7.
  pose proof (tslot_free O o_rbe $"refresh_before_expiry" ts ltac:(tslot) F) as K8.
  pose proof (tslot_free O o_rr $"refresh_retry" ts ltac:(tslot) F) as K9.
  pose proof (tslot_free O o_tec $"token_event_cmd" ts ltac:(tslot) F) as K10.
  assert (forall y, (forall x, In x [y] -> ~ In x (flat_map option_names ts)) <-> ~ In y (flat_map option_names ts)) as ONE.
  { intros y. split; [intros H; apply H; left; reflexivity|]. intros H x [<-|[]]. exact H. }
  destruct t; cbn [top_step option_names tvalid add_block o_anc o_ani o_enc o_http o_https o_tei o_ral o_rbe o_rr o_tec];
    rewrite ?opt_id, ?ONE, ?bind_iff;
  match goal with
  | |- context [check_not_assigned_time] =>
      first [rewrite <- K2|rewrite <- K7|rewrite <- K8|rewrite <- K9]; split;
      [ intros (x & E & Q); apply cnat_val in E as (-> & N); apply bind_inv in Q as (d & E & Q);
        injection Q as <-; rewrite N, E; eauto
      | intros ((d & E) & N & ->); rewrite N; eexists; split; [reflexivity|]; rewrite E; reflexivity ]
  | |- context [from_fields] =>
      split; [ intros (act & E & Q); injection Q as <-; rewrite E; split; [eauto|]; split; [intros x []|reflexivity]
             | intros ((act & E) & _ & ->); rewrite E; exists act; split; reflexivity ]
  | |- context [Err _ = _] => split; [discriminate|intros ([] & _)]
  | |- _ =>
      first [rewrite <- K1|rewrite <- K3|rewrite <- K4|rewrite <- K5|rewrite <- K6|rewrite <- K10]; split;
      [ intros (x & E & Q);
        match type of E with _ _ ?s = _ => destruct s eqn:N; [discriminate E|]
                           | _ _ _ ?s = _ => destruct s eqn:N; [discriminate E|] end;
        injection Q as <-; try (injection E as <-); auto
      | intros (_ & N & ->); rewrite N; eexists; split; reflexivity ]
  end.
Qed.

Lemma tops_loop_app O a ts ts' :
  tops_loop O a (ts ++ ts') = (a' <- tops_loop O a ts ;; tops_loop O a' ts').
Proof.
  revert a. induction ts as [|f fs IH]; intros a; simpl; [reflexivity|].
  destruct (top_step O a f); simpl; auto.
Qed.

Lemma option_names_short t : option_names t = [] \/ exists x, option_names t = [x].
Proof. destruct t; cbn; eauto. Qed.

Lemma nodup_names ts t :
  NoDup (flat_map option_names (ts ++ [t]))
  <-> NoDup (flat_map option_names ts) /\ (forall x, In x (option_names t) -> ~ In x (flat_map option_names ts)).
Proof.
  rewrite flat_map_app. cbn [flat_map]. rewrite app_nil_r. destruct (option_names_short t) as [-> | (x & ->)].
  - rewrite app_nil_r. split; [intros N; split; [exact N|intros x []]|tauto].
  - rewrite NoDup_snoc. split; intros (N & H); (split; [exact N|]).
    + intros y [<-|[]]. exact H.
    + apply H. left. reflexivity.
Qed.

Lemma tops_loop_iff O ts : forall a,
  tops_loop O tacc0 ts = Val a <-> NoDup (flat_map option_names ts) /\ Forall (tvalid O) ts /\ a = tfill O ts.
Proof.
  induction ts as [|f fs IH] using rev_ind; intros a.
  - cbn. split.
    + intros E. injection E as <-. repeat constructor.
    + intros (_ & _ & ->). reflexivity.
  - rewrite tops_loop_app, bind_iff, nodup_names, Forall_app. split.
    + intros (b & L & S). apply IH in L as (N & V & ->). apply bind_inv in S as (b' & S & E). injection E as <-.
      apply top_step_iff in S as (V1 & NI & ->); [|exact V]. repeat split; auto.
    + intros ((N & NI) & (V & V1) & ->). exists (tfill O fs). split; [apply IH; auto|].
      cbn [tops_loop]. inversion V1 as [|? ? VF _]; subst.
      assert (top_step O (tfill O fs) f = Val (tfill O (fs ++ [f]))) as -> by (apply top_step_iff; auto). reflexivity.
Qed.

(** ** Accounts *)

Lemma blocks_nodup O ts : NoDup (keys (blocks O ts)).
Proof.
  induction ts as [|t ts IH] using rev_ind; [constructor|]. rewrite blocks_snoc.
  destruct t; cbn [add_block]; auto. destruct (from_fields _ _ _); auto. apply keys_map_insert_nodup, IH.
Qed.

Lemma snoc_split {A} (l b a : list A) x y : l ++ [x] = b ++ y :: a ->
  (a = [] /\ b = l /\ y = x) \/ exists a', a = a' ++ [x] /\ l = b ++ y :: a'.
Proof.
  destruct a as [|z a] using rev_ind.
  - intros E. apply app_inj_tail in E as [-> ->]. auto.
  - intros E. right. exists a. rewrite app_comm_cons, app_assoc in E. apply app_inj_tail in E as [-> ->]. auto.
Qed.

Lemma last_block_snoc name ts t fs :
  last_block name (ts ++ [t]) fs
  <-> t = TLAccount (quote_string name) fs
      \/ ((forall fs', t <> TLAccount (quote_string name) fs') /\ last_block name ts fs).
Proof.
  unfold last_block. split.
  - intros (b & a & E & N). apply snoc_split in E as [(-> & -> & ->)|(a' & -> & ->)]; [left; reflexivity|right]. split.
    + intros fs' ->. apply N. exists fs'. apply in_elt.
    + exists b, a'. split; [reflexivity|]. intros (fs' & I). apply N. exists fs'. apply in_or_app. auto.
  - intros [->|(NT & b & a & -> & N)].
    + exists ts, []. split; [reflexivity|]. intros (fs' & []).
    + exists b, (a ++ [t]). split; [rewrite <- app_assoc; reflexivity|]. intros (fs' & I).
      apply in_app_or in I as [I|[I|[]]]; [apply N; eauto|apply (NT fs'), I].
Qed.

Lemma lookup_blocks O ts name act :
  Forall (tvalid O) ts -> Forall top_ok ts ->
  (lookup name (blocks O ts) = Some act <-> exists fs, last_block name ts fs /\ from_fields O name fs = Val act).
Proof.
  induction ts as [|t ts IH] using rev_ind; intros V F.
  - split; [discriminate|]. intros (fs & (b & a & E & _) & _). destruct b; discriminate.
  - apply Forall_app in V as [V V1]. inversion V1 as [|? ? VT _]; subst.
    apply Forall_app in F as [F F1]. inversion F1 as [|? ? FT _]; subst. specialize (IH V F).
    rewrite blocks_snoc.
    assert (forall P : list field -> Prop, (forall fs', t <> TLAccount (quote_string name) fs') ->
      ((exists fs, last_block name (ts ++ [t]) fs /\ P fs) <-> (exists fs, last_block name ts fs /\ P fs))) as OTHER.
    { intros P NT. split; intros (fs & L & Q); exists fs; (split; [|exact Q]).
      - apply last_block_snoc in L as [E|[_ L]]; [destruct (NT _ E)|exact L].
      - apply last_block_snoc. auto. }
    destruct t as [n fs| | | | | | | | | | | | |]; cbn [add_block]; try (rewrite OTHER by discriminate; exact IH).
    destruct VT as (act' & E). rewrite E, lookup_map_insert. destruct FT as ((v & ->) & _). rewrite unescape_quote in *.
    destruct (str_eqb name v) eqn:EQ.
    + apply str_eqb_eq in EQ. subst v. split.
      * intros H. injection H as <-. exists fs. split; [apply last_block_snoc; left; reflexivity|exact E].
      * intros (fs' & L & E'). apply last_block_snoc in L as [X|[NT _]]; [|destruct (NT fs eq_refl)].
        injection X as <-. congruence.
    + rewrite OTHER; [exact IH|]. intros fs' X. assert (quote_string v = quote_string name) as Y by congruence. apply quote_inj in Y. subst v.
      rewrite (proj2 (str_eqb_eq name name) eq_refl) in EQ. discriminate.
Qed.

(** ** Options *)

Lemma nodup_flat_map_inj {A B} (g : A -> list B) l x y z :
  NoDup (flat_map g l) -> In x l -> In y l -> In z (g x) -> In z (g y) -> x = y.
Proof.
  induction l as [|a l IH]; simpl; [intros _ []|]. intros N.
  assert (NoDup (flat_map g l) /\ forall b, In b (g a) -> ~ In b (flat_map g l)) as [N' D].
  { clear IH. revert N. generalize (flat_map g l) as r. induction (g a) as [|b bs IHb]; intros r N; simpl in N.
    - split; [exact N|intros b []].
    - inversion N as [|? ? NI N2]; subst. destruct (IHb r N2) as [X Y]. split; [exact X|].
      intros c [<-|I]; [|apply Y, I]. intros Q. apply NI, in_or_app. auto. }
  intros [<-|Ix] [<-|Iy] Zx Zy; auto.
  - exfalso. apply (D z Zx). apply in_flat_map. eauto.
  - exfalso. apply (D z Zy). apply in_flat_map. eauto.
Qed.

Lemma top_kinds O ts :
  NoDup (flat_map option_names ts) -> Forall (tvalid O) ts -> Forall top_ok ts ->
  kind TLAuthNotifyCmd quoted o_anc ts /\ kind TLErrorNotifyCmd quoted o_enc ts
  /\ kind TLTransientErrorIfCmd quoted o_tei ts /\ kind TLTokenEventCmd quoted o_tec ts
  /\ kind TLAuthNotifyInterval time_value o_ani ts /\ kind TLRefreshAtLeast time_value o_ral ts
  /\ kind TLRefreshBeforeExpiry time_value o_rbe ts /\ kind TLRefreshRetry time_value o_rr ts.
Proof.
  intros N V F. rewrite Forall_forall in V, F.
  refine (conj _ (conj _ (conj _ (conj _ (conj _ (conj _ (conj _ _)))))));
  (constructor;
   [ intros f v I G; destruct f; try discriminate G; eauto
   | intros t I; cbn; first [discriminate | destruct (V _ I) as (d & E); rewrite E; discriminate]
   | intros t v I; cbn
   | intros t t' I I'; pose proof (nodup_flat_map_inj _ _ _ _ _ N I I' (or_introl eq_refl) (or_introl eq_refl)) as E; congruence ]).
  all: try (apply unescape_iff, (F _ I)).
  all: try (rewrite val_of_some; apply time_value_iff, (F _ I)).
Qed.

Lemma listen_iff (K : str -> toplevel) none g nm ts o :
  NoDup (flat_map option_names ts) ->
  (forall t, (exists v, g t = Some v) -> t = none \/ exists s, t = K s) ->
  g none = Some None -> (forall s, g (K s) = Some (Some (unescape_str s))) ->
  (forall s, In (K s) ts -> is_qstring s) ->
  option_names none = [nm] -> (forall s, option_names (K s) = [nm]) ->
  (forall s, K s <> none) ->
  (opt_default (Some listen_default) (first_of g ts) = o <-> listen_means K none ts o)
  /\ (first_of g ts = Some None <-> In none ts).
Proof.
  intros N OF GN GK Q NN NK D.
  assert (forall f f', In f ts -> In f' ts -> In nm (option_names f) -> In nm (option_names f') -> f = f') as ONE
    by (intros f f' I I' A B; exact (nodup_flat_map_inj _ _ _ _ _ N I I' A B)).
  assert (first_of g ts = Some None <-> In none ts) as NONE.
  { split.
    - intros E. apply first_of_some in E as (t & I & G). destruct (OF t (ex_intro _ _ G)) as [->|(s & ->)]; [exact I|].
      rewrite GK in G. discriminate.
    - intros I. destruct (first_of g ts) as [v|] eqn:E.
      + apply first_of_some in E as (t & I' & G). destruct (OF t (ex_intro _ _ G)) as [->|(s & ->)]; [congruence|].
        exfalso. apply (D s). apply ONE; auto; [rewrite NK|rewrite NN]; left; reflexivity.
      + rewrite first_of_none in E. rewrite (E _ I) in GN. discriminate. }
  split; [|exact NONE]. unfold listen_means. split.
  - intros E. destruct (first_of g ts) as [v|] eqn:FG; cbn in E; subst o.
    + destruct v as [a|]; [|apply NONE; reflexivity]. left.
      apply first_of_some in FG as (t & I & G). destruct (OF t (ex_intro _ _ G)) as [->|(s & ->)]; [congruence|].
      rewrite GK in G. injection G as <-. destruct (Q s I) as (v & ->). rewrite unescape_quote. exact I.
    + right. rewrite first_of_none in FG. split; [|split; [|reflexivity]].
      * intros (s & I). specialize (FG _ I). rewrite GK in FG. discriminate.
      * intros I. specialize (FG _ I). congruence.
  - destruct o as [a|].
    + intros [I|(NS & NI & ->)].
      * destruct (first_of g ts) as [v|] eqn:FG.
        -- apply first_of_some in FG as (t & I' & G). destruct (OF t (ex_intro _ _ G)) as [->|(s & ->)].
           ++ exfalso. apply (D (quote_string a)). apply ONE; auto; [rewrite NK|rewrite NN]; left; reflexivity.
           ++ assert (K (quote_string a) = K s) as X by (apply ONE; auto; rewrite NK; left; reflexivity).
              rewrite <- X, GK, unescape_quote in G. injection G as <-. reflexivity.
        -- rewrite first_of_none in FG. specialize (FG _ I). rewrite GK in FG. discriminate.
      * assert (first_of g ts = None) as ->; [|reflexivity]. apply first_of_none. intros t I.
        destruct (g t) as [v|] eqn:G; [|reflexivity]. exfalso.
        destruct (OF t (ex_intro _ _ G)) as [->|(s & ->)]; [contradiction|apply NS; eauto].
    + intros I. apply NONE in I. rewrite I. reflexivity.
Qed.

Lemma http_listen_iff ts o :
  NoDup (flat_map option_names ts) -> Forall top_ok ts ->
  (opt_default (Some listen_default) (first_of o_http ts) = o <-> listen_means TLHttpListen TLHttpListenNone ts o)
  /\ (first_of o_http ts = Some None <-> In TLHttpListenNone ts).
Proof.
  intros N F. rewrite Forall_forall in F.
  apply (listen_iff TLHttpListen TLHttpListenNone o_http $"http_listen"); auto; try discriminate.
  - intros t (v & G). destruct t; try discriminate; eauto.
  - intros s I. exact (F _ I).
Qed.

Lemma https_listen_iff ts o :
  NoDup (flat_map option_names ts) -> Forall top_ok ts ->
  (opt_default (Some listen_default) (first_of o_https ts) = o <-> listen_means TLHttpsListen TLHttpsListenNone ts o)
  /\ (first_of o_https ts = Some None <-> In TLHttpsListenNone ts).
Proof.
  intros N F. rewrite Forall_forall in F.
  apply (listen_iff TLHttpsListen TLHttpsListenNone o_https $"https_listen"); auto; try discriminate.
  - intros t (v & G). destruct t; try discriminate; eauto.
  - intros s I. exact (F _ I).
Qed.

(** ** Redirect checks *)

Lemma starts_with_false p s : starts_with p s = false -> forall r, s <> p ++ r.
Proof. intros E r ->. rewrite starts_with_app in E. discriminate. Qed.

Definition redirect_fine (hl hsl : option (option str)) (act : account) : Prop :=
  (forall r, a_redirect_uri act = $"https" ++ r -> hsl <> Some None)
  /\ (forall r, a_redirect_uri act = $"http" ++ r -> (forall r', r <> $"s" ++ r') -> hl <> Some None).

Lemma redirect_check_iff hl hsl n act : redirect_check hl hsl (n, act) = Val tt <-> redirect_fine hl hsl act.
Proof.
  unfold redirect_check, redirect_fine. generalize (a_redirect_uri act) as u. intros u.
  destruct (starts_with $"https" u) eqn:S.
  - apply starts_with_iff in S as (r & ->). split.
    + intros H. split; [destruct hsl as [[|]|]; try discriminate H; intros; discriminate|].
      intros r' E NS. exfalso. change ($"https" ++ r) with ($"http" ++ $"s" ++ r) in E. apply app_inv_head in E. exact (NS r (eq_sym E)).
    + intros [H _]. specialize (H r eq_refl). destruct hsl as [[|]|]; congruence.
  - pose proof (starts_with_false _ _ S) as NS. destruct (starts_with $"http" u) eqn:S2.
    + apply starts_with_iff in S2 as (r & ->). split.
      * intros H. split; [intros r' E; destruct (NS r' E)|]. destruct hl as [[|]|]; try discriminate H; intros; discriminate.
      * intros [_ H]. specialize (H r eq_refl). destruct hl as [[|]|]; auto. destruct H; [|reflexivity].
        intros r' ->. apply (NS r'). reflexivity.
    + split; [|reflexivity]. intros _. split; [intros r E; destruct (NS r E)|].
      intros r E. destruct (starts_with_false _ _ S2 r E).
Qed.

Lemma redirect_checks_iff hl hsl l :
  redirect_checks hl hsl l = Val tt <-> forall n act, In (n, act) l -> redirect_fine hl hsl act.
Proof.
  induction l as [|[n act] l IH]; cbn [redirect_checks]; [split; [intros _ n act []|reflexivity]|].
  rewrite bind_iff. split.
  - intros ([] & E & R) n' act' [X|I]; [injection X as <- <-; eapply redirect_check_iff; eauto|].
    rewrite IH in R. eauto.
  - intros H. exists tt. split; [apply redirect_check_iff; eapply H; left; reflexivity|].
    apply IH. intros n' act' I. eapply H. right. exact I.
Qed.

Lemma default_none {A} (d : A) (o : option (option A)) : opt_default (Some d) o = None <-> o = Some None.
Proof. destruct o as [[|]|]; cbn; split; congruence. Qed.

Lemma tops_finish_iff h a c :
  tops_finish h a = Val c <->
  let accounts := hsort (fun p => h (fst p)) (t_accounts a) in
  ~ (t_http_listen a = Some None /\ t_https_listen a = Some None)
  /\ accounts <> []
  /\ redirect_checks (t_http_listen a) (t_https_listen a) accounts = Val tt
  /\ c = mkConfig accounts (t_auth_notify_cmd a)
                 (opt_default auth_notify_interval_default (t_auth_notify_interval a))
                 (t_error_notify_cmd a)
                 (opt_default (Some listen_default) (t_http_listen a))
                 (opt_default (Some listen_default) (t_https_listen a))
                 (t_transient_error_if_cmd a) (t_refresh_at_least a)
                 (t_refresh_before_expiry a) (t_refresh_retry a) (t_token_event_cmd a).
Proof.
  split; [apply tops_finish_inv|]. cbn zeta. unfold tops_finish.
  generalize (hsort (fun p => h (fst p)) (t_accounts a)) as acts. intros acts (N & NE & R & ->).
  rewrite R. destruct acts as [|x l]; [destruct (NE eq_refl)|].
  destruct (t_http_listen a) as [[|]|], (t_https_listen a) as [[|]|]; try reflexivity. destruct N. auto.
Qed.

Lemma block_valid_iff O n fs :
  is_qstring n -> Forall field_ok fs ->
  ((exists act, from_fields O (unescape_str n) fs = Val act)
   <-> exists name act, n = quote_string name /\ block_means O name fs act).
Proof.
  intros (v & ->) F. rewrite unescape_quote. split.
  - intros (act & E). exists v, act. split; [reflexivity|]. apply from_fields_iff; assumption.
  - intros (name & act & E & M). apply quote_inj in E. subst name. exists act. apply from_fields_iff; assumption.
Qed.

Lemma means_valid O ts c : Forall top_ok ts -> config_means O ts c -> Forall (tvalid O) ts.
Proof.
  intros F M. apply Forall_forall. intros t I. rewrite Forall_forall in F. pose proof (F t I) as FT.
  assert (forall f z, In f ts -> In z (option_names f) -> In z (option_names t) -> f = t) as ONE.
  { intros f z I' A B. exact (nodup_flat_map_inj _ _ _ _ _ (cm_once _ _ _ M) I' I A B). }
  destruct t as [n fs| |s|t|s|s| |s| |s|t|t|t|s]; cbn [tvalid]; auto.
  - destruct FT as [Q FF]. apply block_valid_iff; auto. exact (cm_blocks _ _ _ M n fs I).
  - exact (cm_no_old_name _ _ _ M I).
  - destruct (cm_auth_notify_interval _ _ _ M) as [(t' & I' & D)|[NO _]]; [|destruct NO; eauto].
    specialize (ONE _ _ I' (or_introl eq_refl) (or_introl eq_refl)). injection ONE as ->.
    eexists. apply time_value_iff; eassumption.
  - pose proof (cm_at_least _ _ _ M) as X. destruct (c_refresh_at_least c) as [d|]; [|destruct X; eauto].
    destruct X as (t' & I' & D). specialize (ONE _ _ I' (or_introl eq_refl) (or_introl eq_refl)). injection ONE as ->.
    exists d. apply time_value_iff; assumption.
  - pose proof (cm_before _ _ _ M) as X. destruct (c_refresh_before_expiry c) as [d|]; [|destruct X; eauto].
    destruct X as (t' & I' & D). specialize (ONE _ _ I' (or_introl eq_refl) (or_introl eq_refl)). injection ONE as ->.
    exists d. apply time_value_iff; assumption.
  - pose proof (cm_retry _ _ _ M) as X. destruct (c_refresh_retry c) as [d|]; [|destruct X; eauto].
    destruct X as (t' & I' & D). specialize (ONE _ _ I' (or_introl eq_refl) (or_introl eq_refl)). injection ONE as ->.
    exists d. apply time_value_iff; assumption.
Qed.

Lemma last_block_in name ts fs : last_block name ts fs -> In (TLAccount (quote_string name) fs) ts.
Proof. intros (b & a & -> & _). apply in_elt. Qed.

Lemma last_block_exists name ts fs : In (TLAccount (quote_string name) fs) ts -> exists fs', last_block name ts fs'.
Proof.
  induction ts as [|t ts IH] using rev_ind; [intros []|]. intros I. apply in_app_or in I as [I|[I|[]]].
  - destruct (IH I) as (fs' & L).
    assert ((exists f, t = TLAccount (quote_string name) f) \/ forall f, t <> TLAccount (quote_string name) f) as [(f & ->)|N].
    { destruct t as [n f| | | | | | | | | | | | |]; try (right; discriminate).
      destruct (str_eqb n (quote_string name)) eqn:E.
      - apply str_eqb_eq in E. subst n. left. eauto.
      - right. intros f' X. injection X as -> _. change ([dquote] ++ escape name ++ [dquote]) with (quote_string name) in E.
        rewrite (proj2 (str_eqb_eq _ _) eq_refl) in E. discriminate. }
    + exists f. apply last_block_snoc. auto.
    + exists fs'. apply last_block_snoc. auto.
  - exists fs. apply last_block_snoc. left. exact I.
Qed.

Lemma in_blocks O ts h name act :
  Forall (tvalid O) ts -> Forall top_ok ts ->
  (In (name, act) (hsort (fun p => h (fst p)) (blocks O ts)) <-> exists fs, last_block name ts fs /\ block_means O name fs act).
Proof.
  intros V F. rewrite hsort_in.
  assert (In (name, act) (blocks O ts) <-> lookup name (blocks O ts) = Some act) as ->.
  { split; [apply in_lookup, blocks_nodup|apply lookup_in]. }
  rewrite (lookup_blocks O ts name act V F). rewrite Forall_forall in F.
  split; intros (fs & L & E); exists fs; (split; [exact L|]);
    pose proof (F _ (last_block_in _ _ _ L)) as [_ FF]; apply (from_fields_iff O name fs act FF); exact E.
Qed.

Lemma hsort_nodup {A} (h : str * A -> N) m : NoDup (keys m) -> NoDup (map fst (hsort h m)).
Proof. intros N. eapply Permutation_NoDup; [|exact N]. symmetry. apply hsort_keys_perm. Qed.

(** C46, soundness *)
Lemma config_means_sound O h ts c :
  Forall top_ok ts -> config_of_toplevels O h ts = Val c -> config_means O ts c.
Proof.
  intros F E. apply bind_inv in E as (a & L & E). apply tops_loop_iff in L as (N & V & ->).
  apply tops_finish_iff in E. cbn zeta in E. destruct E as (NB & NE & R & ->).
  cbn [tfill t_accounts t_auth_notify_cmd t_auth_notify_interval t_error_notify_cmd t_http_listen t_https_listen
    t_transient_error_if_cmd t_refresh_at_least t_refresh_before_expiry t_refresh_retry t_token_event_cmd] in *.
  destruct (top_kinds O ts N V F) as (K1 & K2 & K3 & K4 & K5 & K6 & K7 & K8).
  pose proof (fun o => proj1 (http_listen_iff ts o N F)) as H1.
  pose proof (fun o => proj1 (https_listen_iff ts o N F)) as H2.
  pose proof (in_blocks O ts h) as IB.
  assert (forall n fs, In (TLAccount n fs) ts -> exists name act, n = quote_string name /\ block_means O name fs act) as BL.
  { intros n fs I. rewrite Forall_forall in V, F. destruct (F _ I) as [Q FF]. exact (proj1 (block_valid_iff O n fs Q FF) (V _ I)). }
  constructor; cbn [c_accounts c_auth_notify_cmd c_auth_notify_interval c_error_notify_cmd c_http_listen c_https_listen
    c_transient_error_if_cmd c_refresh_at_least c_refresh_before_expiry c_refresh_retry c_token_event_cmd].
  - intros I. rewrite Forall_forall in V. exact (V _ I).
  - exact N.
  - exact BL.
  - apply hsort_nodup, blocks_nodup.
  - intros name act. apply IB; assumption.
  - destruct (hsort (fun p => h (fst p)) (blocks O ts)) as [|[name act] l] eqn:E; [destruct (NE eq_refl)|].
    destruct (proj1 (IB name act V F) (or_introl eq_refl)) as (fs & L & _). apply last_block_in in L. eauto.
  - apply (optional_iff _ _ _ _ _ K1). reflexivity.
  - apply (default_iff _ _ _ _ _ _ K5). reflexivity.
  - apply (optional_iff _ _ _ _ _ K2). reflexivity.
  - apply H1. reflexivity.
  - apply H2. reflexivity.
  - rewrite !default_none. exact NB.
  - apply (optional_iff _ _ _ _ _ K3). reflexivity.
  - apply (optional_iff _ _ _ _ _ K6). reflexivity.
  - apply (optional_iff _ _ _ _ _ K7). reflexivity.
  - apply (optional_iff _ _ _ _ _ K8). reflexivity.
  - apply (optional_iff _ _ _ _ _ K4). reflexivity.
  - intros name act I. rewrite redirect_checks_iff in R. destruct (R name act I) as [A B]. split.
    + intros r X Y. apply default_none in Y. exact (A r X Y).
    + intros r X Z Y. apply default_none in Y. exact (B r X Z Y).
Qed.

Definition with_accounts (c : config) (l : list (str * account)) : config :=
  mkConfig l (c_auth_notify_cmd c) (c_auth_notify_interval c) (c_error_notify_cmd c) (c_http_listen c)
    (c_https_listen c) (c_transient_error_if_cmd c) (c_refresh_at_least c) (c_refresh_before_expiry c)
    (c_refresh_retry c) (c_token_event_cmd c).

(** C46, completeness: the meaning is what is loaded, up to the order of the
    accounts (a hash map in the code). *)
Lemma config_means_complete O h ts c :
  Forall top_ok ts -> config_means O ts c ->
  exists l, Permutation (c_accounts c) l /\ config_of_toplevels O h ts = Val (with_accounts c l).
Proof.
  intros F M. pose proof (means_valid O ts c F M) as V. pose proof (cm_once _ _ _ M) as N.
  set (l := hsort (fun p => h (fst p)) (blocks O ts)).
  assert (forall x, In x (c_accounts c) <-> In x l) as SAME.
  { intros [name act]. rewrite (cm_accounts _ _ _ M). unfold l. rewrite (in_blocks O ts h name act V F). reflexivity. }
  exists l. split.
  { apply NoDup_Permutation.
    - eapply NoDup_map_inv, (cm_unique _ _ _ M).
    - eapply NoDup_map_inv, hsort_nodup, blocks_nodup.
    - exact SAME. }
  unfold config_of_toplevels. apply bind_iff. exists (tfill O ts). split; [apply tops_loop_iff; auto|].
  apply tops_finish_iff. cbn zeta.
  cbn [tfill t_accounts t_auth_notify_cmd t_auth_notify_interval t_error_notify_cmd t_http_listen t_https_listen
    t_transient_error_if_cmd t_refresh_at_least t_refresh_before_expiry t_refresh_retry t_token_event_cmd].
  fold l.
  destruct (top_kinds O ts N V F) as (K1 & K2 & K3 & K4 & K5 & K6 & K7 & K8).
  destruct (http_listen_iff ts (c_http_listen c) N F) as [H1 _].
  destruct (https_listen_iff ts (c_https_listen c) N F) as [H2 _].
  destruct M as [M1 M2 M3 M4 M5 (n & fs & M6) M7 M8 M9 M10 M11 M12 M13 M14 M15 M16 M17 M18].
  apply H1 in M10. apply H2 in M11. unfold with_accounts.
  apply (optional_iff _ _ _ _ _ K1) in M7. apply (default_iff _ _ _ _ _ _ K5) in M8.
  apply (optional_iff _ _ _ _ _ K2) in M9. apply (optional_iff _ _ _ _ _ K3) in M13.
  apply (optional_iff _ _ _ _ _ K6) in M14. apply (optional_iff _ _ _ _ _ K7) in M15.
  apply (optional_iff _ _ _ _ _ K8) in M16. apply (optional_iff _ _ _ _ _ K4) in M17.
  split; [|split; [|split]].
  - rewrite <- M10, <- M11, !default_none in M12. exact M12.
  - rewrite Forall_forall in F. destruct (F _ M6) as [(v & ->) _].
    destruct (last_block_exists _ _ _ M6) as (fs' & L). pose proof (last_block_in _ _ _ L) as I.
    destruct (M3 _ _ I) as (name & act & E & B). apply quote_inj in E. subst name.
    assert (In (v, act) l) as IL by (apply SAME, M5; eauto). intros X. rewrite X in IL. destruct IL.
  - apply redirect_checks_iff. intros name act I. apply SAME in I. destruct (M18 name act I) as [A B].
    rewrite <- M11 in A. rewrite <- M10 in B. split.
    + intros r E X. apply (A r E). rewrite X. reflexivity.
    + intros r E X Y. apply (B r E X). rewrite Y. reflexivity.
  - rewrite M7, M9, M10, M11, M13, M14, M15, M16, M17.
    change auth_notify_interval_default with (15 * 60 * 10 ^ 9)%Z. rewrite M8. reflexivity.
Qed.
