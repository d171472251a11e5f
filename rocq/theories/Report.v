(** A rejected configuration file is reported at the token and with the reason
    SpecReport.v gives. *)
From Verif Require Import Base BaseLemmas Time Url Oracles ConfigLex ConfigParse Config Located SpecConfig SpecGrammar SpecLex
  SpecBlocks SpecReport LexLemmas Lexing ConfigParseProofs ConfigLemmas Blocks Tops Reads Places Locate Faults.

(** * Items *)

Lemma time_fine_iff t : time_lexeme t -> ((exists d, time_str_to_duration t = Val d) <-> ~ too_long t).
Proof.
  intros T. destruct (duration_cases t T) as [(d & E & N)|(r & E & N)]; rewrite E; split; try tauto; eauto.
  intros (d & F). discriminate.
Qed.

Lemma top_fine_iff O before t : top_ok t ->
  (top_fine O before t
   <-> tvalid O t /\ forall x, In x (option_names t) -> ~ In x (flat_map option_names before)).
Proof.
  intros K. unfold top_fine. split.
  - intros (NR & NI & TF & BF). split; [|exact NI]. destruct t; cbn [tvalid top_ok top_time] in *; try exact Logic.I.
    + apply (block_fine_iff O); [tauto|]. apply (BF _ _ eq_refl).
    + congruence.
    + apply time_fine_iff; auto.
    + apply time_fine_iff; auto.
    + apply time_fine_iff; auto.
    + apply time_fine_iff; auto.
  - intros (V & NI). split; [|split; [exact NI|split]].
    + intros ->. exact V.
    + intros s E. destruct t; try discriminate E; injection E as <-; apply time_fine_iff; assumption.
    + intros n fs ->. cbn [tvalid top_ok] in *. apply (block_fine_iff O (unescape_str n)); tauto.
Qed.

Lemma tops_fine_snoc O ts t : tops_fine O (ts ++ [t]) <-> tops_fine O ts /\ top_fine O ts t.
Proof.
  split.
  - intros F. split; [|apply (F ts t []); reflexivity]. intros b x a ->. apply (F b x (a ++ [t])).
    rewrite <- app_assoc. reflexivity.
  - intros (F & X) b y a E. apply snoc_split in E as [(-> & -> & ->)|(a' & -> & ->)]; [exact X|].
    apply (F b y a'). reflexivity.
Qed.

Lemma tops_fine_iff O ts : Forall top_ok ts ->
  (tops_fine O ts <-> NoDup (flat_map option_names ts) /\ Forall (tvalid O) ts).
Proof.
  induction ts as [|t ts IH] using rev_ind; intros K.
  - split; [intros _; split; constructor|]. intros _ b x a E. destruct b; discriminate.
  - apply Forall_app in K as [K K1]. inversion K1 as [|? ? KT _]; subst.
    rewrite tops_fine_snoc, (IH K), (top_fine_iff O ts t KT), nodup_names, Forall_app. split.
    + intros ((N & V) & VT & NI). auto.
    + intros ((N & NI) & V & VT). inversion VT; subst. auto.
Qed.

(** What is wrong with an item, those before it being fine: where and why. *)
Inductive top_fault (O : oracles) (before : list toplevel) (t : located) : span -> str -> Prop :=
| lf_renamed : lt_top t = TLAuthErrorCmd ->
    top_fault O before t (whole_span (lt_lexemes t)) $"'auth_error_cmd' has been renamed to 'error_notify_cmd'"
| lf_repeated n : lt_top t <> TLAuthErrorCmd ->
    In n (option_names (lt_top t)) -> In n (flat_map option_names before) ->
    top_fault O before t (symbol_span 2 (lt_lexemes t)) (repeated n)
| lf_field n fs ps1 p ps2 m : lt_top t = TLAccount n fs -> lt_fields t = ps1 ++ p :: ps2 ->
    fields_fine O (map fst ps1) -> field_fault O (map fst ps1) (fst p) m ->
    top_fault O before t (field_span p) m
| lf_block n fs m : lt_top t = TLAccount n fs -> fields_fine O fs -> block_fault fs m ->
    top_fault O before t (whole_span (lt_lexemes t)) m.

Inductive top_late (O : oracles) (before : list toplevel) (t : located) : Prop :=
| ll_option s : (forall n, In n (option_names (lt_top t)) -> ~ In n (flat_map option_names before)) ->
    top_time (lt_top t) = Some s -> too_long s -> top_late O before t
| ll_field n fs ps1 p ps2 s : lt_top t = TLAccount n fs -> lt_fields t = ps1 ++ p :: ps2 ->
    fields_fine O (map fst ps1) -> ~ In (field_name (fst p)) (map field_name (map fst ps1)) ->
    time_of (fst p) = Some s -> too_long s -> top_late O before t.

Definition top_wrong (O : oracles) (s : str) (before : list toplevel) (t : located) (m : str) : Prop :=
  (exists sp m0, top_fault O before t sp m0 /\ m = error_at_span s sp m0)
  \/ (top_late O before t /\ exists r, m = $"Invalid time: " ++ r).

Lemma str_top_err {T B} O s before t n lexeme (g : option T) (k : str -> B) m :
  lt_top t <> TLAuthErrorCmd -> In n (option_names (lt_top t)) -> (g = None <-> ~ In n (flat_map option_names before)) ->
  (x <- at_span s (symbol_span 2 (lt_lexemes t)) (check_not_assigned_str n lexeme g) ;; Val (k x)) = Err m ->
  top_wrong O s before t m.
Proof.
  intros NR FN K E. apply bind_err in E as [E|(x & _ & E)]; [|discriminate]. apply at_span_err in E as (m0 & E & ->).
  left. exists (symbol_span 2 (lt_lexemes t)), m0. split; [|reflexivity].
  destruct (slot_cases _ _ _ K) as [(N & _)|((w & N) & I)]; rewrite N in E; [discriminate|].
  injection E as <-. apply lf_repeated; assumption.
Qed.

Lemma none_top_err {T B} O s before t n (g : option T) (k : B) m :
  lt_top t <> TLAuthErrorCmd -> In n (option_names (lt_top t)) -> (g = None <-> ~ In n (flat_map option_names before)) ->
  (_ <- at_span s (symbol_span 2 (lt_lexemes t)) (check_not_assigned n g) ;; Val k) = Err m ->
  top_wrong O s before t m.
Proof.
  intros NR FN K E. apply bind_err in E as [E|(x & _ & E)]; [|discriminate]. apply at_span_err in E as (m0 & E & ->).
  left. exists (symbol_span 2 (lt_lexemes t)), m0. split; [|reflexivity].
  destruct (slot_cases _ _ _ K) as [(N & _)|((w & N) & I)]; rewrite N in E; [discriminate|].
  injection E as <-. apply lf_repeated; assumption.
Qed.

Lemma time_top_err {T B} O s before t n x (g : option T) (k : Z -> B) m :
  lt_top t <> TLAuthErrorCmd -> option_names (lt_top t) = [n] -> (g = None <-> ~ In n (flat_map option_names before)) ->
  top_time (lt_top t) = Some x -> time_lexeme x ->
  (y <- at_span s (symbol_span 2 (lt_lexemes t)) (check_not_assigned_time n x g) ;;
   d <- time_str_to_duration y ;; Val (k d)) = Err m ->
  top_wrong O s before t m.
Proof.
  intros NR FN K TF TL E. apply bind_err in E as [E|(y & E1 & E)].
  - apply at_span_err in E as (m0 & E & ->). left. exists (symbol_span 2 (lt_lexemes t)), m0. split; [|reflexivity].
    destruct (slot_cases _ _ _ K) as [(N & _)|((w & N) & I)]; rewrite N in E; [discriminate|].
    injection E as <-. apply lf_repeated; [exact NR|rewrite FN; left; reflexivity|exact I].
  - right. apply at_span_val in E1. destruct (slot_cases _ _ _ K) as [(N & NI)|((w & N) & I)]; rewrite N in E1; [|discriminate].
    injection E1 as <-. apply bind_err in E as [E|(d & _ & E)]; [|discriminate].
    destruct (duration_cases x TL) as [(d & X & _)|(r & X & L)]; rewrite X in E; [discriminate|]. injection E as <-.
    split; [|exists r; reflexivity]. apply (ll_option O before t x); [|exact TF|exact L]. rewrite FN. intros z [<-|[]]. exact NI.
Qed.

Lemma block_top_err O s before t n fs m :
  covers t -> lt_top t = TLAccount n fs -> Forall field_ok fs ->
  l_from_fields O s (unescape_str n) (whole_span (lt_lexemes t)) (lt_fields t) = Err m ->
  top_wrong O s before t m.
Proof.
  intros C T K E. destruct (cv_block _ C _ _ T) as (MF & _). rewrite <- MF in K.
  unfold l_from_fields in E. pose proof (l_fields_outcome O s (lt_fields t) K) as LO.
  destruct (l_fields_loop O s facc0 (lt_fields t)) as [a|m0|]; cbn [bind] in E; [| |discriminate].
  - destruct LO as (F & ->). apply at_span_err in E as (m0 & E & ->). left. exists (whole_span (lt_lexemes t)), m0.
    split; [|reflexivity]. pose proof (proj1 (fields_fine_iff O _ K) F) as (N & V).
    pose proof (block_outcome O (unescape_str n) _ N V K) as B. rewrite E in B. rewrite MF in *.
    eapply lf_block; eassumption.
  - injection E as ->. destruct LO as (ps1 & p & ps2 & EP & F & [(m0 & FF & ->)|(NI & x & r & TF & L & ->)]).
    + left. exists (field_span p), m0. split; [|reflexivity]. eapply lf_field; eassumption.
    + right. split; [|exists r; reflexivity]. eapply ll_field; eassumption.
Qed.

Lemma l_top_outcome O s before t :
  Forall (tvalid O) before -> top_ok (lt_top t) -> covers t ->
  match l_top_step O s (tfill O before) t with
  | Val a => top_fine O before (lt_top t) /\ a = tfill O (before ++ [lt_top t])
  | Err m => top_wrong O s before t m
  | Panic => False
  end.
Proof.
  intros F K C. pose proof (top_step_same O s (tfill O before) t C) as S.
  destruct (l_top_step O s (tfill O before) t) as [a|m|] eqn:E.
  - destruct (top_step O (tfill O before) (lt_top t)) as [a0|m|] eqn:E0; cbn in S; try tauto. subst a0.
    apply top_step_iff in E0 as (V & NI & ->); [|exact F]. split; [apply top_fine_iff; auto|reflexivity].
  - clear S. unfold l_top_step, tfill in E.
    pose proof (tslot_free O o_anc $"auth_notify_cmd" before ltac:(tslot) F) as K1.
    pose proof (tslot_free O o_ani $"auth_notify_interval" before ltac:(tslot) F) as K2.
    pose proof (tslot_free O o_enc $"error_notify_cmd" before ltac:(tslot) F) as K3.
    pose proof (tslot_free O o_http $"http_listen" before ltac:(tslot) F) as K4.
    pose proof (tslot_free O o_https $"https_listen" before ltac:(tslot) F) as K5.
    pose proof (tslot_free O o_tei $"transient_error_if_cmd" before ltac:(tslot) F) as K6.
    pose proof (tslot_free O o_ral $"refresh_at_least" before ltac:(tslot) F) as K7.
    pose proof (tslot_free O o_rbe $"refresh_before_expiry" before ltac:(tslot) F) as K8.
    pose proof (tslot_free O o_rr $"refresh_retry" before ltac:(tslot) F) as K9.
    pose proof (tslot_free O o_tec $"token_event_cmd" before ltac:(tslot) F) as K10.
    unfold top_span in E.
    destruct (lt_top t) eqn:T; cbn [top_ok] in K;
      try (eapply str_top_err; [rewrite T; discriminate|rewrite T; left; reflexivity| |exact E]; assumption);
      try (eapply none_top_err; [rewrite T; discriminate|rewrite T; left; reflexivity| |exact E]; assumption);
      try (eapply time_top_err; [rewrite T; discriminate|rewrite T; reflexivity| |rewrite T; reflexivity|exact K|exact E]; assumption).
    + apply bind_err in E as [E|(x & _ & E)]; [|discriminate]. eapply block_top_err; [exact C|exact T|tauto|exact E].
    + cbn [at_span] in E. injection E as <-. left. eexists _, _. split; [|reflexivity]. apply lf_renamed. exact T.
  - destruct (top_step O (tfill O before) (lt_top t)) as [a0|m|] eqn:E0; cbn in S; try tauto.
    exact (top_step_no_panic O (tfill O before) (lt_top t) K E0).
Qed.

(** An item that is wrong for one reason is not fine and not wrong for
    another. *)
Lemma no_old_name O ts : tops_fine O ts -> ~ In $"auth_error_cmd" (flat_map option_names ts).
Proof.
  intros F I. apply in_flat_map in I as (t & I & IN). apply in_split in I as (b & a & ->).
  destruct (F b t a eq_refl) as (NR & _). apply NR. clear -IN. destruct t; try reflexivity; exfalso; cbn [option_names] in IN;
    [destruct IN|..]; destruct IN as [X|[]]; discriminate X.
Qed.

Lemma first_wrong_unique {A} (P : list A -> Prop) (Q : list A -> A -> Prop) l1 x l2 l1' x' l2' :
  (forall b y a, P (b ++ y :: a) -> ~ Q b y) -> P l1 -> P l1' -> Q l1 x -> Q l1' x' ->
  l1 ++ x :: l2 = l1' ++ x' :: l2' -> l1 = l1' /\ x = x'.
Proof.
  intros H P1 P1' Q1 Q1' E.
  assert (List.length l1 = List.length l1') as L.
  { destruct (Nat.lt_trichotomy (List.length l1) (List.length l1')) as [L|[L|L]]; [exfalso|exact L|exfalso].
    - assert (exists a, l1' = l1 ++ x :: a) as (a & ->); [|exact (H _ _ _ P1' Q1)].
      clear -E L. revert l1' E L. induction l1 as [|y l1 IH]; intros [|z l1'] E L; cbn in L; try lia.
      + injection E as -> E. eexists. reflexivity.
      + injection E as -> E. destruct (IH l1' E ltac:(lia)) as (a & ->). exists a. reflexivity.
    - assert (exists a, l1 = l1' ++ x' :: a) as (a & ->); [|exact (H _ _ _ P1 Q1')].
      clear -E L. revert l1 E L. induction l1' as [|y l1' IH]; intros [|z l1] E L; cbn in L; try lia.
      + injection E as -> E. eexists. reflexivity.
      + injection E as -> E. destruct (IH l1 E ltac:(lia)) as (a & ->). exists a. reflexivity. }
  revert l1' L E P1 P1' Q1 Q1'. clear -l1. revert l1. 
  assert (forall l1 l1' : list A, List.length l1 = List.length l1' -> l1 ++ x :: l2 = l1' ++ x' :: l2' -> l1 = l1' /\ x = x') as G.
  { induction l1 as [|y l1 IH]; intros [|z l1'] L E; try discriminate.
    - injection E as -> _. auto.
    - injection E as -> E. destruct (IH l1' ltac:(cbn in L; lia) E) as [-> ->]. auto. }
  intros l1 l1' L E _ _ _ _. apply G; assumption.
Qed.

Lemma fault_not_fine O before t sp m :
  covers t -> tops_fine O before -> top_fault O before t sp m -> ~ top_fine O before (lt_top t).
Proof.
  intros C FB X (NR & NI & TF & BF). destruct X as [T|n _ I IB|n fs ps1 p ps2 m T EP F FF|n fs m T F B].
  - contradiction.
  - exact (NI _ I IB).
  - destruct (BF _ _ T) as (FA & _). apply (field_fault_not_fine _ _ _ _ FF). apply (FA _ _ (map fst ps2)).
    destruct (cv_block _ C _ _ T) as (<- & _). rewrite EP, map_app. reflexivity.
  - destruct (BF _ _ T) as (_ & NB). eauto.
Qed.

Lemma late_not_fine O before t : covers t -> top_late O before t -> ~ top_fine O before (lt_top t).
Proof.
  intros C X (NR & NI & TF & BF). destruct X as [x NX TT L|n fs ps1 p ps2 x T EP F NX TT L].
  - exact (TF _ TT L).
  - destruct (BF _ _ T) as (FA & _). destruct (FA (map fst ps1) (fst p) (map fst ps2)) as (_ & _ & H).
    + destruct (cv_block _ C _ _ T) as (<- & _). rewrite EP, map_app. reflexivity.
    + exact (H _ TT L).
Qed.

Definition field_bad (O : oracles) (b : list (field * list lexeme)) (p : field * list lexeme) : Prop :=
  ~ field_fine O (map fst b) (fst p).

Lemma first_field_unique O (ps1 ps2 ps1' ps2' : list (field * list lexeme)) p p' :
  fields_fine O (map fst ps1) -> fields_fine O (map fst ps1') ->
  ~ field_fine O (map fst ps1) (fst p) -> ~ field_fine O (map fst ps1') (fst p') ->
  ps1 ++ p :: ps2 = ps1' ++ p' :: ps2' -> ps1 = ps1' /\ p = p'.
Proof.
  intros F F' B B' E.
  apply (first_wrong_unique (fun l => fields_fine O (map fst l)) (field_bad O) ps1 p ps2 ps1' p' ps2'); auto.
  intros b y a FF NB. apply NB. apply (FF _ _ (map fst a)). rewrite map_app. reflexivity.
Qed.

Lemma late_field_bad O fs f x : time_of f = Some x -> too_long x -> ~ field_fine O fs f.
Proof. intros T L (_ & _ & H). exact (H _ T L). Qed.

Lemma block_not_bad O t n fs ps1 p ps2 :
  covers t -> lt_top t = TLAccount n fs -> lt_fields t = ps1 ++ p :: ps2 -> fields_fine O fs ->
  field_fine O (map fst ps1) (fst p).
Proof.
  intros C T EP F. destruct (cv_block _ C _ _ T) as (<- & _). apply (F _ _ (map fst ps2)). rewrite EP, map_app. reflexivity.
Qed.

Lemma top_fault_unique O before t sp m sp' m' :
  covers t -> tops_fine O before -> top_fault O before t sp m -> top_fault O before t sp' m' -> sp = sp' /\ m = m'.
Proof.
  intros C FB X Y.
  destruct X as [T|n NR I IB|n fs ps1 p ps2 m T EP F FF|n fs m T F B];
    destruct Y as [T'|n' NR' I' IB'|n' fs' ps1' p' ps2' m' T' EP' F' FF'|n' fs' m' T' F' B'];
    try contradiction; try (rewrite T in T'; discriminate T'); try (rewrite T in I'; destruct I'); try (rewrite T' in I; destruct I).
  - auto.
  - split; [reflexivity|]. destruct (option_names_short (lt_top t)) as [E|(x & E)]; rewrite E in I, I'; [destruct I|].
    destruct I as [<-|[]], I' as [<-|[]]. reflexivity.
  - rewrite EP in EP'. destruct (first_field_unique O _ _ _ _ _ _ F F' (field_fault_not_fine _ _ _ _ FF) (field_fault_not_fine _ _ _ _ FF') EP')
      as [<- <-]. split; [reflexivity|]. exact (field_fault_unique _ _ _ _ _ FF FF').
  - destruct (field_fault_not_fine _ _ _ _ FF (block_not_bad _ _ _ _ _ _ _ C T' EP F')).
  - destruct (field_fault_not_fine _ _ _ _ FF' (block_not_bad _ _ _ _ _ _ _ C T EP' F)).
  - rewrite T in T'. injection T' as <- <-. split; [reflexivity|]. exact (block_fault_unique _ _ _ B B').
Qed.

Lemma fault_or_late O before t sp m :
  covers t -> tops_fine O before -> top_fault O before t sp m -> top_late O before t -> False.
Proof.
  intros C FB X Y.
  destruct X as [T|n NR I IB|n fs ps1 p ps2 m T EP F FF|n fs m T F B];
    destruct Y as [x NX TT L|n' fs' ps1' p' ps2' x T' EP' F' NX TT L];
    try (rewrite T in TT; discriminate TT); try (rewrite T in T'; discriminate T').
  - exact (NX _ I IB).
  - rewrite T' in I. destruct I.
  - rewrite EP in EP'. destruct (first_field_unique O _ _ _ _ _ _ F F' (field_fault_not_fine _ _ _ _ FF) (late_field_bad _ _ _ _ TT L) EP')
      as [<- <-]. exact (NX (field_fault_in_time _ _ _ _ _ FF TT)).
  - exact (late_field_bad _ _ _ _ TT L (block_not_bad _ _ _ _ _ _ _ C T EP' F)).
Qed.

(** * The whole list of items *)

Lemma l_tops_loop_app O s a ts ts' :
  l_tops_loop O s a (ts ++ ts') = (a' <- l_tops_loop O s a ts ;; l_tops_loop O s a' ts').
Proof.
  revert a. induction ts as [|t ts IH]; intros a; [reflexivity|]. cbn [app l_tops_loop].
  destruct (l_top_step O s a t) as [a'|m|]; cbn [bind]; [apply IH|reflexivity|reflexivity].
Qed.

Lemma l_tops_fine O s ts :
  Forall top_ok (map lt_top ts) -> Forall covers ts -> tops_fine O (map lt_top ts) ->
  l_tops_loop O s tacc0 ts = Val (tfill O (map lt_top ts)).
Proof.
  intros K C F. apply (tops_fine_iff O _ K) in F as (N & V). pose proof (tops_loop_same O s ts tacc0 C) as S.
  rewrite (proj2 (tops_loop_iff O (map lt_top ts) _) (conj N (conj V eq_refl))) in S.
  destruct (l_tops_loop O s tacc0 ts); cbn in S; try tauto. congruence.
Qed.

Lemma l_tops_outcome O s ts :
  Forall top_ok (map lt_top ts) -> Forall covers ts ->
  match l_tops_loop O s tacc0 ts with
  | Val a => tops_fine O (map lt_top ts) /\ a = tfill O (map lt_top ts)
  | Err m => exists ts1 t ts2, ts = ts1 ++ t :: ts2 /\ tops_fine O (map lt_top ts1) /\ top_wrong O s (map lt_top ts1) t m
  | Panic => False
  end.
Proof.
  induction ts as [|t ts IH] using rev_ind; intros K C.
  - cbn. split; [|reflexivity]. intros b f a E. destruct b; discriminate.
  - rewrite map_app in *. apply Forall_app in K as [K KT]. apply Forall_app in C as [C CT]. specialize (IH K C).
    rewrite l_tops_loop_app. destruct (l_tops_loop O s tacc0 ts) as [a|m|]; cbn [bind].
    + destruct IH as (F & ->). pose proof (proj1 (tops_fine_iff O _ K) F) as (_ & V).
      inversion KT as [|? ? KF _]; subst. inversion CT as [|? ? CF _]; subst.
      pose proof (l_top_outcome O s (map lt_top ts) t V KF CF) as TO. cbn [l_tops_loop].
      destruct (l_top_step O s (tfill O (map lt_top ts)) t) as [a|m|]; cbn [bind] in *.
      * destruct TO as (FF & ->). cbn [map]. split; [|reflexivity]. apply tops_fine_snoc. auto.
      * exists ts, t, []. auto.
      * exact TO.
    + destruct IH as (ts1 & q & ts2 & -> & F & W). exists ts1, q, (ts2 ++ [t]). rewrite <- app_assoc. auto.
    + exact IH.
Qed.

Lemma l_tops_fault O s ts1 t ts2 sp m :
  Forall top_ok (map lt_top (ts1 ++ t :: ts2)) -> Forall covers (ts1 ++ t :: ts2) -> tops_fine O (map lt_top ts1) ->
  top_fault O (map lt_top ts1) t sp m -> l_tops_loop O s tacc0 (ts1 ++ t :: ts2) = Err (error_at_span s sp m).
Proof.
  intros K C F X. rewrite map_app in K. apply Forall_app in K as [K KT]. apply Forall_app in C as [C CT].
  inversion KT as [|? ? KF _]; subst. inversion CT as [|? ? CF _]; subst.
  rewrite l_tops_loop_app, (l_tops_fine O s ts1 K C F). cbn [bind l_tops_loop].
  pose proof (proj1 (tops_fine_iff O _ K) F) as (_ & V). pose proof (l_top_outcome O s (map lt_top ts1) t V KF CF) as TO.
  destruct (l_top_step O s (tfill O (map lt_top ts1)) t) as [a|m0|]; cbn [bind] in *.
  - destruct TO as (FF & _). destruct (fault_not_fine _ _ _ _ _ CF F X FF).
  - destruct TO as [(sp' & m' & Y & ->)|(Y & _)].
    + destruct (top_fault_unique _ _ _ _ _ _ _ CF F X Y) as [-> ->]. reflexivity.
    + destruct (fault_or_late _ _ _ _ _ CF F X Y).
  - destruct TO.
Qed.

Lemma l_tops_late O s ts1 t ts2 :
  Forall top_ok (map lt_top (ts1 ++ t :: ts2)) -> Forall covers (ts1 ++ t :: ts2) -> tops_fine O (map lt_top ts1) ->
  top_late O (map lt_top ts1) t -> exists r, l_tops_loop O s tacc0 (ts1 ++ t :: ts2) = Err ($"Invalid time: " ++ r).
Proof.
  intros K C F X. rewrite map_app in K. apply Forall_app in K as [K KT]. apply Forall_app in C as [C CT].
  inversion KT as [|? ? KF _]; subst. inversion CT as [|? ? CF _]; subst.
  rewrite l_tops_loop_app, (l_tops_fine O s ts1 K C F). cbn [bind l_tops_loop].
  pose proof (proj1 (tops_fine_iff O _ K) F) as (_ & V). pose proof (l_top_outcome O s (map lt_top ts1) t V KF CF) as TO.
  destruct (l_top_step O s (tfill O (map lt_top ts1)) t) as [a|m0|]; cbn [bind] in *.
  - destruct TO as (FF & _). destruct (late_not_fine _ _ _ CF X FF).
  - destruct TO as [(sp' & m' & Y & ->)|(Y & r & ->)].
    + destruct (fault_or_late _ _ _ _ _ CF F Y X).
    + exists r. reflexivity.
  - destruct TO.
Qed.
