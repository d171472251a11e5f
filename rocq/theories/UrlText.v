(** The text of the URLs that are handed out (C49). *)
From Verif Require Import Base BaseLemmas Time Utf8 Base64 Url UrlLemmas Json Oracles ConfigLex ConfigParse Config ConfigLemmas Dump State Http Timers
  Server SpecConfig SpecServer SpecLinks LexLemmas Steps Inv Reach Own Trace Counters Links.

(** * Reading the text is unambiguous *)

Lemma split_unique bad a b r s :
  without bad a -> without bad b ->
  (r = [] \/ exists c t, r = c :: t /\ In c bad) -> (s = [] \/ exists c t, s = c :: t /\ In c bad) ->
  a ++ r = b ++ s -> a = b /\ r = s.
Proof.
  revert b. induction a as [|x a IH]; intros b A B R S E.
  - destruct b as [|y b]; [split; [reflexivity|exact E]|]. exfalso. simpl in E.
    destruct R as [->|(c & t & -> & I)]; [discriminate E|]. injection E as -> _. exact (B y (or_introl eq_refl) I).
  - destruct b as [|y b].
    + exfalso. simpl in E. destruct S as [->|(c & t & -> & I)]; [discriminate E|]. injection E as -> _.
      exact (A c (or_introl eq_refl) I).
    + simpl in E. injection E as -> E. destruct (IH b) as [-> ->]; try assumption.
      * intros c I. apply A. right. exact I.
      * intros c I. apply B. right. exact I.
      * split; reflexivity.
Qed.

Lemma marked mark part s : after_mark mark part s -> s = [] \/ exists t, s = mark :: t.
Proof. destruct part; simpl; intros ->; eauto. Qed.

Lemma rest_marked q f qt ft :
  after_mark "?"%char q qt -> after_mark "#"%char f ft ->
  qt ++ ft = [] \/ exists c t, qt ++ ft = c :: t /\ In c $"?#".
Proof.
  intros Q F. destruct (marked _ _ _ Q) as [->|(t & ->)].
  - destruct (marked _ _ _ F) as [->|(t & ->)]; [left; reflexivity|]. right. exists "#"%char, t.
    split; [reflexivity|]. right. left. reflexivity.
  - right. exists "?"%char, (t ++ ft). split; [reflexivity|]. left. reflexivity.
Qed.

Lemma url_text_unique s sch1 a1 p1 q1 f1 sch2 a2 p2 q2 f2 :
  url_text s sch1 a1 p1 q1 f1 -> url_text s sch2 a2 p2 q2 f2 ->
  sch1 = sch2 /\ a1 = a2 /\ p1 = p2 /\ q1 = q2 /\ f1 = f2.
Proof.
  intros (qt1 & ft1 & -> & Q1 & F1 & S1 & A1 & P1 & W1 & X1) (qt2 & ft2 & E & Q2 & F2 & S2 & A2 & P2 & W2 & X2).
  apply (split_unique $":/?#") in E as [-> E]; try assumption;
    try (right; do 2 eexists; split; [reflexivity|left; reflexivity]).
  injection E as E.
  assert (forall p qt ft q f, after_mark "?"%char q qt -> after_mark "#"%char f ft ->
            p = [] \/ (exists r, p = "/"%char :: r) ->
            p ++ qt ++ ft = [] \/ exists c t, p ++ qt ++ ft = c :: t /\ In c $"/?#") as RM.
  { intros p qt ft q f Q F [->|(r & ->)].
    - destruct (rest_marked _ _ _ _ Q F) as [H|(c & t & H & I)]; [left; exact H|]. right. exists c, t. split; [exact H|].
      right. exact I.
    - right. do 2 eexists. split; [reflexivity|]. left. reflexivity. }
  apply (split_unique $"/?#") in E as [-> E]; try assumption; try (eapply RM; eassumption).
  apply (split_unique $"?#") in E as [-> E]; try assumption; try (eapply rest_marked; eassumption).
  assert (forall x ft f, after_mark "#"%char f ft -> ft <> "?"%char :: x) as NQ.
  { intros x ft f F. destruct f; simpl in F; subst ft; discriminate. }
  assert (q1 = q2 /\ ft1 = ft2) as [-> ->].
  { destruct q1 as [x1|], q2 as [x2|]; simpl in Q1, Q2; subst qt1 qt2; cbn [app] in E.
    - injection E as E. apply (split_unique $"#") in E as [-> ->]; auto.
      + destruct (marked _ _ _ F1) as [->|(t & ->)]; [left; reflexivity|]. right. do 2 eexists. split; [reflexivity|left; reflexivity].
      + destruct (marked _ _ _ F2) as [->|(t & ->)]; [left; reflexivity|]. right. do 2 eexists. split; [reflexivity|left; reflexivity].
    - symmetry in E. exfalso. exact (NQ _ _ _ F2 E).
    - exfalso. exact (NQ _ _ _ F1 E).
    - split; [reflexivity|exact E]. }
  split; [reflexivity|]. split; [reflexivity|]. split; [reflexivity|]. split; [reflexivity|].
  destruct f1, f2; simpl in F1, F2; congruence.
Qed.

(** * What [url_to_str] writes *)

Definition not_of (bad : str) (c : ascii) : bool := negb (existsb (Ascii.eqb c) bad).

Lemma digit_plain c : is_digit c = true -> ~ In c $"/?#".
Proof. intros D [<-|[<-|[<-|[]]]]; discriminate D. Qed.

Lemma without_app bad a b : without bad a -> without bad b -> without bad (a ++ b).
Proof. intros A B c I. apply in_app_or in I as [I|I]; auto. Qed.

Lemma tidy_text u :
  tidy u -> u_scheme u = $"http" \/ u_scheme u = $"https" ->
  exists a, authority u a /\ url_text (url_to_str u) (u_scheme u) a (u_path u) (u_query u) (u_frag u).
Proof.
  intros (TU & TH & TP & TP' & TQ) S.
  set (port := match u_port u with Some p => $":" ++ dec_of_N p | None => [] end).
  exists (u_user u ++ (match u_host u with Some h => h | None => [] end) ++ port). split.
  - exists port. split; [reflexivity|]. unfold port. destruct (u_port u) as [n|]; [|reflexivity].
    exists (dec_of_N n). split; [reflexivity|]. split; [exact (proj1 (decimal_digits _ _ (dec_of_N_spec n)))|apply dec_of_N_spec].
  - exists (match u_query u with Some q => $"?" ++ q | None => [] end), (match u_frag u with Some f => $"#" ++ f | None => [] end).
    split; [unfold url_to_str; fold port; rewrite <- !app_assoc; reflexivity|].
    split; [destruct (u_query u); reflexivity|]. split; [destruct (u_frag u); reflexivity|].
    split. { intros c I. assert (forallb (not_of $":/?#") (u_scheme u) = true) as F by (destruct S as [->| ->]; reflexivity).
             rewrite forallb_forall in F. intros J. specialize (F _ I). unfold not_of in F.
             apply negb_true_iff in F. assert (existsb (Ascii.eqb c) $":/?#" = true) by (apply existsb_exists; exists c; split; [exact J|apply Ascii.eqb_refl]).
             congruence. }
    split.
    { apply without_app; [exact TU|]. apply without_app.
      - destruct (u_host u) as [h|]; [exact (TH h eq_refl)|intros c []].
      - unfold port. destruct (u_port u) as [n|]; [|intros c []].
        destruct (decimal_digits _ _ (dec_of_N_spec n)) as [_ D]. rewrite Forall_forall in D.
        intros c [<-|I]; [intros [X|[X|[X|[]]]]; discriminate X|]. apply digit_plain, D, I. }
    split; [right; exact TP|]. split; [exact TP'|exact TQ].
Qed.

Lemma tidy_extend u ps : tidy u -> tidy (extend_pairs u ps).
Proof.
  intros (TU & TH & TP & TP' & TQ). unfold extend_pairs, tidy. cbn [u_user u_host u_path u_query].
  split; [exact TU|]. split; [exact TH|]. split; [exact TP|]. split; [exact TP'|].
  intros x [= <-].
  assert (without $"#" (match u_query u with Some q => q | None => [] end)) as W.
  { destruct (u_query u) as [q|]; [exact (TQ q eq_refl)|intros c []]. }
  revert W. generalize (match u_query u with Some q => q | None => [] end).
  induction ps as [|p ps IH]; intros q W; [exact W|]. cbn [append_pairs]. apply IH.
  apply without_app; [exact W|]. apply without_app.
  - destruct q; [intros c []|]. intros c [<-|[]] [X|[]]. discriminate X.
  - unfold form_pair. apply without_app.
    + intros c I [<-|[]]. destruct (form_encode_clean _ _ I) as (_ & _ & X). congruence.
    + intros c [<-|I] [X|[]]; [discriminate X|]. subst c. destruct (form_encode_clean _ _ I) as (_ & _ & X). congruence.
Qed.

Lemma tidy_set_port u p u' : tidy u -> set_port u p = Some u' -> tidy u' /\ u_scheme u' = u_scheme u.
Proof.
  intros T E. destruct (set_port_written _ _ _ E) as (S & U & H & _ & P & Q & _). unfold tidy in *.
  rewrite U, H, P, Q. auto.
Qed.

Lemma redirect_tidy O act hp hsp r :
  url_parts O -> url_laws O -> account_ok O act -> account_redirect_uri O act hp hsp = Val r ->
  tidy r /\ (u_scheme r = $"http" \/ u_scheme r = $"https").
Proof.
  intros UP UL AO. unfold account_redirect_uri. destruct (negb _); [discriminate|]. intros E.
  destruct (o_url_parse O (a_redirect_uri act)) as [conf|] eqn:P; [|discriminate]. cbn [ok_or bind] in E.
  assert (u_scheme conf = $"http" \/ u_scheme conf = $"https") as S.
  { destruct (ao_redirect _ _ AO) as [(v & V & S)|D].
    - rewrite V in P. injection P as <-. exact S.
    - rewrite D in P. destruct (ul_default _ UL) as (v & V & S & _). unfold default_redirect_uri in P.
      rewrite V in P. injection P as <-. left. exact S. }
  pose proof (UP _ _ P S) as T.
  match type of E with (if ?b then _ else _) = _ => destruct b end.
  - destruct (set_port conf hsp) as [x|] eqn:SP; [|discriminate]. injection E as <-.
    destruct (tidy_set_port _ _ _ T SP) as [T' S']. rewrite S'. auto.
  - destruct (set_port conf hp) as [x|] eqn:SP; [|discriminate]. injection E as <-.
    destruct (tidy_set_port _ _ _ T SP) as [T' S']. rewrite S'. auto.
Qed.

(** * Every URL handed out *)

Lemma configs_ok O w : reachable O w -> forall c, In (OConfig c) (w_trace w) -> conf_ok O c.
Proof.
  revert w. apply (reach_ind O (fun w => forall c, In (OConfig c) (w_trace w) -> conf_ok O c)).
  - intros e c hp hsp pk E _ c' [H|[]]. injection H as <-. exact (config_from_path_ok _ _ _ E).
  - intros w l w' R I I' A IH S T c H.
    destruct T as [tid e p lk' p' os N C|tid e p w' N SY|https bytes P].
    + cbn [after_cs w_trace] in H. apply in_app_or in H as [H|H]; [exact (IH c H)|].
      destruct (csr_config _ _ _ _ _ _ _ C) as [[_ NO]|(req & c' & _ & -> & _ & _ & OK & _)].
      * specialize (NO _ H). discriminate NO.
      * destruct H as [H|[H|[]]]; [discriminate H|]. injection H as <-. exact OK.
    + destruct SY; try (apply (IH c); exact H).
      rewrite do_action_trace in H. apply in_app_or in H as [H|H]; [exact (IH c H)|].
      pose proof (reach_no_config_chain _ _ R) as F. rewrite Forall_forall in F.
      specialize (F _ (nth_error_In _ _ N) a (or_introl eq_refl)).
      destruct a; simpl in H; try contradiction; destruct H as [H|[]]; try discriminate H. subst o. discriminate F.
    + simpl in H. apply in_app_or in H as [H|[H|[]]]; [exact (IH c H)|discriminate H].
Qed.

Lemma lookup_ok O c n act : conf_ok O c -> lookup n (c_accounts c) = Some act -> account_ok O act.
Proof.
  intros CO L. pose proof (co_accounts _ _ CO) as F. rewrite Forall_forall in F.
  apply lookup_in in L. exact (F _ L).
Qed.

Lemma issued_text O w n u :
  url_parts O -> reachable O w -> In (OAuthUrl n u) (w_trace w) ->
  exists a, authority u a /\ url_text (url_to_str u) (u_scheme u) a (u_path u) (u_query u) (u_frag u).
Proof.
  intros UP R H. apply in_split in H as (t1 & t2 & H).
  destruct (reach_issued O w R t1 _ t2 H) as (t0 & req & wu & c & act & bs & bv & -> & _ & C & L & (ru & base & _ & P & ->)).
  assert (account_ok O act) as AO.
  { eapply lookup_ok; [|exact L]. apply (configs_ok O w R). apply config_at_in in C. rewrite H.
    rewrite <- app_assoc. apply in_or_app. left. exact C. }
  destruct (ao_auth _ _ AO) as (v & V & S). rewrite V in P. injection P as <-.
  apply tidy_text; [|exact S]. apply tidy_extend. exact (UP _ _ V S).
Qed.

Lemma redirect_text O w n act r :
  url_parts O -> url_laws O -> reachable O w -> configured w n act ->
  account_redirect_uri O act (w_http w) (w_https w) = Val r ->
  exists a, authority r a /\ url_text (url_to_str r) (u_scheme r) a (u_path r) (u_query r) (u_frag r).
Proof.
  intros UP UL R C E. assert (account_ok O act) as AO.
  { eapply lookup_ok; [|exact C]. apply (configs_ok O w R). apply config_at_in. exact (reach_config_at _ _ R). }
  destruct (redirect_tidy O act _ _ r UP UL AO E) as [T S]. exact (tidy_text r T S).
Qed.
