(** Browser requests are parsed as SpecHttp.v says (C51). *)
From Verif Require Import Base BaseLemmas Utf8 Url UrlLemmas Oracles Http SpecHttp.

(** * White space *)

Lemma white_len c r : In c white_chars -> ws_len_rev (rev c ++ r) = List.length c.
Proof.
  intros I. unfold white_chars in I. cbn [map In] in I.
  repeat (destruct I as [<-|I]; [reflexivity|]). destruct I.
Qed.

Lemma byte_is a k : N_of_ascii a = k -> a = ascii_of_N k.
Proof. intros <-. symmetry. apply ascii_N_embedding. Qed.

Ltac pick := unfold white_chars; cbn [map In]; repeat (first [left; reflexivity|right]).

Lemma len_white r : ws_len_rev r <> 0 -> exists c r', r = rev c ++ r' /\ In c white_chars /\ List.length c = ws_len_rev r.
Proof.
  destruct r as [|a r1]; [cbn; congruence|]. cbn [ws_len_rev].
  destruct ((N_of_ascii a =? 32) || ((9 <=? N_of_ascii a) && (N_of_ascii a <=? 13)))%N eqn:E1.
  { intros _. exists [a], r1. split; [reflexivity|]. split; [|reflexivity].
    apply orb_true_iff in E1. rewrite andb_true_iff, N.eqb_eq, !N.leb_le in E1.
    assert (N_of_ascii a = 9 \/ N_of_ascii a = 10 \/ N_of_ascii a = 11 \/ N_of_ascii a = 12 \/ N_of_ascii a = 13
            \/ N_of_ascii a = 32)%N as C by lia.
    destruct C as [C|[C|[C|[C|[C|C]]]]]; apply byte_is in C; subst a; pick. }
  destruct r1 as [|b r2]; [congruence|].
  destruct ((N_of_ascii b =? 194) && ((N_of_ascii a =? 133) || (N_of_ascii a =? 160)))%N eqn:E2.
  { intros _. exists [b; a], r2. split; [reflexivity|]. split; [|reflexivity].
    rewrite andb_true_iff, orb_true_iff, !N.eqb_eq in E2. destruct E2 as [B [C|C]];
    apply byte_is in B, C; subst a b; pick. }
  destruct r2 as [|c r3]; [congruence|].
  match goal with |- (if ?x then _ else _) <> _ -> _ => destruct x eqn:E3; [|congruence] end.
  intros _. exists [c; b; a], r3. split; [reflexivity|]. split; [|reflexivity].
  rewrite !orb_true_iff, !andb_true_iff, !orb_true_iff, !andb_true_iff, !N.eqb_eq, !N.leb_le in E3.
  assert ((N_of_ascii c = 225 /\ N_of_ascii b = 154 /\ N_of_ascii a = 128)
    \/ (N_of_ascii c = 226 /\ N_of_ascii b = 129 /\ N_of_ascii a = 159)
    \/ (N_of_ascii c = 227 /\ N_of_ascii b = 128 /\ N_of_ascii a = 128)
    \/ (N_of_ascii c = 226 /\ N_of_ascii b = 128 /\
        (N_of_ascii a = 128 \/ N_of_ascii a = 129 \/ N_of_ascii a = 130 \/ N_of_ascii a = 131 \/ N_of_ascii a = 132
         \/ N_of_ascii a = 133 \/ N_of_ascii a = 134 \/ N_of_ascii a = 135 \/ N_of_ascii a = 136 \/ N_of_ascii a = 137
         \/ N_of_ascii a = 138 \/ N_of_ascii a = 168 \/ N_of_ascii a = 169 \/ N_of_ascii a = 175)))%N as C by lia.
  clear E1 E2 E3.
  destruct C as [(X & Y & Z)|[(X & Y & Z)|[(X & Y & Z)|(X & Y & C)]]];
    [apply byte_is in X, Y, Z; subst a b c; pick..|].
  apply byte_is in X, Y. subst b c.
  repeat (destruct C as [Z|C]; [apply byte_is in Z; subst a; pick|]). apply byte_is in C. subst a. pick.
Qed.

Lemma white_nonempty c : In c white_chars -> List.length c <> 0.
Proof. intros I. rewrite <- (white_len c [] I). unfold white_chars in I. cbn [map In] in I.
  repeat (destruct I as [<-|I]; [discriminate|]). destruct I. Qed.

Lemma trim_rev_app w : all_white w -> forall fuel r,
  List.length w + List.length r <= fuel -> trim_rev fuel (rev w ++ r) = trim_rev (List.length r) r
  \/ exists k, k >= List.length r /\ trim_rev fuel (rev w ++ r) = trim_rev k r.
Proof.
  induction 1 as [|w c W IH I]; intros fuel r L.
  - right. exists fuel. cbn in *. split; [lia|reflexivity].
  - rewrite rev_app_distr, <- app_assoc. pose proof (white_nonempty c I) as NE. rewrite app_length in L.
    destruct fuel as [|fuel]; [lia|]. cbn [trim_rev]. rewrite (white_len c (rev w ++ r) I).
    destruct (List.length c) as [|k] eqn:LC; [congruence|].
    rewrite <- LC, <- (rev_length c), skipn_app, skipn_all, Nat.sub_diag. cbn [app skipn].
    apply IH. lia.
Qed.

Lemma trim_rev_stop r : (forall t' c, In c white_chars -> rev r <> t' ++ c) -> forall fuel, trim_rev fuel r = r.
Proof.
  intros H [|fuel]; [reflexivity|]. cbn [trim_rev]. destruct (ws_len_rev r) as [|n] eqn:E; [reflexivity|].
  exfalso. destruct (len_white r ltac:(congruence)) as (c & r' & -> & I & _).
  apply (H (rev r') c I). rewrite rev_app_distr, rev_involutive. reflexivity.
Qed.

Lemma trim_end_trimmed s t : trimmed s t -> trim_end s = t.
Proof.
  intros (w & -> & W & H). unfold trim_end. rewrite rev_app_distr.
  assert (forall fuel, trim_rev fuel (rev t) = rev t) as ST.
  { apply trim_rev_stop. rewrite rev_involutive. exact H. }
  destruct (trim_rev_app w W (List.length (t ++ w)) (rev t)) as [E|(k & _ & E)].
  - rewrite app_length, rev_length. lia.
  - rewrite E, ST. apply rev_involutive.
  - rewrite E, ST. apply rev_involutive.
Qed.

Lemma all_white_app a b : all_white a -> all_white b -> all_white (a ++ b).
Proof.
  intros A B. induction B as [|w c W IH I]; [rewrite app_nil_r; exact A|].
  rewrite app_assoc. constructor; assumption.
Qed.

Lemma trim_rev_spec fuel : forall r, List.length r <= fuel ->
  exists w, r = rev w ++ trim_rev fuel r /\ all_white w /\ ws_len_rev (trim_rev fuel r) = 0.
Proof.
  induction fuel as [|fuel IH]; intros r L.
  - destruct r; [|cbn in L; lia]. exists []. split; [reflexivity|]. split; [constructor|reflexivity].
  - cbn [trim_rev]. destruct (ws_len_rev r) as [|n] eqn:E.
    + exists []. split; [reflexivity|]. split; [constructor|exact E].
    + destruct (len_white r ltac:(congruence)) as (c & r' & -> & I & LC). rewrite E in LC.
      rewrite <- LC, <- (rev_length c), skipn_app, skipn_all, Nat.sub_diag. cbn [app skipn].
      rewrite app_length, rev_length in L. destruct (IH r') as (w & ER & W & Z); [lia|].
      exists (w ++ c). split; [|split; [constructor; assumption|exact Z]].
      rewrite rev_app_distr, <- app_assoc. f_equal. exact ER.
Qed.

Lemma trimmed_trim_end s : trimmed s (trim_end s).
Proof.
  unfold trim_end. destruct (trim_rev_spec (List.length s) (rev s)) as (w & E & W & Z); [rewrite rev_length; lia|].
  exists w. split.
  - rewrite <- (rev_involutive s) at 1. rewrite E at 1. rewrite rev_app_distr, rev_involutive. reflexivity.
  - split; [exact W|]. intros t' c I X. apply (f_equal (@rev ascii)) in X. rewrite rev_involutive, rev_app_distr in X.
    rewrite X, (white_len c _ I) in Z. apply (white_nonempty c I Z).
Qed.

Lemma trimmed_iff s t : trimmed s t <-> trim_end s = t.
Proof. split; [apply trim_end_trimmed|]. intros <-. apply trimmed_trim_end. Qed.

Lemma blank_iff s : all_white s <-> trim_end s = [].
Proof.
  rewrite <- trimmed_iff. unfold trimmed. split.
  - intros W. exists s. split; [reflexivity|]. split; [exact W|]. intros t' c I X. symmetry in X.
    apply app_eq_nil in X as [_ ->]. exact (white_nonempty _ I eq_refl).
  - intros (w & -> & W & _). exact W.
Qed.

(** * Lines *)

Lemma read_raw_line_app s : let '(l, r) := read_raw_line s in s = l ++ r
  /\ ((exists l', l = l' ++ [nl] /\ ~ In nl l') \/ (~ In nl l /\ r = [])).
Proof.
  induction s as [|c s IH]; cbn [read_raw_line].
  - split; [reflexivity|]. right. split; [intros []|reflexivity].
  - destruct (Ascii.eqb_spec c nl) as [->|N].
    + split; [reflexivity|]. left. exists []. split; [reflexivity|intros []].
    + destruct (read_raw_line s) as [l r]. destruct IH as (-> & [(l' & -> & NI)|(NI & ->)]).
      * split; [reflexivity|]. left. exists (c :: l'). split; [reflexivity|]. intros [X|X]; [congruence|contradiction].
      * split; [reflexivity|]. right. split; [|reflexivity]. intros [X|X]; [congruence|contradiction].
Qed.

Lemma read_raw_line_is l rest : is_line l rest -> read_raw_line (l ++ rest) = (l, rest).
Proof.
  intros (_ & [(l' & -> & NI)|(NI & ->)]).
  - rewrite <- app_assoc. cbn [app]. induction l' as [|c l' IH]; cbn [read_raw_line app]; [rewrite Ascii.eqb_refl; reflexivity|].
    destruct (Ascii.eqb_spec c nl) as [->|N]; [destruct NI; left; reflexivity|].
    rewrite IH; [reflexivity|]. intros X. apply NI. right. exact X.
  - rewrite app_nil_r. induction l as [|c l IH]; cbn [read_raw_line]; [reflexivity|].
    destruct (Ascii.eqb_spec c nl) as [->|N]; [destruct NI; left; reflexivity|].
    rewrite IH; [reflexivity|]. intros X. apply NI. right. exact X.
Qed.

Lemma read_line_iff s l r : read_line s = Some (l, r) <-> s = l ++ r /\ is_line l r.
Proof.
  unfold read_line. split.
  - pose proof (read_raw_line_app s) as H. destruct (read_raw_line s) as [l0 r0]. destruct H as [-> H].
    destruct (utf8_valid l0) eqn:U; [|discriminate]. intros E. injection E as <- <-. split; [reflexivity|split; assumption].
  - intros (-> & H). rewrite (read_raw_line_is l r H). destruct H as [-> _]. reflexivity.
Qed.

(** * Header *)

Lemma is_sp_tab_iff c : is_sp_tab c = true <-> c = " "%char \/ c = tab.
Proof. unfold is_sp_tab. rewrite orb_true_iff, !Ascii.eqb_eq. reflexivity. Qed.

Lemma continues_iff c l : is_sp_tab c = true <-> continues (c :: l).
Proof.
  rewrite is_sp_tab_iff. unfold continues. split.
  - intros [-> | ->]; exists l; auto.
  - intros (r & [E|E]); injection E as -> _; auto.
Qed.

Lemma unfolded_app_inv ls l fs : unfolded (ls ++ [l]) fs ->
  exists t, trimmed l t /\
  ((~ continues l /\ exists fs0, unfolded ls fs0 /\ fs = fs0 ++ [t])
   \/ (continues l /\ exists fs0 f, unfolded ls (fs0 ++ [f]) /\ fs = fs0 ++ [f ++ t])).
Proof.
  intros U. remember (ls ++ [l]) as x eqn:EX. destruct U as [|ls0 fs0 l0 t U N T|ls0 fs0 f l0 t U C T].
  - destruct ls; discriminate.
  - apply app_inj_tail in EX as [-> ->]. exists t. split; [exact T|]. left. eauto.
  - apply app_inj_tail in EX as [-> ->]. exists t. split; [exact T|]. right. eauto 6.
Qed.


(** [read_headers] from a state where the lines [ls0] have been read. *)
Lemma read_headers_sound fuel : forall s size req ls0 fs,
  unfolded ls0 (rev req) -> 
  read_headers fuel s size req = Some fs ->
  exists ls, header s ls /\ unfolded (ls0 ++ ls) fs /\ (size + N.of_nat (total ls) < max_http_request_size)%N.
Proof.
  induction fuel as [|fuel IH]; intros s size req ls0 fs U E; [discriminate|]. cbn [read_headers] in E.
  destruct (N.leb_spec max_http_request_size size) as [L|L]; [discriminate|].
  destruct (read_line s) as [[l r]|] eqn:R; [|discriminate]. apply read_line_iff in R as (-> & IL).
  destruct (trim_end l) as [|t0 t1] eqn:T.
  - injection E as <-. exists []. split; [constructor; [exact IL|apply blank_iff, T]|]. rewrite app_nil_r.
    split; [exact U|]. unfold total. cbn. lia.
  - assert (~ all_white l) as NW by (intros W; apply blank_iff in W; congruence). rewrite <- T in E.
    destruct l as [|c l]; [discriminate T|].
    destruct (is_sp_tab c) eqn:SP.
    + destruct req as [|x req]; [discriminate|]. cbn [rev] in U.
      apply IH with (ls0 := ls0 ++ [c :: l]) in E.
      * destruct E as (ls & H & U' & S). exists ((c :: l) :: ls). split; [constructor; assumption|].
        split; [rewrite <- app_assoc in U'; exact U'|]. unfold total in *. cbn [List.concat]. rewrite app_length. lia.
      * cbn [rev]. apply uf_cont; [exact U|apply continues_iff, SP|apply trimmed_trim_end].
    + apply IH with (ls0 := ls0 ++ [c :: l]) in E.
      * destruct E as (ls & H & U' & S). exists ((c :: l) :: ls). split; [constructor; assumption|].
        split; [rewrite <- app_assoc in U'; exact U'|]. unfold total in *. cbn [List.concat]. rewrite app_length. lia.
      * cbn [rev]. apply uf_new; [exact U| |apply trimmed_trim_end]. rewrite <- continues_iff. congruence.
Qed.

Lemma unfolded_det ls : forall fs fs', unfolded ls fs -> unfolded ls fs' -> fs = fs'.
Proof.
  induction ls as [|l ls IH] using rev_ind; intros fs fs' U U'.
  - inversion U as [E1|ls0 ? ? ? ? ? ? E1|ls0 ? ? ? ? ? ? ? E1]; [|destruct ls0; discriminate..].
    inversion U' as [E2|ls0 ? ? ? ? ? ? E2|ls0 ? ? ? ? ? ? ? E2]; [reflexivity|destruct ls0; discriminate..].
  - apply unfolded_app_inv in U as (t & T & U). apply unfolded_app_inv in U' as (t' & T' & U').
    rewrite trimmed_iff in T, T'. subst t t'.
    destruct U as [(N & f1 & U & ->)|(C & f1 & g1 & U & ->)], U' as [(N' & f2 & U' & ->)|(C' & f2 & g2 & U' & ->)];
      try contradiction.
    + rewrite (IH _ _ U U'). reflexivity.
    + apply (IH _ _ U) in U'. apply app_inj_tail in U' as [-> ->]. reflexivity.
Qed.

Lemma unfolded_prefix ls ls' fs : unfolded (ls ++ ls') fs -> exists fs', unfolded ls fs'.
Proof.
  revert fs. induction ls' as [|l ls' IH] using rev_ind; intros fs U; [rewrite app_nil_r in U; eauto|].
  rewrite app_assoc in U. apply unfolded_app_inv in U as (t & _ & [(_ & f1 & U & _)|(_ & f1 & g1 & U & _)]); eauto.
Qed.

Lemma read_headers_complete s ls : header s ls -> forall fuel size req ls0 fs,
  List.length s < fuel ->
  unfolded ls0 (rev req) -> unfolded (ls0 ++ ls) fs ->
  (size + N.of_nat (total ls) < max_http_request_size)%N ->
  read_headers fuel s size req = Some fs.
Proof.
  induction 1 as [l r IL W|l r ls IL NW H IH]; intros fuel size req ls0 fs LF U UF S;
    (destruct fuel as [|fuel]; [lia|]); cbn [read_headers].
  - unfold total in S. cbn in S. destruct (N.leb_spec max_http_request_size size) as [L|L]; [lia|].
    assert (read_line (l ++ r) = Some (l, r)) as -> by (apply read_line_iff; auto).
    apply blank_iff in W. rewrite W. rewrite app_nil_r in UF. f_equal. eapply unfolded_det; eassumption.
  - unfold total in S. cbn [List.concat] in S. rewrite app_length in S.
    destruct (N.leb_spec max_http_request_size size) as [L|L]; [lia|].
    assert (read_line (l ++ r) = Some (l, r)) as -> by (apply read_line_iff; auto).
    destruct (trim_end l) as [|t0 t1] eqn:T; [destruct NW; apply blank_iff, T|]. rewrite <- T.
    destruct l as [|c l]; [discriminate T|]. rewrite app_length in LF. cbn [List.length] in LF, S.
    change (ls0 ++ (c :: l) :: ls) with (ls0 ++ [c :: l] ++ ls) in UF. rewrite app_assoc in UF.
    destruct (unfolded_prefix _ _ _ UF) as (fs' & U').
    destruct (is_sp_tab c) eqn:SP.
    + pose proof U' as U2. apply unfolded_app_inv in U2 as (t & TT & [(N & _)|(C & f1 & g1 & U2 & ->)]);
        [rewrite <- continues_iff in N; contradiction|].
      pose proof (unfolded_det _ _ _ U U2) as E. destruct req as [|x req]; [destruct f1; discriminate|].
      cbn [rev] in E. apply app_inj_tail in E as [E ->]. apply trimmed_iff in TT.
      apply IH with (ls0 := ls0 ++ [c :: l]).
      * lia.
      * cbn [rev]. rewrite E, TT. exact U'.
      * exact UF.
      * unfold total. cbn [List.length]. lia.
    + pose proof U' as U2. apply unfolded_app_inv in U2 as (t & TT & [(N & f1 & U2 & ->)|(C & _)]);
        [|rewrite <- continues_iff in C; congruence].
      pose proof (unfolded_det _ _ _ U U2) as E. apply trimmed_iff in TT.
      apply IH with (ls0 := ls0 ++ [c :: l]).
      * lia.
      * cbn [rev]. rewrite E, TT. exact U'.
      * exact UF.
      * unfold total. cbn [List.length]. lia.
Qed.

(** * Host *)

Lemma lower_is c l : In (ascii_lower c) [l] -> In l $"host" -> In c [l; ascii_of_N (N_of_ascii l - 32)].
Proof.
  assert (forallb (fun l => forallb (fun c => implb (Ascii.eqb (ascii_lower c) l)
    (Ascii.eqb c l || Ascii.eqb c (ascii_of_N (N_of_ascii l - 32)))) all_bytes) $"host" = true) as H by (vm_compute; reflexivity).
  intros [E|[]] I. rewrite forallb_forall in H. specialize (H l I). rewrite forallb_forall in H.
  specialize (H c (in_all_bytes c)). rewrite E, Ascii.eqb_refl in H. cbn [implb] in H.
  apply orb_true_iff in H as [H|H]; apply Ascii.eqb_eq in H; [left|right; left]; congruence.
Qed.

Lemma host_name name : eq_ignore_ascii_case name $"host" = true <->
  exists h o s t, name = [h; o; s; t] /\ In h $"hH" /\ In o $"oO" /\ In s $"sS" /\ In t $"tT".
Proof.
  unfold eq_ignore_ascii_case. rewrite str_eqb_eq. change (map ascii_lower $"host") with ($"host"). split.
  - destruct name as [|h [|o [|s [|t [|x name]]]]]; try discriminate. cbn [map]. intros E.
    change ($"host") with ["h"%char; "o"%char; "s"%char; "t"%char] in E. injection E as E1 E2 E3 E4.
    exists h, o, s, t. split; [reflexivity|].
    split; [apply (lower_is h "h"%char); [rewrite E1; left; reflexivity|vm_compute; auto 10]|].
    split; [apply (lower_is o "o"%char); [rewrite E2; left; reflexivity|vm_compute; auto 10]|].
    split; [apply (lower_is s "s"%char); [rewrite E3; left; reflexivity|vm_compute; auto 10]|].
    apply (lower_is t "t"%char); [rewrite E4; left; reflexivity|vm_compute; auto 10].
  - intros (h & o & s & t & -> & H & O & S & T).
    cbn in H, O, S, T. destruct H as [<-|[<-|[]]], O as [<-|[<-|[]]], S as [<-|[<-|[]]], T as [<-|[<-|[]]]; reflexivity.
Qed.

Lemma drop_while_iff s v : drop_while is_sp_tab s = v <->
  exists pad, s = pad ++ v /\ Forall (fun c => c = " "%char \/ c = tab) pad /\ ~ continues v.
Proof.
  split.
  - intros <-. induction s as [|c s IH]; cbn [drop_while].
    + exists []. split; [reflexivity|]. split; [constructor|]. intros (r & [E|E]); discriminate.
    + destruct (is_sp_tab c) eqn:E.
      * destruct IH as (pad & ES & F & N). exists (c :: pad). split; [cbn; f_equal; exact ES|]. split; [|exact N].
        constructor; [apply is_sp_tab_iff, E|exact F].
      * exists []. split; [reflexivity|]. split; [constructor|]. rewrite <- continues_iff. congruence.
  - intros (pad & -> & F & N). induction F as [|c pad H F IH]; cbn [app drop_while].
    + destruct v as [|c v]; [reflexivity|]. cbn [drop_while]. destruct (is_sp_tab c) eqn:E; [|reflexivity].
      destruct N. apply continues_iff, E.
    + apply is_sp_tab_iff in H. rewrite H. exact IH.
Qed.

Lemma host_field_iff f v : host_field f v <->
  exists name value, split_first ":"%char f = Some (name, value) /\ eq_ignore_ascii_case name $"host" = true
    /\ drop_while is_sp_tab value = v.
Proof.
  unfold host_field. split.
  - intros (h & o & s & t & pad & -> & H & O & S & T & F & N).
    exists [h; o; s; t], (pad ++ v). split; [|split].
    + apply split_first_app. cbn in H, O, S, T.
      destruct H as [<-|[<-|[]]], O as [<-|[<-|[]]], S as [<-|[<-|[]]], T as [<-|[<-|[]]];
        intros X; cbn in X; repeat (destruct X as [X|X]; [discriminate X|]); exact X.
    + apply host_name. exists h, o, s, t. auto.
    + apply drop_while_iff. eauto.
  - intros (name & value & SF & HN & D). apply split_first_some in SF as [-> _].
    apply host_name in HN as (h & o & s & t & -> & H & O & S & T). apply drop_while_iff in D as (pad & -> & F & N).
    exists h, o, s, t, pad. repeat (split; [first [reflexivity|assumption]|]). exact N.
Qed.

Lemma find_host_some fs v0 v : find_host (Some v0) fs = Some (Some v) <-> v = v0 /\ forall f v', In f fs -> ~ host_field f v'.
Proof.
  induction fs as [|f fs IH]; cbn [find_host].
  - split; [intros E; injection E as ->; split; [reflexivity|intros f v' []]|intros [-> _]; reflexivity].
  - destruct (split_first ":"%char f) as [[name value]|] eqn:SF.
    + destruct (eq_ignore_ascii_case name $"host") eqn:HN.
      * split; [discriminate|]. intros [_ H]. destruct (H f (drop_while is_sp_tab value) (or_introl eq_refl)).
        apply host_field_iff. eauto.
      * rewrite IH. split; intros [-> H]; (split; [reflexivity|]).
        -- intros f' v' [<-|I]; [|eauto]. intros HF. apply host_field_iff in HF as (n & x & E & HN' & _). congruence.
        -- intros f' v' I. apply H. right. exact I.
    + rewrite IH. split; intros [-> H]; (split; [reflexivity|]).
      * intros f' v' [<-|I]; [|eauto]. intros HF. apply host_field_iff in HF as (n & x & E & HN' & _). congruence.
      * intros f' v' I. apply H. right. exact I.
Qed.

Lemma find_host_none fs v : find_host None fs = Some (Some v) <-> only_host fs v.
Proof.
  induction fs as [|f fs IH]; cbn [find_host].
  - split; [discriminate|]. intros (b & f & a & E & _). destruct b; discriminate.
  - assert ((forall v', ~ host_field f v') -> (find_host None fs = Some (Some v) <-> only_host (f :: fs) v)) as SKIP.
    { intros NH. rewrite IH. split.
      - intros (b & g & a & -> & HG & NO). exists (f :: b), g, a. split; [reflexivity|]. split; [exact HG|].
        intros f' v' [<-|I]; [apply NH|apply NO, I].
      - intros ([|f0 b] & g & a & E & HG & NO).
        + injection E as <- <-. destruct (NH _ HG).
        + injection E as <- ->. exists b, g, a. split; [reflexivity|]. split; [exact HG|].
          intros f' v' I. apply NO. right. exact I. }
    destruct (split_first ":"%char f) as [[name value]|] eqn:SF.
    + destruct (eq_ignore_ascii_case name $"host") eqn:HN.
      * rewrite find_host_some.
        assert (host_field f (drop_while is_sp_tab value)) as HF by (apply host_field_iff; eauto). split.
        -- intros [-> H]. exists [], f, fs. split; [reflexivity|]. split; [exact HF|exact H].
        -- intros ([|f0 b] & g & a & E & HG & NO).
           ++ injection E as <- <-. split; [|exact NO]. apply host_field_iff in HG as (n & x & E & _ & <-). congruence.
           ++ injection E as <- _. destruct (NO f (drop_while is_sp_tab value) (or_introl eq_refl) HF).
      * apply SKIP. intros v' HF. apply host_field_iff in HF as (n & x & E & HN' & _). congruence.
    + apply SKIP. intros v' HF. apply host_field_iff in HF as (n & x & E & HN' & _). congruence.
Qed.

(** * The request *)

Lemma split_all_join c s l : split_all c s = l ->
  Forall (fun p => ~ In c p) l /\ match l with p :: ps => s = p ++ flat_map (fun q => c :: q) ps | [] => False end.
Proof.
  intros <-. induction s as [|x s IH]; cbn [split_all].
  - split; [repeat constructor; intros []|reflexivity].
  - destruct IH as [F J]. destruct (Ascii.eqb_spec x c) as [->|N].
    + split; [constructor; [intros []|exact F]|]. cbn [app]. destruct (split_all c s) as [|p ps]; [destruct J|].
      cbn [flat_map app]. rewrite <- J. reflexivity.
    + destruct (split_all c s) as [|p ps]; [destruct J|]. inversion F as [|? ? NP F']; subst.
      split; [constructor; [|exact F']|reflexivity]. intros [X|X]; [congruence|contradiction].
Qed.

Lemma split_three c s a p v : split_all c s = [a; p; v] <->
  s = a ++ [c] ++ p ++ [c] ++ v /\ ~ In c a /\ ~ In c p /\ ~ In c v.
Proof.
  split.
  - intros E. apply split_all_join in E as [F ->]. inversion F as [|? ? F1 F']; subst. inversion F' as [|? ? F2 F'']; subst.
    inversion F'' as [|? ? F3 _]; subst. cbn [flat_map]. rewrite app_nil_r. auto.
  - intros (-> & A & P & V). cbn [app]. rewrite split_all_app, split_all_app, !split_all_clean by assumption. reflexivity.
Qed.

(** C51 *)
Lemma parse_get_iff O https s u : parse_get O https s = Some u <-> get_request O https s u.
Proof.
  unfold parse_get, get_request. split.
  - destruct (read_line s) as [[l r]|] eqn:R; [|discriminate]. apply read_line_iff in R as (-> & IL).
    destruct (split_all " "%char l) as [|m [|path [|version [|]]]] eqn:SP; try discriminate.
    destruct (str_eqb m $"GET") eqn:M; [|discriminate]. apply str_eqb_eq in M. subst m.
    apply split_three in SP as (-> & _ & NP & NV).
    destruct (read_headers _ r _ []) as [fs|] eqn:RH; [|discriminate].
    destruct (find_host None fs) as [[h|]|] eqn:FH; try discriminate. intros P.
    destruct (read_headers_sound _ _ _ [] [] _ uf_nil RH) as (ls & H & U & S).
    exists path, version, r, ls, fs, h.
    cbn zeta. split; [reflexivity|]. split; [exact IL|]. split; [exact NP|]. split; [exact NV|]. split; [exact H|].
    split.
    { unfold total in *. cbn [List.concat]. rewrite app_length.
      change max_http_request_size with (N.of_nat max_size) in S.
      change ($"GET " ++ path ++ $" " ++ version) with ($"GET" ++ [" "%char] ++ path ++ [" "%char] ++ version). lia. }
    split; [exact U|]. split; [apply find_host_none, FH|]. destruct https; exact P.
  - intros (path & version & r & ls & fs & h & -> & IL & NP & NV & H & S & U & HO & P).
    assert (forall a, read_line (a ++ r) = Some (a, r) <-> is_line a r) as RL.
    { intros a. rewrite read_line_iff. tauto. }
    rewrite (proj2 (RL _) IL).
    assert (split_all " "%char ($"GET " ++ path ++ $" " ++ version) = [$"GET"; path; version]) as ->.
    { apply split_three. split; [reflexivity|]. split; [|auto]. intros X. cbn in X. repeat (destruct X as [X|X]; [discriminate X|]). exact X. }
    change (str_eqb $"GET" $"GET") with true. cbn match.
    rewrite (read_headers_complete r ls H _ _ [] [] fs).
    + apply find_host_none in HO. rewrite HO. destruct https; exact P.
    + rewrite app_length. lia.
    + exact uf_nil.
    + exact U.
    + unfold total in *. cbn [List.concat] in S. rewrite app_length in S.
      change max_http_request_size with (N.of_nat max_size). lia.
Qed.
