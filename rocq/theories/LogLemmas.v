(** The log. *)
From Verif Require Import Base BaseLemmas Time Utf8 Base64 Url Json Oracles Config Dump State Http Timers Server Startup Log
  SpecServer SpecUtf8 Utf8Spec SpecLog StateLemmas Steps Inv Reach Decide.
Local Open Scope list_scope.

(** * Bytes that are not UTF-8 *)

Lemma valid_fuel_upto n : forall s, List.length s <= n -> utf8_valid_fuel n s = false ->
  exists good bad, s = good ++ bad /\ List.length good = utf8_upto_fuel n s /\ is_text good /\ bad <> []
    /\ utf8_char_len bad = None.
Proof.
  induction n as [|n IH]; intros s L V.
  - destruct s; [discriminate V|cbn in L; lia].
  - cbn [utf8_valid_fuel utf8_upto_fuel] in *. destruct s as [|a s]; [discriminate V|].
    destruct (utf8_char_len (a :: s)) as [k|] eqn:E.
    + destruct (len_encoding _ _ E) as (c & r & SC & ES & LE). rewrite ES in V, L |- *.
      rewrite <- LE in *. rewrite skipn_app, skipn_all, Nat.sub_diag in *. cbn [app skipn] in *.
      destruct (IH r) as (good & bad & -> & LG & (cs & FS & ->) & NE & N).
      { rewrite app_length in L. pose proof (encoding_nonempty c) as X. destruct (encoding c); [contradiction|cbn in L; lia]. }
      { exact V. }
      exists (encoding c ++ text_of cs), bad. split; [rewrite app_assoc; reflexivity|].
      split; [rewrite app_length, LG; reflexivity|]. split; [|split; assumption].
      exists (c :: cs). split; [constructor; assumption|reflexivity].
    + exists [], (a :: s). split; [reflexivity|]. split; [reflexivity|]. split; [|split; [discriminate|exact E]].
      exists []. split; [constructor|reflexivity].
Qed.

Lemma begins_first a s : begins_char (a :: s) -> utf8_char_len (a :: s) = None -> between 194 244 a = true.
Proof.
  intros B N. apply begins_shape in B as (l & m & SH & E).
  destruct l as [|x l]; [discriminate E|]. cbn [map] in E. apply cons_eq in E as [E1 E2].
  apply between_iff. unfold byte. rewrite E1.
  assert (x < 256)%N as LT by (inversion SH; lia).
  rewrite N_ascii_embedding by exact LT.
  inversion SH as [y LY EY| | |]; try lia.
  exfalso. destruct l; [|discriminate]. cbn [map] in E2. rewrite E1, E2 in N.
  change [ascii_of_N x] with (map ascii_of_N [x] ++ []) in N.
  rewrite (shape_len [x] [] (sh1 x LY)) in N. discriminate N.
Qed.

Lemma lead_begins a : between 194 244 a = true -> begins_char [a].
Proof.
  intros B. apply between_iff in B. apply begins_shape.
  assert (a = ascii_of_N (byte a)) as A by (symmetry; apply chr_byte).
  destruct (N.lt_ge_cases (byte a) 224) as [L1|G1].
  { exists [byte a], [128%N]. split; [apply sh2; lia|]. cbn [map]. rewrite <- A. reflexivity. }
  destruct (N.lt_ge_cases (byte a) 240) as [L2|G2].
  { destruct (N.eq_dec (byte a) 224) as [E|NE].
    - exists [byte a], [160%N; 128%N]. split; [apply sh3; lia|]. cbn [map]. rewrite <- A. reflexivity.
    - exists [byte a], [128%N; 128%N]. split; [apply sh3; lia|]. cbn [map]. rewrite <- A. reflexivity. }
  destruct (N.eq_dec (byte a) 240) as [E|NE].
  - exists [byte a], [144%N; 128%N; 128%N]. split; [apply sh4; lia|]. cbn [map]. rewrite <- A. reflexivity.
  - exists [byte a], [128%N; 128%N; 128%N]. split; [apply sh4; lia|]. cbn [map]. rewrite <- A. reflexivity.
Qed.

Lemma no_char s : utf8_char_len s = None -> forall c r, scalar c -> s <> encoding c ++ r.
Proof. intros N c r SC ->. rewrite (encoding_len c r SC) in N. discriminate N. Qed.

Lemma utf8_error_says s : utf8_valid s = false -> not_text s (utf8_error s).
Proof.
  intros V. destruct (valid_fuel_upto _ s (le_n _) V) as (good & bad & -> & LG & TG & NE & N).
  unfold utf8_error. fold (utf8_upto (good ++ bad)) in LG. cbv zeta. rewrite <- LG.
  rewrite skipn_app, skipn_all, Nat.sub_diag. cbn [app skipn].
  destruct (bad_begins bad NE N) as (p & r & E & LP & NP & BP).
  destruct ((match bad with a :: _ => between 194 244 a | [] => false end) && Nat.eqb (utf8_bad_len bad) (List.length bad)) eqn:T.
  - apply andb_true_iff in T as [T1 T2]. apply Nat.eqb_eq in T2.
    apply nt_incomplete; [exact TG|exact NE|apply no_char; exact N|].
    assert (r = []) as ->.
    { rewrite <- LP, E, app_length in T2. destruct r; [reflexivity|cbn in T2; lia]. }
    rewrite app_nil_r in E. subst p. destruct BP as [L1|B]; [|exact B].
    destruct bad as [|a [|b t]]; [contradiction|apply lead_begins; exact T1|cbn in L1; lia].
  - rewrite E at 1. rewrite <- LP. apply nt_invalid; rewrite <- ?E; try assumption.
    + apply no_char. exact N.
    + intros B. destruct bad as [|a t]; [contradiction|].
      rewrite (begins_first a t B N) in T. cbn [andb] in T. apply Nat.eqb_neq in T.
      pose proof (bad_longest (a :: t) []) as BL. rewrite app_nil_r in BL. specialize (BL N B ltac:(discriminate)).
      assert (List.length (a :: t) = List.length p + List.length r) as LE by (rewrite <- app_length, <- E; reflexivity). lia.
    + intros q r' E' B. rewrite LP. subst bad. rewrite E' in N, NE |- *. exact (bad_longest q r' N B NE).
Qed.

(** * Requests *)

Lemma not_text_false s : ~ is_text s <-> utf8_valid s = false.
Proof. rewrite <- utf8_is_text. destruct (utf8_valid s); split; congruence. Qed.

Lemma from_utf8_no s m : from_utf8 s = Err m -> not_text s m.
Proof. unfold from_utf8. destruct (utf8_valid s) eqn:U; [discriminate|]. intros [= <-]. apply utf8_error_says. exact U. Qed.

Lemma unknown_iff cmd rest :
  unknown_command cmd rest = true <->
  ~ In cmd [$"refresh"; $"restore"; $"revoke"; $"showtoken"]
  /\ (rest <> [] \/ ~ In cmd [$"dump"; $"info"; $"reload"; $"shutdown"; $"status"]).
Proof.
  assert (forall l, ~ In cmd l <-> existsb (str_eqb cmd) l = false) as IN.
  { intros l. rewrite <- not_true_iff_false, existsb_exists. split.
    - intros H (x & I & E). apply H. destruct (str_eqb_spec cmd x) as [->|_]; [exact I|discriminate E].
    - intros H I. apply H. exists cmd. split; [exact I|apply str_eqb_refl]. }
  rewrite !IN. unfold unknown_command. cbn [existsb]. rewrite negb_true_iff, !orb_false_r.
  repeat rewrite ?orb_false_iff, ?andb_false_iff.
  destruct rest as [|c r].
  - split; intros H; [repeat split; try apply H; right; destruct H as [[[[[H|H] _] _] _] _]; [|discriminate H]; repeat split; apply H|].
    destruct H as [(A & B & C & D) [H|H]]; [contradiction|]. destruct H as (E1 & E2 & E3 & E4 & E5). repeat split; try assumption.
    left. repeat split; assumption.
  - split; intros H; [repeat split; try apply H; left; discriminate|].
    destruct H as [(A & B & C & D) _]. repeat split; try assumption. right. reflexivity.
Qed.

Definition str_dec : forall a b : str, {a = b} + {a <> b} := list_eq_dec ascii_dec.

Lemma unknown_dispatch O e w req cmd rest : unknown_command cmd rest = true ->
  dispatch O e w req cmd rest = Val (w_lk w, reply req ($"error:Unknown command '" ++ cmd ++ $"'"), []).
Proof.
  intros U. apply unknown_iff in U as [U1 U2]. unfold dispatch.
  assert (forall k, In k [$"dump"; $"info"; $"reload"; $"shutdown"; $"status"] ->
            str_eqb cmd k && (match rest with [] => true | _ => false end) = false) as E1.
  { intros k I. destruct (str_eqb_spec cmd k) as [->|_]; [|reflexivity].
    destruct U2 as [U2|U2]; [destruct rest; [contradiction|reflexivity]|contradiction]. }
  assert (forall k, In k [$"refresh"; $"restore"; $"revoke"; $"showtoken"] -> str_eqb cmd k = false) as E2.
  { intros k I. destruct (str_eqb_spec cmd k) as [->|_]; [contradiction|reflexivity]. }
  cbv zeta.
  rewrite (E1 $"dump"), (E1 $"info"), (E1 $"reload"), (E2 $"refresh"), (E2 $"restore"), (E2 $"revoke"), (E2 $"showtoken"),
    (E1 $"shutdown"), (E1 $"status") by (cbn [In]; tauto). reflexivity.
Qed.

Lemma malformed_log O w e req : ~ documented req ->
  exists m, complaint req m /\ client_log O e w req = [(LWarn, m)].
Proof.
  intros ND. unfold client_log, request. destruct (split_first ":"%char req) as [[cmd rest]|] eqn:SP.
  2: { apply split_first_none in SP. eexists. split; [|reflexivity].
       destruct (utf8_valid req) eqn:U; [apply cp_text; [exact SP|apply utf8_is_text; exact U]|].
       apply cp_bytes; [exact SP|]. apply not_text_false. exact U. }
  apply split_first_some in SP as [-> NC]. change ([":"%char] ++ rest) with ($":" ++ rest) in *.
  destruct (from_utf8 cmd) as [cmd'|m|] eqn:FU; cbn [bind].
  2: { exists m. split; [apply cp_command; [exact NC|apply from_utf8_no; exact FU]|reflexivity]. }
  2: { unfold from_utf8 in FU. destruct (utf8_valid cmd); discriminate FU. }
  assert (is_text cmd) as TX by (apply utf8_is_text; unfold from_utf8 in FU; destruct (utf8_valid cmd); [reflexivity|discriminate FU]).
  assert (cmd' = cmd) as -> by (unfold from_utf8 in FU; destruct (utf8_valid cmd); [injection FU as <-; reflexivity|discriminate FU]).
  clear FU. destruct (unknown_command cmd rest) eqn:U.
  - exists $"Invalid command". split.
    + apply unknown_iff in U as [U1 U2]. apply cp_unknown; assumption.
    + rewrite (unknown_dispatch O e w _ cmd rest U). reflexivity.
  - assert (In cmd [$"refresh"; $"restore"; $"revoke"; $"showtoken"]
            \/ rest = [] /\ In cmd [$"dump"; $"info"; $"reload"; $"shutdown"; $"status"]) as K.
    { destruct (in_dec str_dec cmd [$"refresh"; $"restore"; $"revoke"; $"showtoken"]) as [I|I]; [left; exact I|right].
      destruct (in_dec str_dec cmd [$"dump"; $"info"; $"reload"; $"shutdown"; $"status"]) as [J|J].
      - destruct rest as [|c r]; [split; [reflexivity|exact J]|]. exfalso.
        rewrite (proj2 (unknown_iff cmd (c :: r))) in U; [discriminate U|]. split; [exact I|left; discriminate].
      - exfalso. rewrite (proj2 (unknown_iff cmd rest)) in U; [discriminate U|]. split; [exact I|right; exact J]. }
    destruct K as [K|[-> K]].
    + destruct K as [<-|[<-|[<-|[<-|[]]]]].
      * exists (match from_utf8 rest with Err m => m | _ => $"Invalid command" end).
        assert (forall q, dispatch O e w q $"refresh" rest = req_refresh O e w q rest) as -> by reflexivity.
        unfold req_refresh. destruct (from_utf8 rest) as [rest'|m|] eqn:FU; cbn [bind].
        -- assert (utf8_valid rest = true /\ rest' = rest) as [UV ->].
           { unfold from_utf8 in FU. destruct (utf8_valid rest); [injection FU as <-; auto|discriminate FU]. }
           destruct (split_first " "%char rest) as [[wu n]|] eqn:S2.
           ++ exfalso. apply split_first_some in S2 as [-> NI]. apply ND. exact (doc_refresh wu n NI UV).
           ++ apply split_first_none in S2. split; [|reflexivity].
              apply (cp_one_word $"refresh" rest); [left; reflexivity|exact S2].
        -- split; [|reflexivity]. apply (cp_argument $"refresh" rest); [left; reflexivity|apply from_utf8_no; exact FU].
        -- unfold from_utf8 in FU. destruct (utf8_valid rest); discriminate FU.
      * exfalso. apply ND. exact (doc_restore rest).
      * exists (match from_utf8 rest with Err m => m | _ => [] end).
        assert (forall q, dispatch O e w q $"revoke" rest = req_revoke w q rest) as -> by reflexivity.
        unfold req_revoke. destruct (from_utf8 rest) as [rest'|m|] eqn:FU; cbn [bind].
        -- exfalso. apply ND. apply (doc_revoke rest). unfold from_utf8 in FU. destruct (utf8_valid rest); [reflexivity|discriminate FU].
        -- split; [|reflexivity]. apply (cp_argument $"revoke" rest); [right; left; reflexivity|apply from_utf8_no; exact FU].
        -- unfold from_utf8 in FU. destruct (utf8_valid rest); discriminate FU.
      * exists (match from_utf8 rest with Err m => m | _ => $"Invalid command" end).
        assert (forall q, dispatch O e w q $"showtoken" rest = req_showtoken O e w q rest) as -> by reflexivity.
        unfold req_showtoken. destruct (from_utf8 rest) as [rest'|m|] eqn:FU; cbn [bind].
        -- assert (utf8_valid rest = true /\ rest' = rest) as [UV ->].
           { unfold from_utf8 in FU. destruct (utf8_valid rest); [injection FU as <-; auto|discriminate FU]. }
           destruct (split_first " "%char rest) as [[wu n]|] eqn:S2.
           ++ exfalso. apply split_first_some in S2 as [-> NI]. apply ND. exact (doc_show wu n NI UV).
           ++ apply split_first_none in S2. split; [|reflexivity].
              apply (cp_one_word $"showtoken" rest); [right; left; reflexivity|exact S2].
        -- split; [|reflexivity]. apply (cp_argument $"showtoken" rest); [right; right; left; reflexivity|apply from_utf8_no; exact FU].
        -- unfold from_utf8 in FU. destruct (utf8_valid rest); discriminate FU.
    + exfalso. apply ND. destruct K as [<-|[<-|[<-|[<-|[<-|[]]]]]]; constructor.
Qed.

Lemma client_log_of O w e req x :
  nth_error (w_threads w) 0 = Some PMain -> e_client e = Some req ->
  log_of O w (LTick 0 e) x = client_log O e w req.
Proof. intros N EC. unfold log_of. rewrite N. cbn [thread_log]. rewrite EC. reflexivity. Qed.

Lemma documented_known req : documented req ->
  exists cmd rest, req = cmd ++ $":" ++ rest /\ ~ In ":"%char cmd /\ unknown_command cmd rest = false.
Proof.
  assert (forall cmd, existsb (Ascii.eqb ":"%char) cmd = false -> ~ In ":"%char cmd) as NI.
  { intros cmd E I. rewrite <- not_true_iff_false, existsb_exists in E. apply E. exists ":"%char.
    split; [exact I|apply Ascii.eqb_refl]. }
  intros [ | | | wu n _ _ | bytes | n _ | wu n _ _ | | ].
  - exists $"dump", []. repeat split; apply NI; reflexivity.
  - exists $"info", []. repeat split; apply NI; reflexivity.
  - exists $"reload", []. repeat split; apply NI; reflexivity.
  - exists $"refresh", (wu ++ $" " ++ n). repeat split; apply NI; reflexivity.
  - exists $"restore", bytes. repeat split; apply NI; reflexivity.
  - exists $"revoke", n. repeat split; apply NI; reflexivity.
  - exists $"showtoken", (wu ++ $" " ++ n). repeat split; apply NI; reflexivity.
  - exists $"shutdown", []. repeat split; apply NI; reflexivity.
  - exists $"status", []. repeat split; apply NI; reflexivity.
Qed.

Lemma known_log O w e req : documented req ->
  client_log O e w req = match request O e w req with Err m => [(LWarn, m)] | _ => [] end.
Proof.
  intros D. destruct (documented_known req D) as (cmd & rest & -> & NI & U). unfold client_log.
  rewrite (proj2 (split_first_some ":"%char (cmd ++ $":" ++ rest) cmd rest)) by (split; [reflexivity|exact NI]).
  rewrite U. reflexivity.
Qed.

Lemma token_url_err O w e e0 m :
  inv O w -> has (w_lk w) e0 -> is_active (d_ts e0) = false ->
  request_token O e (w_http w) (w_https w) (w_lk w) (d_id e0) = Err m ->
  exists act, configured w (d_name e0) act /\ forall cvr st u, ~ auth_url O (w_http w) (w_https w) act cvr st u.
Proof.
  intros I H A E. destruct (get_account O w I e0 H) as (act & AO & _ & CA). exists act. split; [exact AO|].
  intros cvr st u (ru & base & RU & BA & _). unfold request_token in E.
  assert (ct_tokenstate (w_lk w) (d_id e0) = Val (d_ts e0)) as CT.
  { unfold ct_tokenstate. rewrite (find_id_in _ _ (inv_wf _ _ I) H). reflexivity. }
  rewrite CT in E. cbn [bind] in E. destruct (d_ts e0) as [|c l s v|a] eqn:TS; [| |discriminate A].
  all: rewrite CA in E; cbn [bind] in E; rewrite RU in E; cbn [bind] in E; rewrite BA in E; cbn [ok_or bind] in E;
    unfold tokenstate_replace, unwrap in E; destruct (update_first _ _ _); discriminate E.
Qed.

Lemma enc_entries_err l m : enc_entries l = Err m ->
  m = $"SystemTime must be later than UNIX_EPOCH" /\ exists n ad tok ob ex rt, In (n, (ad, DActive tok ob ex rt)) l.
Proof.
  induction l as [|[n [ad ts]] l IH]; [discriminate|]. cbn [enc_entries].
  destruct (enc_tokenstate_dump ts) as [t|m'|] eqn:E; cbn [bind].
  - destruct (enc_entries l) as [r|m''|]; cbn [bind]; try discriminate.
    intros [= ->]. destruct (IH eq_refl) as (-> & n' & ad' & tok & ob & ex & rt & I). split; [reflexivity|].
    exists n', ad', tok, ob, ex, rt. right. exact I.
  - intros [= ->]. destruct ts as [|tok ob ex rt]; [discriminate E|]. split; [|exists n, ad, tok, ob, ex, rt; left; reflexivity].
    cbn [enc_tokenstate_dump] in E. unfold enc_time in E.
    destruct (ob <? 0)%Z; cbn [bind] in E; [injection E as <-; reflexivity|].
    destruct (ex <? 0)%Z; cbn [bind] in E; [injection E as <-; reflexivity|discriminate E].
  - discriminate.
Qed.

Lemma dump_entries_err c clk ds : forall i m, dump_entries c clk i ds <> Err m.
Proof.
  induction ds as [|e ds IH]; intros i m; [discriminate|]. cbn [dump_entries].
  destruct (lookup (d_name e) (c_accounts c)); cbn [unwrap bind]; [|discriminate].
  specialize (IH (S i)). destruct (dump_entries c clk (S i) ds) as [l|m'|]; cbn [bind]; try discriminate.
  exfalso. exact (IH m' eq_refl).
Qed.

Lemma dump_entries_active c clk ds : forall i l n ad tok ob ex rt,
  dump_entries c clk i ds = Val l -> In (n, (ad, DActive tok ob ex rt)) l ->
  exists e a, In e ds /\ d_name e = n /\ d_ts e = TSActive a.
Proof.
  induction ds as [|e ds IH]; intros i l n ad tok ob ex rt D I; cbn [dump_entries] in D.
  - injection D as <-. destruct I.
  - destruct (lookup (d_name e) (c_accounts c)) as [act|]; cbn [unwrap bind] in D; [|discriminate D].
    destruct (dump_entries c clk (S i) ds) as [l'|m'|] eqn:E; cbn [bind] in D; try discriminate D.
    injection D as <-. destruct I as [I|I].
    + destruct (d_ts e) as [|c' l'' s v|a] eqn:TS; cbn [tokenstate_dump_of] in I; try congruence.
      exists e, a. repeat split; [left; reflexivity| |exact TS]. congruence.
    + destruct (IH _ _ _ _ _ _ _ _ E I) as (e1 & a1 & I1 & N1 & T1). exists e1, a1. repeat split; [right|exact N1|exact T1]. exact I1.
Qed.

Lemma dump_err O w e m : request O e w $"dump:" = Err m -> no_answer O w e $"dump:" m.
Proof.
  assert (request O e w $"dump:" = (d <- auth_dump O (w_lk w) (e_clk e) (e_hash e) (e_nonce e) ;;
            Val (w_lk w, reply $"dump:" d, []))) as -> by reflexivity.
  unfold auth_dump, locked_dump.
  destruct (dump_entries (lconfig (w_lk w)) (e_clk e) 0 (details (w_lk w))) as [l|m'|] eqn:D; cbn [bind].
  2: { exfalso. exact (dump_entries_err _ _ _ _ _ D). } 2: discriminate.
  unfold serialize. cbn [d_accounts d_version].
  destruct (enc_entries _) as [es|m'|] eqn:E; cbn [bind].
  - destruct (o_encrypt O (e_nonce e) _) as [c|] eqn:OE; cbn [ok_or bind]; [discriminate|].
    intros [= <-]. exact (na_cipher O w e _ OE).
  - intros [= <-]. apply enc_entries_err in E as (-> & n & ad & tok & ob & ex & rt & I).
    apply hsort_in in I. destruct (dump_entries_active _ _ _ _ _ _ _ _ _ _ _ D I) as (e0 & a & I0 & N0 & T0).
    apply (na_clock O w e n a). exists e0. auto.
  - discriminate.
Qed.

Lemma request_err O w e req m :
  inv O w -> documented req -> request O e w req = Err m -> no_answer O w e req m.
Proof.
  intros I D E.
  assert (forall cmd wu e0, In cmd [$"refresh:"; $"showtoken:"] -> has (w_lk w) e0 -> is_active (d_ts e0) = false ->
            forall r, request_and_reply O e w r wu (d_name e0) (d_id e0) = Err m ->
            no_answer O w e (cmd ++ wu ++ $" " ++ d_name e0) m) as K.
  { intros cmd wu e0 IC H NA r RR. unfold request_and_reply in RR.
    destruct (request_token O e (w_http w) (w_https w) (w_lk w) (d_id e0)) as [[lk' u]|m'|] eqn:RT; cbn [bind] in RR;
      [discriminate RR| |discriminate RR].
    destruct (token_url_err O w e e0 m' I H NA RT) as (act & C & NU). exact (na_url O w e cmd wu (d_name e0) act m IC C NU). }
  destruct D as [ | | | wu n NI UV | bytes | n UV | wu n NI UV | | ].
  - exact (dump_err O w e m E).
  - discriminate E.
  - change (req_reload O e w $"reload:" = Err m) in E. unfold req_reload in E.
    destruct (config_from_path O e) as [c|m'|]; try discriminate E.
    destruct (update_conf_total (w_lk w) c (inv_wf _ _ I)) as [lk' U]. rewrite U in E. discriminate E.
  - rewrite request_refresh in E. unfold req_refresh, from_utf8 in E. rewrite UV in E. cbn [bind] in E.
    rewrite (proj2 (split_first_some " "%char (wu ++ $" " ++ n) wu n)) in E by (split; [reflexivity|exact NI]).
    destruct (validate_act_name (w_lk w) n) as [i|] eqn:V; [|discriminate E].
    apply validate_some in V as (e0 & H & <- & <-). rewrite (ct_tokenstate_in _ _ (inv_wf _ _ I) H) in E. cbn [bind] in E.
    apply (K $"refresh:" wu e0 ltac:(left; reflexivity) H) with (r := $"refresh:" ++ wu ++ $" " ++ d_name e0).
    + destruct (d_ts e0); [reflexivity|reflexivity|discriminate E].
    + destruct (d_ts e0); [exact E|exact E|discriminate E].
  - rewrite request_restore in E. unfold req_restore in E.
    destruct (auth_restore O (w_lk w) bytes (e_clk e) (e_hash e)); discriminate E.
  - rewrite request_revoke in E. unfold req_revoke, from_utf8 in E. rewrite UV in E. cbn [bind] in E.
    destruct (validate_act_name (w_lk w) n) as [i|] eqn:V; [|discriminate E].
    apply validate_some in V as (e0 & H & <- & <-). rewrite (tokenstate_replace_in _ _ _ (inv_wf _ _ I) H) in E. discriminate E.
  - rewrite request_show in E. unfold req_showtoken, from_utf8 in E. rewrite UV in E. cbn [bind] in E.
    rewrite (proj2 (split_first_some " "%char (wu ++ $" " ++ n) wu n)) in E by (split; [reflexivity|exact NI]).
    destruct (validate_act_name (w_lk w) n) as [i|] eqn:V; [|discriminate E].
    apply validate_some in V as (e0 & H & <- & <-). rewrite (ct_tokenstate_in _ _ (inv_wf _ _ I) H) in E. cbn [bind] in E.
    destruct (d_ts e0) as [|c l s u|a] eqn:T.
    + apply (K $"showtoken:" wu e0 ltac:(right; left; reflexivity) H) with (r := $"showtoken:" ++ wu ++ $" " ++ d_name e0).
      * rewrite T. reflexivity.
      * exact E.
    + discriminate E.
    + destruct (env_now e <? expiry a)%Z; [discriminate E|]. destruct (ongoing a); discriminate E.
  - discriminate E.
  - change (req_status O e w $"status:" = Err m) in E. unfold req_status in E.
    destruct (status_lines O (w_lk w) (e_clk e) 0 (act_ids (w_lk w))) as [l|m'|] eqn:SL; cbn [bind] in E; try discriminate E.
    exfalso. clear E I K. revert SL. generalize 0 at 1. induction (act_ids (w_lk w)) as [|i ids IH]; intros j SL; [discriminate SL|].
    cbn [status_lines] in SL. unfold ct_account, ct_tokenstate in SL.
    destruct (find_id i (details (w_lk w))) as [e0|]; cbn [unwrap bind] in SL; [|discriminate SL].
    destruct (lookup (d_name e0) _); cbn [unwrap bind] in SL; [|discriminate SL].
    destruct (status_text_spec O (e_clk e (3 * j)) (e_clk e (3 * j + 1)) (e_clk e (3 * j + 2)) (d_ts e0)) as [(t & ET & _)|[ET _]];
      rewrite ET in SL; cbn [bind] in SL; [|discriminate SL].
    specialize (IH (S j)). destruct (status_lines O (w_lk w) (e_clk e) (S j) ids) as [l|m''|]; cbn [bind] in SL; try discriminate SL.
    exact (IH SL).
Qed.

Lemma documented_log O w e req x :
  reachable O w -> w_alive w = true -> nth_error (w_threads w) 0 = Some PMain -> e_client e = Some req ->
  documented req ->
  log_of O w (LTick 0 e) x = []
  \/ exists m, log_of O w (LTick 0 e) x = [(LWarn, m)] /\ no_answer O w e req m
       /\ step O w (LTick 0 e) = SNext (emit w [OClient req]).
Proof.
  intros R A N EC D. rewrite (client_log_of O w e req x N EC), (known_log O w e req D).
  destruct (request O e w req) as [r|m|] eqn:E; [left; reflexivity| |left; reflexivity]. right. exists m.
  split; [reflexivity|]. split; [exact (request_err O w e req m (reach_inv O w R) D E)|]. eapply main_err; eassumption.
Qed.
