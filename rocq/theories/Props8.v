(** C61: everything the server keeps and says is text; what follows for dumps and
    the client. *)
From Verif Require Import Base BaseLemmas Time Utf8 Base64 Url Json Oracles Config Dump State Http Timers Server
  Client SpecServer SpecDump SpecRestore Reach DumpLemmas SpecUtf8 Utf8Spec SpecText TextConfig Texts Scenario Runs Cases Props4.

(** * C61 *)

Theorem C61_configuration_is_text O e :
  match config_from_path O e with
  | Val c => utf8_config c
  | Err m => utf8 m
  | Panic => True
  end.
Proof. exact (config_path_text O e). Qed.
Print Assumptions C61_configuration_is_text.

Theorem C61_state_is_text O w :
  text_laws O -> reachable O w -> utf8_posts (w_trace w) -> utf8_state (w_lk w).
Proof. exact (fun TL R PO => tx_state w (reach_txt O w TL R PO)). Qed.
Print Assumptions C61_state_is_text.

Theorem C61_output_is_text O w :
  text_laws O -> reachable O w -> utf8_posts (w_trace w) ->
  Forall utf8_shown (w_trace w).
Proof. exact (fun TL R PO => tx_trace w (reach_txt O w TL R PO)). Qed.
Print Assumptions C61_output_is_text.

(** The client can read every reply. *)
Theorem C61_replies_are_readable O w c s :
  text_laws O -> reachable O w -> utf8_posts (w_trace w) ->
  In (OReply (client_request c) s) (w_trace w) -> c <> CDump -> utf8_valid s = true.
Proof. exact (reply_read O w c s). Qed.
Print Assumptions C61_replies_are_readable.

(** What is called text is the encoding of one sequence of scalar values. *)
Theorem C61_text_is_utf8 s :
  (utf8 s <-> is_text s)
  /\ forall cs ds, Forall scalar cs -> Forall scalar ds -> text_of cs = text_of ds -> cs = ds.
Proof. exact (conj (utf8_is_text s) (fun cs ds F G => text_of_inj cs F ds G)). Qed.
Print Assumptions C61_text_is_utf8.

(** What is made of bytes that need not be text: each stretch that is not text
    becomes U+FFFD. *)
Theorem C61_repair s :
  (exists cs, repaired s cs /\ Forall scalar cs /\ utf8_lossy s = text_of cs)
  /\ forall cs, repaired s cs -> utf8_lossy s = text_of cs.
Proof. exact (conj (lossy_repairs s) (repaired_lossy s)). Qed.
Print Assumptions C61_repair.

(** Text is left as it is. *)
Theorem C61_repair_text s : is_text s -> utf8_lossy s = s.
Proof. exact (lossy_text_id s). Qed.
Print Assumptions C61_repair_text.

(** "e", half a euro sign, "!", a whole euro sign. *)
Example C61_repair_case :
  utf8_lossy (map ascii_of_N [101; 226; 130; 33; 226; 130; 172]%N) = text_of [101; 65533; 33; 8364]%N
  /\ is_text (text_of [101; 65533; 33; 8364]%N).
Proof.
  split; [vm_compute; reflexivity|]. exists [101; 65533; 33; 8364]%N. split; [|reflexivity].
  repeat constructor; try (vm_compute; reflexivity); intros [A B]; vm_compute in A, B; congruence.
Qed.

Lemma toy_text_laws : text_laws toy.
Proof.
  constructor.
  - intros s u. simpl. unfold toy_url. destruct (toy_url_parse s) as [v|]; [|discriminate].
    destruct (forallb (between 0 127) (url_to_str v)) eqn:E; [intros [= <-]; exact E|discriminate].
  - intros body v s U J I. simpl in J. unfold toy_json in J. destruct body as [|c t]; [discriminate|].
    assert (forall P : ascii, Ascii.eqb c P = true -> between 0 127 P = true -> utf8 t) as K.
    { intros P E A. apply Ascii.eqb_eq in E. subst c. exact (proj2 (Utf8Lemmas.utf8_cut [] P t U A)). }
    assert (forall m, (forall k x, In (k, x) m -> utf8 k /\ match x with JStr y => utf8 y | JNum _ | JNull => True | _ => False end) ->
              string_in s (JObj m) -> utf8 s) as O.
    { intros m H X. inversion X as [| |k x m' IN E1 E2|s' k x m' IN SI E1 E2]; subst.
      - apply (H _ _ IN).
      - destruct (H _ _ IN) as [_ H2]. destruct x; try contradiction; inversion SI; subst; exact H2. }
    cbv zeta in J.
    repeat match type of J with
      | (if Ascii.eqb c ?p then _ else _) = _ =>
          let H := fresh "Q" in
          destruct (Ascii.eqb c p) eqn:H;
          [injection J as <-; specialize (K p H eq_refl); eapply O; [|exact I]; intros k x IN; simpl in IN;
           repeat (destruct IN as [IN|IN]; [injection IN as <- <-; split; [reflexivity|first [exact K|exact Logic.I|reflexivity]]|]);
           destruct IN|]
      end.
    discriminate J.
  - intros body m U J. simpl in J. unfold toy_json in J. cbv zeta in J. destruct body as [|c t]; [injection J as <-; reflexivity|].
    repeat match type of J with (if ?x then _ else _) = _ => destruct x; [discriminate J|] end. injection J as <-. reflexivity.
  - intros t s E. simpl in E. unfold toy_date in E.
    destruct ((-62167219200 * nanos <=? t) && (t <? 253402300800 * nanos))%Z; [injection E as <-; reflexivity|discriminate E].
Qed.

(** An account has been authorised and its token shown. *)
Definition w_said : world := after w_auth (many 2 0 (client (client_request (CShow false $"a")) (tick (sec 1010)))).

Example C61_case :
  text_laws toy /\ reachable toy w_said /\ utf8_posts (w_trace w_said)
  /\ has_token w_said $"a"
  /\ In (OReply (client_request (CShow false $"a")) $"access_token:tok") (w_trace w_said).
Proof.
  split; [exact toy_text_laws|]. split; [unfold w_said, w_auth; reach_after|].
  split. { intros uri ps r I. vm_compute in I. repeat (destruct I as [I|I]; [try discriminate I|]); [|destruct I].
           injection I as _ _ <-. vm_compute. reflexivity. }
  split; [do 2 eexists; split; [vm_compute; left; reflexivity|]; split; vm_compute; reflexivity|].
  vm_compute. tauto.
Qed.

(** * C33, C36 and C40 with conditions on what comes in instead of on the state *)

Theorem C33_dump_then_restore_strings O w1 e1 txt w2 e2 :
  text_laws O -> utf8_posts (w_trace w1) -> fits w1 ->
  cipher_law O -> List.length (e_nonce e1) = 12%nat -> wall_ok e1 ->
  reachable O w1 -> asked w1 e1 $"dump:" -> just_answers O w1 e1 $"dump:" txt ->
  reachable O w2 -> asked w2 e2 ($"restore:" ++ txt) ->
  exists lk',
    restores_to O w2 e2 ($"restore:" ++ txt) lk'
    /\ lconfig lk' = lconfig (w_lk w2)
    /\ (forall n a act1 act2,
          holds w1 n (TSActive a) -> configured w1 n act1 -> configured w2 n act2 -> same_security act1 act2 ->
          ~ has_token w2 n -> exists b, holds (set_lk w2 lk') n (TSActive b) /\ same_token a b)
    /\ (forall e0, In e0 (details (w_lk w2)) ->
          has_token w2 (d_name e0) \/ ~ has_token w1 (d_name e0)
          \/ (forall act1 act2, configured w1 (d_name e0) act1 -> configured w2 (d_name e0) act2 -> ~ same_security act1 act2) ->
          In e0 (details lk')).
Proof.
  exact (fun TL PO F C N WO R => dump_then_restore O w1 e1 txt w2 e2 C N (texts_from_inputs O w1 TL R PO F) WO R).
Qed.
Print Assumptions C33_dump_then_restore_strings.

Theorem C36_restored_times_strings O w1 e1 m1 off1 eps1 txt w2 e2 m2 off2 eps2 lk' n a b act1 act2 :
  text_laws O -> utf8_posts (w_trace w1) -> fits w1 ->
  cipher_law O -> List.length (e_nonce e1) = 12%nat -> wall_ok e1 ->
  reachable O w1 -> asked w1 e1 $"dump:" -> just_answers O w1 e1 $"dump:" txt ->
  reachable O w2 -> asked w2 e2 ($"restore:" ++ txt) -> restores_to O w2 e2 ($"restore:" ++ txt) lk' ->
  holds w1 n (TSActive a) -> configured w1 n act1 -> configured w2 n act2 -> same_security act1 act2 ->
  ~ has_token w2 n -> holds (set_lk w2 lk') n (TSActive b) ->
  readings e1 m1 off1 eps1 -> readings e2 m2 off2 eps2 -> (0 <= eps1)%Z -> (0 <= eps2)%Z ->
  (representable off1 off2 (eps1 + eps2) (expiry a) ->
   near (expiry b + off2) (expiry a + off1) (eps1 + eps2))
  /\ (representable off1 off2 (eps1 + eps2) (obtained a) ->
      near (obtained b + off2) (obtained a + off1) (eps1 + eps2)).
Proof.
  exact (fun TL PO F C N WO R => restored_times O w1 e1 m1 off1 eps1 txt w2 e2 m2 off2 eps2 lk' n a b act1 act2
    C N (texts_from_inputs O w1 TL R PO F) WO R).
Qed.
Print Assumptions C36_restored_times_strings.

Theorem C40_show_strings O w e no_url n i a :
  text_laws O -> utf8_posts (w_trace w) ->
  reachable O w -> asked w e (client_request (CShow no_url n)) ->
  In (mkEntry n i (TSActive a)) (details (w_lk w)) -> (env_now e < expiry a)%Z ->
  exists txt,
    just_answers O w e (client_request (CShow no_url n)) txt
    /\ client_finish (CShow no_url n) txt = mkResult (access_token a ++ [nl]) None.
Proof. exact (show_from_inputs O w e no_url n i a). Qed.
Print Assumptions C40_show_strings.

(** The other hypotheses are those of [C33_case], [C36_case] and [C40_case]. *)
Example C33_strings_case :
  text_laws toy /\ utf8_posts (w_trace w_auth) /\ fits w_auth.
Proof.
  split; [exact toy_text_laws|].
  split. { intros uri ps r I. vm_compute in I. repeat (destruct I as [I|I]; [try discriminate I|]); [|destruct I].
           injection I as _ _ <-. vm_compute. reflexivity. }
  destruct w_auth_texts as [T1 T2 T3 T4]. assert (forall s, text s -> short s) as T by (intros s X; apply X).
  constructor; [exact T1|intros n ts H; apply T, (T2 _ _ H)| |].
  - intros n act C. destruct (T3 _ _ C) as (G1 & G2 & G3 & G4 & G5 & G6 & G7 & G8 & G9).
    split; [apply T, G1|]. split. { eapply Forall_impl; [|exact G2]. intros kv [X Y]. split; apply T; assumption. }
    split; [exact G3|]. split; [apply T, G4|]. split; [intros x X; apply T, (G5 _ X)|]. split; [apply T, G6|].
    split; [eapply Forall_impl; [|exact G7]; exact T|]. split; [exact G8|apply T, G9].
  - intros n a H. destruct (T4 _ _ H) as [X Y]. split; [apply T, X|]. intros x E. apply T, (Y _ E).
Qed.
