(** Specification vocabulary for dumping one server and restoring another. *)
From Verif Require Import Base Time Utf8 Url Oracles Config Dump State Server SpecServer SpecDump.
Local Open Scope Z_scope.

(** What is known about the cipher: decrypting undoes encrypting. *)
Definition cipher_law (O : oracles) : Prop :=
  forall n p c, o_encrypt O n p = Some c -> o_decrypt O n c = Some p.

(** The main thread is free to take the next request, and this is the request. *)
Definition asked (w : world) (e : env) (req : str) : Prop :=
  w_alive w = true /\ nth_error (w_threads w) 0 = Some PMain /\ e_client e = Some req.

(** The server answers with [txt] at once and does nothing else. *)
Definition just_answers (O : oracles) (w : world) (e : env) (req txt : str) : Prop :=
  step O w (LTick 0 e)
  = SNext (emit (set_thread w 0 (do_all [AEmit (OReply req txt)] PMain)) [OClient req]).

(** The server changes its state to [lk'], wakes the notifier and the refresher
    up, and says ok. *)
Definition restores_to (O : oracles) (w : world) (e : env) (req : str) (lk' : locked) : Prop :=
  step O w (LTick 0 e)
  = SNext (emit (set_thread (set_lk w lk') 0
                   (do_all [ASigNotifier; ASigRefresher; AEmit (OReply req $"ok:")] PMain)) [OClient req]).

(** Everything the server holds is a Rust string, and there are not more
    accounts than fit into memory. *)
Record texts (w : world) : Prop := {
  tx_few : few (details (w_lk w));
  tx_names : forall n ts, holds w n ts -> text n;
  tx_accounts : forall n act, configured w n act ->
    text (a_auth_uri act)
    /\ Forall (fun kv => text (fst kv) /\ text (snd kv)) (a_auth_uri_fields act)
    /\ few (a_auth_uri_fields act) /\ text (a_client_id act) /\ opt_all text (a_client_secret act)
    /\ text (a_redirect_uri act) /\ Forall text (a_scopes act) /\ few (a_scopes act)
    /\ text (a_token_uri act);
  tx_tokens : forall n a, holds w n (TSActive a) -> text (access_token a) /\ opt_all text (refresh_token a);
}.

(** Wall clocks show times that a [SystemTime] can hold. *)
Definition wall_ok (e : env) : Prop :=
  forall k, rs1 (e_clk e k) <= time_max /\ rs2 (e_clk e k) <= time_max.

Definition has_token (w : world) (n : str) : Prop := exists a, holds w n (TSActive a).

(** [b] is the token [a], not being refreshed, with a clean record. *)
Definition same_token (a b : active) : Prop :=
  access_token b = access_token a /\ refresh_token b = refresh_token a
  /\ ongoing b = false /\ fails b = 0%N /\ last_attempt b = None.

(** The input to a restore is the encrypted form of the dump [d]. *)
Definition carries (O : oracles) (bytes : str) (d : dump) : Prop :=
  (12 <= List.length bytes)%nat
  /\ exists plain, o_decrypt O (firstn 12 bytes) (skipn 12 bytes) = Some plain
                   /\ deserialize plain = Some d /\ d_version d = dump_version.

(** The dump [d] has the token [b] for account [n] configured as [act] (times
    aside). *)
Definition offers (d : dump) (n : str) (act : account) (b : active) : Prop :=
  exists ad ob ex, lookup n (d_accounts d) = Some (ad, DActive (access_token b) ob ex (refresh_token b))
                   /\ agrees ad act.

(** All the clock readings of a step were taken within [eps] of each other: the
    monotonic clock between [m] and [m + eps], the wall clock, ahead of it by
    [off], likewise. *)
Definition readings (e : env) (m off eps : Z) : Prop :=
  forall k, let r := e_clk e k in
    m <= ri1 r <= m + eps /\ m <= ri2 r <= m + eps
    /\ m + off <= rs1 r <= m + off + eps /\ m + off <= rs2 r <= m + off + eps.

(** Both servers can represent the time [t] of the first, give or take [eps]. *)
Definition representable (off1 off2 eps t : Z) : Prop :=
  time_min + eps <= t + off1 <= time_max - eps /\ time_min + eps <= t + off1 - off2 <= time_max - eps.

Definition near (x y d : Z) : Prop := y - d <= x <= y + d.

(** What a dump is meant to show of a token state. *)
Definition held (ts : tokenstate) : option (str * Z * Z * option str) :=
  match ts with
  | TSActive a => Some (access_token a, obtained a, expiry a, refresh_token a)
  | _ => None
  end.

(** The two servers have the same accounts with the same tokens; they may
    differ in authorisations under way, failure counts, refresh marks, and
    settings that have nothing to do with security. *)
Definition same_to_dump (w1 w2 : world) : Prop :=
  Forall2 (fun e1 e2 => d_name e1 = d_name e2 /\ held (d_ts e1) = held (d_ts e2))
    (details (w_lk w1)) (details (w_lk w2))
  /\ forall n a1 a2, configured w1 n a1 -> configured w2 n a2 -> same_security a1 a2.
