(** Who gets to see the server's secrets.  Two worlds are the same but for their
    secrets if they agree once every access token, refresh token and code
    verifier has been blanked out -- in memory, in the plans of the threads, and
    in what the outside saw at the three places where secrets may leave:
    the answer to [show], the (encrypted) answer to [dump], and the form fields
    [refresh_token] and [code_verifier] posted to the token URI.  Secrets come in
    with the answers to those posts, and as the random bytes of the verifier. *)
From Verif Require Import Base Time Utf8 Base64 Url Json Oracles Config Dump State Http Timers Server.

Definition blind_active (a : active) : active :=
  mkActive [] (obtained a) (expiry a) (match refresh_token a with Some _ => Some [] | None => None end)
    (ongoing a) (fails a) (last_attempt a).

Definition blind_ts (ts : tokenstate) : tokenstate :=
  match ts with
  | TSEmpty => TSEmpty
  | TSPending _ ln st u => TSPending [] ln st u
  | TSActive a => TSActive (blind_active a)
  end.

Definition blind_entry (e : entry) : entry := mkEntry (d_name e) (d_id e) (blind_ts (d_ts e)).

Definition blind_locked (lk : locked) : locked :=
  mkLocked (account_count lk) (lconfig lk) (map blind_entry (details lk)).

Definition blur_pair (p : str * str) : str * str :=
  if str_eqb (fst p) $"refresh_token" || str_eqb (fst p) $"code_verifier" then (fst p, []) else p.

Definition blur (o : obs) : obs :=
  match o with
  | OReply req txt =>
      if str_eqb req $"dump:" then OReply req []
      else if starts_with $"showtoken:" req && starts_with $"access_token:" txt
           then OReply req $"access_token:"
           else o
  | OPost uri pairs r => OPost uri (map blur_pair pairs) (match r with PRBody _ => PRBody [] | _ => r end)
  | _ => o
  end.

Definition blind_action (a : action) : action :=
  match a with AEmit o => AEmit (blur o) | _ => a end.

Fixpoint blind_pc (p : pc) : pc :=
  match p with
  | PDo a k => PDo (blind_action a) (blind_pc k)
  | PRefPost i n _ uri pairs => PRefPost i n [] uri (map blur_pair pairs)
  | PRefBody i n _ _ => PRefBody i n [] []
  | PRefGot i n _ exs rt now => PRefGot i n [] exs (match rt with Some _ => Some [] | None => None end) now
  | PHttpPost i uri pairs k => PHttpPost i uri (map blur_pair pairs) k
  | PHttpBody i _ => PHttpBody i []
  | _ => p
  end.

Definition blind (w : world) : world :=
  mkWorld (blind_locked (w_lk w)) (w_http w) (w_https w) (w_pubkey w) (w_evq w) (w_ev w) (w_nt w) (w_rf w)
    (map blind_pc (w_threads w)) (w_alive w) (map blur (w_trace w)).

(** What an answer of a token server says apart from the tokens: error, token
    type, lifetime, whether there is an access token, and whether there is a
    refresh token ([Some false]: something that is not a string). *)
Definition shape (O : oracles) (body : str) : option str * option str * option Z * bool * option bool + str :=
  match o_json O body with
  | inr m => inr m
  | inl v => inl (json_str $"error" v, json_str $"token_type" v, json_u64 $"expires_in" v,
                  match json_str $"access_token" v with Some _ => true | None => false end,
                  match json_get $"refresh_token" v with
                  | None => None
                  | Some (JStr _) => Some true
                  | Some _ => Some false
                  end)
  end.

(** The answer a thread is about to look at. *)
Fixpoint hears (O : oracles) (p : pc) : option (option str * option str * option Z * bool * option bool + str) :=
  match p with
  | PDo _ k => hears O k
  | PRefBody _ _ _ body | PHttpBody _ body => Some (shape O body)
  | _ => None
  end.

Definition same_but_secrets (O : oracles) (w1 w2 : world) : Prop :=
  blind w1 = blind w2 /\ map (hears O) (w_threads w1) = map (hears O) (w_threads w2).

(** Inputs that differ in secrets only: other tokens in the answer of the token
    server, another verifier with the same hash. *)
Record alike (O : oracles) (e1 e2 : env) : Prop := {
  al_clk : e_clk e1 = e_clk e2;
  al_state : e_state_bytes e1 = e_state_bytes e2;
  al_verifier : o_sha256 O (b64_encode (e_verifier_bytes e1)) = o_sha256 O (b64_encode (e_verifier_bytes e2));
  al_nonce : e_nonce e1 = e_nonce e2;
  al_client : e_client e1 = e_client e2;
  al_file : e_file e1 = e_file e2;
  al_hash : e_hash e1 = e_hash e2;
  al_idhash : e_idhash e1 = e_idhash e2;
  al_post : e_post e1 = e_post e2
            \/ exists b1 b2, e_post e1 = PRBody b1 /\ e_post e2 = PRBody b2 /\ shape O b1 = shape O b2;
  al_cmd : e_cmd_ok e1 = e_cmd_ok e2;
  al_wake : e_wake e1 = e_wake e2;
}.

Inductive alike_label (O : oracles) : label -> label -> Prop :=
| al_tick tid e1 e2 : alike O e1 e2 -> alike_label O (LTick tid e1) (LTick tid e2)
| al_conn https bytes : alike_label O (LHttpConn https bytes) (LHttpConn https bytes).

(** Whether encrypting succeeds does not depend on what is encrypted. *)
Definition cipher_uniform (O : oracles) : Prop :=
  forall n p p', o_encrypt O n p = None -> o_encrypt O n p' = None.
