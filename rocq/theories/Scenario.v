(** Concrete oracles, configurations and runs.  They show that the hypotheses of
    the theorems can be met, and serve as witnesses where the code does not have
    a property.  Nothing here is used in the proofs of positive theorems. *)
From Verif Require Import Base Time Utf8 Url Json Oracles Config Located Dump State Http Timers Server.

(** * Toy oracles *)

Definition not_in (cs : str) (c : ascii) : bool := negb (existsb (Ascii.eqb c) cs).

(** A plain URL parser: scheme://host[:port][path][?query][#fragment], scheme and
    host put in lower case, default ports dropped, an empty path becoming "/". *)
Definition toy_url_parse (s : str) : option url :=
  match split_first ":"%char s with
  | None => None
  | Some (sch, r0) =>
      if starts_with $"//" r0 then
        let scheme := map ascii_lower sch in
        let r1 := skipn 2 r0 in
        let auth := take_while (not_in $"/?#") r1 in
        let r2 := drop_while (not_in $"/?#") r1 in
        let path := take_while (not_in $"?#") r2 in
        let r3 := drop_while (not_in $"?#") r2 in
        let '(q, r4) :=
          match r3 with
          | c :: r => if Ascii.eqb c "?"%char
                      then (Some (take_while (not_in $"#") r), drop_while (not_in $"#") r)
                      else (None, r3)
          | [] => (None, [])
          end in
        let frag := match r4 with _ :: f => Some f | [] => None end in
        let '(host, port) :=
          match split_first ":"%char auth with
          | Some (h, p) => (h, digits_val 0 p)
          | None => (auth, None)
          end in
        let port' := match option_map Z.to_N port, default_port scheme with
                     | Some x, Some d => if N.eqb x d then None else Some x
                     | p, _ => p
                     end in
        match host with
        | [] => None
        | _ => Some (mkUrl scheme [] (Some (map ascii_lower host)) port'
                       (match path with [] => $"/" | _ => path end) q frag)
        end
      else None
  end.

(** URLs are ASCII: what the parser would have to percent-encode is refused. *)
Definition toy_url (s : str) : option url :=
  match toy_url_parse s with
  | Some u => if forallb (between 0 127) (url_to_str u) then Some u else None
  | None => None
  end.

(** "T<token>" is a token response without refresh token, "R<token>" one with
    refresh token "r", "E" an error response, "B" one that lasts too long to be
    represented, "Y" one that lasts thirty thousand years, "S" one that lasts ten seconds, anything else is not JSON. *)
Definition toy_json (s : str) : json + str :=
  let resp tok exp extra :=
    JObj ([($"access_token", JStr tok); ($"token_type", JStr $"Bearer"); ($"expires_in", JNum exp)] ++ extra) in
  match s with
  | c :: t =>
      if Ascii.eqb c "T"%char then inl (resp t 3600%Z [])
      else if Ascii.eqb c "R"%char then inl (resp t 3600%Z [($"refresh_token", JStr $"r")])
      else if Ascii.eqb c "S"%char then inl (resp t 10%Z [($"refresh_token", JStr $"r")])
      else if Ascii.eqb c "B"%char then inl (resp t (two64 - 1)%Z [])
      else if Ascii.eqb c "Y"%char then inl (resp t 1000000000000%Z [])
      else if Ascii.eqb c "N"%char then inl (resp t 3600%Z [($"refresh_token", JNull)])
      else if Ascii.eqb c "E"%char then inl (JObj [($"error", JStr t)])
      else inr $"not JSON"
  | [] => inr $"not JSON"
  end.

(** Dates exist for the years 0 to 9999 (UTC). *)
Definition toy_date (t : Z) : option str :=
  if ((-62167219200 * nanos <=? t) && (t <? 253402300800 * nanos))%Z then Some $"then" else None.

(** SHA-256 and the cipher are replaced by trivial functions that satisfy the
    laws used anywhere. *)
Definition toy : oracles :=
  mkOracles toy_url (fun s => s) (fun n p => Some p) (fun n c => Some c) toy_json
    toy_date.

(** * Environments *)

Definition at_time (t : Z) : nat -> reads := fun _ => mkReads t t t t.

(** A step at time [t]. *)
Definition tick (t : Z) : env :=
  mkEnv (at_time t) $"statebytes" $"verifier bytes" $"noncenonceno" None None (fun _ => 0%N)
    (fun n => n) (PRTransport TrOther []) true false.

Definition client (req : str) (e : env) : env :=
  mkEnv (e_clk e) (e_state_bytes e) (e_verifier_bytes e) (e_nonce e) (Some req) (e_file e) (e_hash e)
    (e_idhash e) (e_post e) (e_cmd_ok e) (e_wake e).
Definition file (s : str) (e : env) : env :=
  mkEnv (e_clk e) (e_state_bytes e) (e_verifier_bytes e) (e_nonce e) (e_client e) (Some s) (e_hash e)
    (e_idhash e) (e_post e) (e_cmd_ok e) (e_wake e).
Definition posted (r : post_result) (e : env) : env :=
  mkEnv (e_clk e) (e_state_bytes e) (e_verifier_bytes e) (e_nonce e) (e_client e) (e_file e) (e_hash e)
    (e_idhash e) r (e_cmd_ok e) (e_wake e).
Definition rand (st cvr : str) (e : env) : env :=
  mkEnv (e_clk e) st cvr (e_nonce e) (e_client e) (e_file e) (e_hash e)
    (e_idhash e) (e_post e) (e_cmd_ok e) (e_wake e).
Definition cmd_result (b : bool) (e : env) : env :=
  mkEnv (e_clk e) (e_state_bytes e) (e_verifier_bytes e) (e_nonce e) (e_client e) (e_file e) (e_hash e)
    (e_idhash e) (e_post e) b (e_wake e).
Definition woken (e : env) : env :=
  mkEnv (e_clk e) (e_state_bytes e) (e_verifier_bytes e) (e_nonce e) (e_client e) (e_file e) (e_hash e)
    (e_idhash e) (e_post e) (e_cmd_ok e) true.

(** Seconds. *)
Definition sec (n : Z) : Z := from_secs n.

(** * A configuration file *)

Definition q : str := [dquote].
Definition conf_account (name extra : str) : str :=
  $"account " ++ q ++ name ++ q ++ $" { auth_uri = " ++ q ++ $"https://auth.example/a" ++ q
  ++ $"; client_id = " ++ q ++ $"id" ++ q ++ $"; client_secret = " ++ q ++ $"secret" ++ q
  ++ $"; scopes = [" ++ q ++ $"s1" ++ q ++ $", " ++ q ++ $"s2" ++ q ++ $"]; token_uri = "
  ++ q ++ $"https://token.example/t" ++ q ++ $"; " ++ extra ++ $"}".

Definition conf1 : str :=
  $"auth_notify_cmd = " ++ q ++ $"notify" ++ q ++ $"; token_event_cmd = " ++ q ++ $"event" ++ q
  ++ $"; error_notify_cmd = " ++ q ++ $"err" ++ q ++ $"; transient_error_if_cmd = " ++ q ++ $"iftrans" ++ q
  ++ $"; " ++ conf_account $"a" [] ++ conf_account $"b" [].

Definition conf_of (s : str) : config :=
  match from_str toy (fun _ => 0%N) s with
  | Val c => c
  | _ => mkConfig [] None 0 None None None None None None None None
  end.

Definition env_file (s : str) : env := file s (tick 0).

Definition start (s : str) : world := init_world (conf_of s) 8080 8443 $"key".

(** The world after a run that succeeds. *)
Definition after (w : world) (ls : list label) : world :=
  match run toy w ls with
  | Some (SNext w') => w'
  | _ => w
  end.

Definition main (e : env) : label := LTick 0 e.
Definition ev (e : env) : label := LTick 1 e.
Definition nt (e : env) : label := LTick 2 e.
Definition rf (e : env) : label := LTick 3 e.

(** [n] steps of thread [tid]. *)
Definition many (n : nat) (tid : nat) (e : env) : list label := repeat (LTick tid e) n.

(** A browser request for the redirect of account "a" with the given state. *)
Definition crlf : str := [cr; nl].
Definition callback (query : str) : str :=
  $"GET /?" ++ query ++ $" HTTP/1.1" ++ crlf ++ $"Host: localhost:8080" ++ crlf ++ crlf.

(** The OAuth state that random bytes [b] lead to. *)
Definition state_of (b : str) : str := Base64.b64_encode b.

(** ** A full authorisation of account "a", ending with an active token. *)
Definition authorise (body : str) : list label :=
  [main (client $"showtoken:withurl a" (tick (sec 1000)))]       (* PDo ASigNotifier *)
  ++ many 2 0 (tick (sec 1000))                                  (* signal, reply *)
  ++ [LHttpConn false (callback ($"state=" ++ state_of $"statebytes" ++ $"&code=c0de"))]
  ++ many 2 4 (tick (sec 1001))                                  (* request, respond *)
  ++ [LTick 4 (posted (PRBody body) (tick (sec 1002)))]
  ++ many 4 4 (tick (sec 1003)).                                 (* store, signal, event, signal *)

Definition w_auth : world := after (start conf1) (authorise $"Rtok").
