(** The parts of the url and form_urlencoded crates pizauth uses.
    [Url::parse] itself is an oracle (see Oracles.v); serialisation, query
    building and query decoding are concrete.
    Uses: /repo/src/config.rs:547-562, request_token.rs:53, http_server.rs:60,
    84-87, 96, 111. *)
From Verif Require Import Base Utf8.
Local Open Scope N_scope.

(** An http(s) URL as [Url] holds it after parsing. [u_user] is the serialised
    userinfo including the "@" (or empty). A port equal to the scheme's default
    is never stored. (config.rs:300, 553, http_server.rs:349, state.rs:436) *)
Record url := mkUrl {
  u_scheme : str;
  u_user : str;
  u_host : option str;
  u_port : option N;
  u_path : str;
  u_query : option str;
  u_frag : option str;
}.

(** [Url::as_str] / [Display for Url].
    (request_token.rs:37, http_server.rs:132, mod.rs:151, notifier.rs:92) *)
Definition url_to_str (u : url) : str :=
  u_scheme u ++ $"://" ++ u_user u
    ++ (match u_host u with Some h => h | None => [] end)
    ++ (match u_port u with Some p => $":" ++ dec_of_N p | None => [] end)
    ++ u_path u
    ++ (match u_query u with Some q => $"?" ++ q | None => [] end)
    ++ (match u_frag u with Some f => $"#" ++ f | None => [] end).

(** [parser::default_port], for the schemes pizauth admits. (config.rs:555, 558) *)
Definition default_port (scheme : str) : option N :=
  if str_eqb scheme $"http" then Some 80
  else if str_eqb scheme $"https" then Some 443
  else None.

(** [Url::set_port]: [None] is [Err(())]. (config.rs:555, 558) *)
Definition set_port (u : url) (p : option N) : option url :=
  match u_host u with
  | None => None
  | Some [] => None
  | Some _ =>
      let p' := match p, default_port (u_scheme u) with
                | Some x, Some d => if x =? d then None else Some x
                | _, _ => p
                end in
      Some (mkUrl (u_scheme u) (u_user u) (u_host u) p' (u_path u) (u_query u) (u_frag u))
  end.

(** [form_urlencoded::byte_serialize]. (request_token.rs:53) *)
Definition form_unreserved (c : ascii) : bool :=
  let n := N_of_ascii c in
  (n =? 42) || (n =? 45) || (n =? 46) || (n =? 95)
  || ((48 <=? n) && (n <=? 57)) || ((65 <=? n) && (n <=? 90))
  || ((97 <=? n) && (n <=? 122)).

(** Upper case hexadecimal digits, as the crate writes them (request_token.rs:53). *)
Definition hex_digit (n : N) : ascii :=
  if n <? 10 then ascii_of_N (48 + n) else ascii_of_N (55 + n).

(** [byte_serialize] for one byte (request_token.rs:53, and [send_form],
    http_server.rs:163, refresher.rs:256). *)
Definition form_byte (c : ascii) : str :=
  if form_unreserved c then [c]
  else if N_of_ascii c =? 32 then ["+"%char]
  else ["%"%char; hex_digit (N_of_ascii c / 16); hex_digit (N_of_ascii c mod 16)].

(** [byte_serialize] (request_token.rs:53). *)
Definition form_encode (s : str) : str := flat_map form_byte s.

(** One pair of [Serializer::append_pair] (request_token.rs:53). *)
Definition form_pair (p : str * str) : str :=
  form_encode (fst p) ++ $"=" ++ form_encode (snd p).

(** [Serializer::append_pair] repeated, starting behind [q]: a "&" is put in
    front of a pair unless the query is still empty. (request_token.rs:53) *)
Fixpoint append_pairs (q : str) (ps : list (str * str)) : str :=
  match ps with
  | [] => q
  | p :: ps' =>
      append_pairs (q ++ (match q with [] => [] | _ => $"&" end) ++ form_pair p) ps'
  end.

(** [url.query_pairs_mut().extend_pairs(params)] as done by
    [Url::parse_with_params]. (request_token.rs:53) *)
Definition extend_pairs (u : url) (ps : list (str * str)) : url :=
  mkUrl (u_scheme u) (u_user u) (u_host u) (u_port u) (u_path u)
    (Some (append_pairs (match u_query u with Some q => q | None => [] end) ps))
    (u_frag u).

(** Hex digit value. (http_server.rs:60, 96, 111) *)
Definition hex_val (c : ascii) : option N :=
  let n := N_of_ascii c in
  if (48 <=? n) && (n <=? 57) then Some (n - 48)
  else if (65 <=? n) && (n <=? 70) then Some (n - 55)
  else if (97 <=? n) && (n <=? 102) then Some (n - 87)
  else None.

(** [percent_decode] after [replace_plus]. (http_server.rs:60, 96, 111) *)
Fixpoint form_decode_bytes (s : str) : str :=
  match s with
  | [] => []
  | c :: s1 =>
      if Ascii.eqb c "+"%char then " "%char :: form_decode_bytes s1
      else if Ascii.eqb c "%"%char then
        match s1 with
        | a :: b :: s2 =>
            match hex_val a, hex_val b with
            | Some x, Some y => ascii_of_N (x * 16 + y) :: form_decode_bytes s2
            | _, _ => c :: form_decode_bytes s1
            end
        | _ => c :: form_decode_bytes s1
        end
      else c :: form_decode_bytes s1
  end.

(** [form_urlencoded::decode] (http_server.rs:60, 96, 111). *)
Definition form_decode (s : str) : str := utf8_lossy (form_decode_bytes s).

(** [form_urlencoded::parse]. (http_server.rs:60, 96, 111) *)
Definition parse_segment (seg : str) : str * str :=
  match split_first "="%char seg with
  | Some (k, v) => (form_decode k, form_decode v)
  | None => (form_decode seg, [])
  end.

(** [form_urlencoded::parse]: empty pieces are skipped (http_server.rs:60, 96, 111). *)
Definition form_parse (q : str) : list (str * str) :=
  map parse_segment
    (filter (fun seg => match seg with [] => false | _ => true end)
       (split_all "&"%char q)).

(** [Url::query_pairs]. (http_server.rs:60, 96, 111) *)
Definition query_pairs (u : url) : list (str * str) :=
  form_parse (match u_query u with Some q => q | None => [] end).
