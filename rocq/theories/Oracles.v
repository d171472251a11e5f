(** External code that the model does not open up.  Every theorem quantifies
    over an arbitrary value of this record; laws are stated where needed. *)
From Verif Require Import Base Url Json.

(** The libraries whose results are left open: whatever they compute, they
    compute it from their arguments.  Callers are named at each field's use:
    config.rs:300, 553, http_server.rs:349 (URLs), request_token.rs:30-32
    (SHA-256), state.rs:114-121, 131-137 (ChaCha20Poly1305), http_server.rs:195,
    refresher.rs:295 (JSON), mod.rs:311-318 (dates). *)
Record oracles := mkOracles {
  (** [Url::parse] (url crate); [None] is a parse error. *)
  o_url_parse : str -> option url;
  (** [Sha256::digest] (sha2 crate). *)
  o_sha256 : str -> str;
  (** ChaCha20Poly1305 with pizauth's fixed key: nonce, plaintext. *)
  o_encrypt : str -> str -> option str;
  (** nonce, ciphertext. *)
  o_decrypt : str -> str -> option str;
  (** [serde_json::from_str::<Value>]; [inr] is the error text. *)
  o_json : str -> json + str;
  (** [DateTime<Local>::from(st).to_rfc2822()] (chrono crate); [None] is a panic:
      RFC 2822 has no dates before the year 0 and after 9999. *)
  o_fmt_time : Z -> option str;
}.
