(** [URL_SAFE_NO_PAD.encode] of the base64 crate (RFC 4648 section 5, no
    padding), used at /repo/src/server/request_token.rs:25,29,32.  [b64_decode]
    is the specification's inverse; pizauth itself never decodes. *)
From Verif Require Import Base.
Local Open Scope N_scope.

(** The alphabet of RFC 4648, table 2. *)
Definition b64_char (n : N) : ascii :=
  if n <? 26 then ascii_of_N (65 + n)
  else if n <? 52 then ascii_of_N (97 + (n - 26))
  else if n <? 62 then ascii_of_N (48 + (n - 52))
  else if n =? 62 then "-"%char
  else "_"%char.

(** [URL_SAFE_NO_PAD.encode], request_token.rs:25, 29, 32. *)
Fixpoint b64_encode (s : str) : str :=
  match s with
  | [] => []
  | [a] =>
      let n := N_of_ascii a * 65536 in
      [b64_char (n / 262144); b64_char (n / 4096 mod 64)]
  | [a; b] =>
      let n := N_of_ascii a * 65536 + N_of_ascii b * 256 in
      [b64_char (n / 262144); b64_char (n / 4096 mod 64); b64_char (n / 64 mod 64)]
  | a :: b :: c :: s' =>
      let n := N_of_ascii a * 65536 + N_of_ascii b * 256 + N_of_ascii c in
      b64_char (n / 262144) :: b64_char (n / 4096 mod 64)
        :: b64_char (n / 64 mod 64) :: b64_char (n mod 64) :: b64_encode s'
  end.
