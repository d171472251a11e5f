(** Specification: UTF-8, from the definition of the encoding, and what becomes
    of bytes that are not UTF-8.  Independent of the tests of Utf8.v. *)
From Verif Require Import Base.
Local Open Scope N_scope.
Local Open Scope list_scope.

(** Unicode scalar values: code points but surrogates. *)
Definition scalar (c : N) : Prop := c < 1114112 /\ ~ (55296 <= c < 57344).

(** The bytes of a scalar value. *)
Definition encoding (c : N) : str :=
  map ascii_of_N
    (if c <? 128 then [c]
     else if c <? 2048 then [192 + c / 64; 128 + c mod 64]
     else if c <? 65536 then [224 + c / 4096; 128 + c / 64 mod 64; 128 + c mod 64]
     else [240 + c / 262144; 128 + c / 4096 mod 64; 128 + c / 64 mod 64; 128 + c mod 64]).

(** The text of these scalar values. *)
Definition text_of (cs : list N) : str := List.concat (map encoding cs).

Definition is_text (s : str) : Prop := exists cs, Forall scalar cs /\ s = text_of cs.

(** Lossy decoding: from left to right, characters are kept and the longest
    beginning of a character that does not go on as it should, or else a single
    byte, becomes U+FFFD. *)
Definition begins_char (p : str) : Prop := exists c r, scalar c /\ encoding c = p ++ r.

Inductive repaired : str -> list N -> Prop :=
| rp_end : repaired [] []
| rp_char c s cs : scalar c -> repaired s cs -> repaired (encoding c ++ s) (c :: cs)
| rp_bad p s cs :
    p <> [] -> (forall c r, scalar c -> p ++ s <> encoding c ++ r) ->
    (List.length p = 1%nat \/ begins_char p) ->
    (forall q r, p ++ s = q ++ r -> begins_char q -> (List.length q <= List.length p)%nat) ->
    repaired s cs -> repaired (p ++ s) (65533 :: cs).
