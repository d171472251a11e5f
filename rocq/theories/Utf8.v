(** UTF-8 validation and lossy decoding, as [std::str::from_utf8] and
    [String::from_utf8_lossy] do them (well-formed sequences per Unicode table
    3-7).  External code modelled concretely; pizauth calls it at
    /repo/src/server/mod.rs:95,136,173,194, through [read_line]
    (http_server.rs:285,304), [query_pairs] (http_server.rs:60,96,111), bincode
    and [read_to_string] (user_sender.rs). *)
From Verif Require Import Base.
Local Open Scope N_scope.

(** Is the byte in this range?  For table 3-7. *)
Definition between (lo hi : N) (c : ascii) : bool :=
  let n := N_of_ascii c in (lo <=? n) && (n <=? hi).

(** A continuation byte of table 3-7. *)
Definition cont : ascii -> bool := between 128 191.

(** Length of the first character if the string starts with a well-formed one.
    (std; called from mod.rs:95 etc., see above) *)
Definition utf8_char_len (s : str) : option nat :=
  match s with
  | [] => None
  | a :: s1 =>
      if between 0 127 a then Some 1%nat
      else
        match s1 with
        | [] => None
        | b :: s2 =>
            if between 194 223 a && cont b then Some 2%nat
            else
              match s2 with
              | [] => None
              | c :: s3 =>
                  if ((between 224 224 a && between 160 191 b)
                      || (between 225 236 a && cont b)
                      || (between 237 237 a && between 128 159 b)
                      || (between 238 239 a && cont b)) && cont c
                  then Some 3%nat
                  else
                    match s3 with
                    | [] => None
                    | d :: _ =>
                        if ((between 240 240 a && between 144 191 b)
                            || (between 241 243 a && cont b)
                            || (between 244 244 a && between 128 143 b))
                           && cont c && cont d
                        then Some 4%nat
                        else None
                    end
              end
        end
  end.

(** The loop of [str::from_utf8]; fuel: the length. *)
Fixpoint utf8_valid_fuel (fuel : nat) (s : str) : bool :=
  match fuel with
  | O => match s with [] => true | _ => false end
  | S fuel' =>
      match s with
      | [] => true
      | _ =>
          match utf8_char_len s with
          | Some n => utf8_valid_fuel fuel' (skipn n s)
          | None => false
          end
      end
  end.

(** [str::from_utf8(s).is_ok()], mod.rs:95, 136, 173, 194; http_server.rs:285,
    304; user_sender.rs:35, 50; config.rs:51. *)
Definition utf8_valid (s : str) : bool := utf8_valid_fuel (List.length s) s.

(** Length of the maximal invalid prefix replaced by one U+FFFD
    ([Utf8Chunks]): the longest prefix of a well-formed sequence, at least 1.
    (std; called from http_server.rs:60, 96, 111) *)
Definition utf8_bad_len (s : str) : nat :=
  match s with
  | [] => 0
  | a :: s1 =>
      if between 194 223 a then 1
      else if between 224 239 a then
        match s1 with
        | b :: _ =>
            if (between 224 224 a && between 160 191 b)
               || (between 225 236 a && cont b)
               || (between 237 237 a && between 128 159 b)
               || (between 238 239 a && cont b) then 2 else 1
        | [] => 1
        end
      else if between 240 244 a then
        match s1 with
        | b :: s2 =>
            if (between 240 240 a && between 144 191 b)
               || (between 241 243 a && cont b)
               || (between 244 244 a && between 128 143 b)
            then match s2 with
                 | c :: _ => if cont c then 3 else 2
                 | [] => 2
                 end
            else 1
        | [] => 1
        end
      else 1
  end%nat.

(** U+FFFD in UTF-8. *)
Definition replacement : str := [ascii_of_N 239; ascii_of_N 191; ascii_of_N 189].

(** The loop of [String::from_utf8_lossy]; fuel: the length. *)
Fixpoint utf8_lossy_fuel (fuel : nat) (s : str) : str :=
  match fuel with
  | O => []
  | S fuel' =>
      match s with
      | [] => []
      | _ =>
          match utf8_char_len s with
          | Some n => firstn n s ++ utf8_lossy_fuel fuel' (skipn n s)
          | None => replacement ++ utf8_lossy_fuel fuel' (skipn (utf8_bad_len s) s)
          end
      end
  end.

(** [String::from_utf8_lossy], called by [query_pairs] (http_server.rs:60, 96, 111). *)
Definition utf8_lossy (s : str) : str := utf8_lossy_fuel (List.length s) s.

(** [Utf8Error]: where the first byte is that is not part of a character, and
    how it is displayed. (mod.rs:95, 136, 173, 194) *)
Fixpoint utf8_upto_fuel (fuel : nat) (s : str) : nat :=
  match fuel with
  | O => 0
  | S fuel' =>
      match utf8_char_len s with
      | Some n => n + utf8_upto_fuel fuel' (skipn n s)
      | None => 0
      end
  end%nat.

(** [Utf8Error::valid_up_to]. (mod.rs:95, 136, 173, 194) *)
Definition utf8_upto (s : str) : nat := utf8_upto_fuel (List.length s) s.

(** [Display for Utf8Error]: what mod.rs:401 logs for the errors of mod.rs:95,
    136, 173, 194. *)
Definition utf8_error (s : str) : str :=
  let i := utf8_upto s in
  let rest := skipn i s in
  let n := utf8_bad_len rest in
  if (match rest with a :: _ => between 194 244 a | [] => false end) && Nat.eqb n (List.length rest)
  then $"incomplete utf-8 byte sequence from index " ++ dec_of_N (N.of_nat i)
  else $"invalid utf-8 sequence of " ++ dec_of_N (N.of_nat n) ++ $" bytes from index " ++ dec_of_N (N.of_nat i).
