(** Specification: base64url (RFC 4648, section 5, without padding) from the bits,
    and application/x-www-form-urlencoded (WHATWG URL, section 5), as read and as
    written by anybody.  Independent of Base64.v and Url.v. *)
From Verif Require Import Base SpecUtf8.
Local Open Scope list_scope.

(** * base64url *)

(** Most significant bit first. *)
Definition bits_of_byte (c : ascii) : list bool :=
  match c with Ascii b0 b1 b2 b3 b4 b5 b6 b7 => [b7; b6; b5; b4; b3; b2; b1; b0] end.

Definition bits (s : str) : list bool := flat_map bits_of_byte s.

(** In groups of six, the last one filled up with zeros. *)
Inductive sextets : list bool -> list (list bool) -> Prop :=
| sx_nil : sextets [] []
| sx_full x r l : List.length x = 6 -> sextets r l -> sextets (x ++ r) (x :: l)
| sx_last x : 0 < List.length x < 6 -> sextets x [x ++ repeat false (6 - List.length x)].

Fixpoint number (acc : nat) (l : list bool) : nat :=
  match l with
  | [] => acc
  | b :: r => number (acc + acc + (if b then 1 else 0)) r
  end.

Definition base64url (s t : str) : Prop :=
  exists l, sextets (bits s) l
    /\ Forall2 (fun x c => nth_error $"ABCDEFGHIJKLMNOPQRSTUVWXYZabcdefghijklmnopqrstuvwxyz0123456789-_" (number 0 x)
                           = Some c) l t.

(** * Forms *)

(** [c] is a hexadecimal digit. *)
Definition hexadecimal (c : ascii) (n : nat) : Prop :=
  nth_error $"0123456789abcdef" n = Some c \/ nth_error $"0123456789ABCDEF" n = Some c.

(** How bytes are read: a plus is a space, a percent sign with two digits a byte. *)
Inductive unescaped : str -> str -> Prop :=
| ue_end : unescaped [] []
| ue_space s r : unescaped s r -> unescaped ("+"%char :: s) (" "%char :: r)
| ue_hex a b x y s r :
    hexadecimal a x -> hexadecimal b y -> unescaped s r ->
    unescaped ("%"%char :: a :: b :: s) (ascii_of_nat (16 * x + y) :: r)
| ue_percent s r :
    (forall a b s' x y, s = a :: b :: s' -> hexadecimal a x -> hexadecimal b y -> False) ->
    unescaped s r -> unescaped ("%"%char :: s) ("%"%char :: r)
| ue_other c s r : c <> "+"%char -> c <> "%"%char -> unescaped s r -> unescaped (c :: s) (c :: r).

(** ... and then as UTF-8. *)
Definition read_as (s t : str) : Prop :=
  exists bs cs, unescaped s bs /\ repaired bs cs /\ t = text_of cs.

(** [s] cut at every [c]. *)
Inductive cut (c : ascii) : str -> list str -> Prop :=
| cut_none s : ~ In c s -> cut c s [s]
| cut_more a s l : ~ In c a -> cut c s l -> cut c (a ++ c :: s) (a :: l).

Inductive pair_read : str -> str * str -> Prop :=
| pr_both a b k v : ~ In "="%char a -> read_as a k -> read_as b v -> pair_read (a ++ "="%char :: b) (k, v)
| pr_name a k : ~ In "="%char a -> read_as a k -> pair_read a (k, []).

Inductive pairs_read : list str -> list (str * str) -> Prop :=
| prs_end : pairs_read [] []
| prs_empty l ps : pairs_read l ps -> pairs_read ([] :: l) ps
| prs_pair s p l ps : s <> [] -> pair_read s p -> pairs_read l ps -> pairs_read (s :: l) (p :: ps).

Definition form_read (q : str) (ps : list (str * str)) : Prop := exists l, cut "&"%char q l /\ pairs_read l ps.

(** How bytes may be written: everything may be escaped, in digits of either case;
    a space may be a plus; what is in [bad] has to be escaped. *)
Inductive escaping (bad : str) : str -> str -> Prop :=
| es_end : escaping bad [] []
| es_plain c s e : ~ In c bad -> escaping bad s e -> escaping bad (c :: s) (c :: e)
| es_plus s e : escaping bad s e -> escaping bad (" "%char :: s) ("+"%char :: e)
| es_hex a b x y s e :
    hexadecimal a x -> hexadecimal b y -> escaping bad s e ->
    escaping bad (ascii_of_nat (16 * x + y) :: s) ("%"%char :: a :: b :: e).

(** A name, and a value that may contain equals signs; an empty value may do without
    one. *)
Inductive written_pair : str * str -> str -> Prop :=
| wp_both k v k' v' :
    escaping $"+%&=#" k k' -> escaping $"+%&#" v v' -> written_pair (k, v) (k' ++ "="%char :: v')
| wp_name k k' : k' <> [] -> escaping $"+%&=#" k k' -> written_pair (k, []) k'.

(** Pairs, with any number of ampersands before, between and behind them. *)
Inductive writing : list (str * str) -> str -> Prop :=
| wr_end : writing [] []
| wr_amp ps q : writing ps q -> writing ps ("&"%char :: q)
| wr_last p q : written_pair p q -> writing [p] q
| wr_pair p ps q r : written_pair p q -> writing ps r -> writing (p :: ps) (q ++ "&"%char :: r).
