(** Shared vocabulary of the model: byte strings, failure, association lists,
    hash map iteration orders.  No model of pizauth code in this file. *)

From Coq Require Export List Bool Arith NArith ZArith Lia String Ascii.
From Coq Require Export Permutation.
Export ListNotations.
Global Open Scope list_scope.

(** Rust [String], [&str], [Vec<u8>] are all byte lists.  Where Rust requires
    valid UTF-8 the model calls [utf8_valid] (Utf8.v).
    (state.rs:433-440, mod.rs:80, ...) *)
Definition str := list ascii.

(** String literals of the code, e.g. "info:" (user_sender.rs:30). *)
Definition lit (s : string) : str := list_ascii_of_string s.
Arguments lit s%string : simpl never.
Notation "$ x" := (lit x%string) (at level 0, x at level 0, format "$ x").

(** A byte by its number. *)
Definition chr (n : N) : ascii := ascii_of_N n.
(** The characters that the code names: newline (http_server.rs:285,
    config.rs:657), ... *)
Definition nl : ascii := ascii_of_N 10.
(** ... carriage return (http_server.rs:361, config.l:35), ... *)
Definition cr : ascii := ascii_of_N 13.
(** ... tab (http_server.rs:310, 338, config.l:35), ... *)
Definition tab : ascii := ascii_of_N 9.
(** ... the double quote (config.rs:625-629, config.l:4), ... *)
Definition dquote : ascii := ascii_of_N 34.
(** ... and the backslash (config.rs:631, 637, config.l:4). *)
Definition bslash : ascii := ascii_of_N 92.

(** [==] on strings, e.g. config.rs:511-518, state.rs:186, 297, mod.rs:98. *)
Fixpoint str_eqb (a b : str) : bool :=
  match a, b with
  | [], [] => true
  | x :: a', y :: b' => Ascii.eqb x y && str_eqb a' b'
  | _, _ => false
  end.

(** [str::starts_with], config.rs:209, 216, 554. *)
Fixpoint starts_with (p s : str) : bool :=
  match p, s with
  | [], _ => true
  | x :: p', y :: s' => Ascii.eqb x y && starts_with p' s'
  | _ :: _, [] => false
  end.

(** [s.split(c)] at the first occurrence only: what [splitn(2, c)] yields.
    (user_sender.rs:51, mod.rs:137, 195, http_server.rs:330) *)
Fixpoint split_first (c : ascii) (s : str) : option (str * str) :=
  match s with
  | [] => None
  | x :: s' =>
      if Ascii.eqb x c then Some ([], s')
      else match split_first c s' with
           | Some (a, b) => Some (x :: a, b)
           | None => None
           end
  end.

(** [s.split(c).collect()]: always non-empty. (http_server.rs:291) *)
Fixpoint split_all (c : ascii) (s : str) : list str :=
  match s with
  | [] => [[]]
  | x :: s' =>
      if Ascii.eqb x c then [] :: split_all c s'
      else match split_all c s' with
           | p :: ps => (x :: p) :: ps
           | [] => [[x]]
           end
  end.

(** [Iterator::take_while], mod.rs:86, http_server.rs:338. *)
Fixpoint take_while {A} (f : A -> bool) (s : list A) : list A :=
  match s with
  | x :: s' => if f x then x :: take_while f s' else []
  | [] => []
  end.

(** What [take_while] leaves, mod.rs:95, http_server.rs:341. *)
Fixpoint drop_while {A} (f : A -> bool) (s : list A) : list A :=
  match s with
  | x :: s' => if f x then drop_while f s' else s
  | [] => []
  end.

(** [v.join(sep)]. (request_token.rs:34, mod.rs:295, config.rs:67) *)
Fixpoint join (sep : str) (l : list str) : str :=
  match l with
  | [] => []
  | [x] => x
  | x :: l' => x ++ sep ++ join sep l'
  end.

(** [u8::to_ascii_lowercase], for the next one. (http_server.rs:331) *)
Definition ascii_lower (c : ascii) : ascii :=
  let n := N_of_ascii c in
  if (65 <=? n)%N && (n <=? 90)%N then ascii_of_N (n + 32) else c.

(** [str::eq_ignore_ascii_case], http_server.rs:331. *)
Definition eq_ignore_ascii_case (a b : str) : bool :=
  str_eqb (map ascii_lower a) (map ascii_lower b).

(** Decimal printing ([to_string] on integers).
    (mod.rs:108, 115, http_server.rs:177) *)
Fixpoint dec_digits (fuel : nat) (n : N) (acc : str) : str :=
  match fuel with
  | O => acc
  | S fuel' =>
      let acc' := ascii_of_N (48 + N.modulo n 10) :: acc in
      if (n <? 10)%N then acc' else dec_digits fuel' (N.div n 10) acc'
  end.
Definition dec_of_N (n : N) : str := dec_digits (S (N.to_nat (N.log2 n))) n [].

(** Failure: [Err] is a Rust [Err] that the caller handles, [Panic] is an
    [unwrap] on nothing, a failed [assert!], a missing map key, an
    [unreachable!].
    (E.g. [Err] mod.rs:301, [Panic] state.rs:332, 380, request_token.rs:16.) *)
Inductive outcome (A : Type) : Type :=
| Val (a : A)
| Err (msg : str)
| Panic.
Arguments Val {A} a.
Arguments Err {A} msg.
Arguments Panic {A}.

(** The operator [?]; a panic is passed on as well. (mod.rs:81, 95, 100, ...) *)
Definition bind {A B} (m : outcome A) (f : A -> outcome B) : outcome B :=
  match m with
  | Val a => f a
  | Err e => Err e
  | Panic => Panic
  end.
Notation "x <- m ;; k" := (bind m (fun x => k))
  (at level 61, m at next level, right associativity).
Notation "' p <- m ;; k" := (bind m (fun p => k))
  (at level 61, p pattern, m at next level, right associativity).

(** [Option::unwrap], e.g. state.rs:187, 258, 332, 348, 367, 399. *)
Definition unwrap {A} (o : option A) : outcome A :=
  match o with Some a => Val a | None => Panic end.

(** [Option::ok_or], [ok_or_else], e.g. mod.rs:76, config.rs:609-611. *)
Definition ok_or {A} (e : str) (o : option A) : outcome A :=
  match o with Some a => Val a | None => Err e end.

(** Association lists stand for hash maps; keys are unique where it matters
    (proved as an invariant, not built in). (state.rs:179-180, 233, 333) *)
Fixpoint lookup {A} (k : str) (m : list (str * A)) : option A :=
  match m with
  | [] => None
  | (k', v) :: m' => if str_eqb k k' then Some v else lookup k m'
  end.

(** [HashMap::insert]: overwrite or add. (config.rs:87, state.rs:212, 245) *)
Fixpoint map_insert {A} (k : str) (v : A) (m : list (str * A)) : list (str * A) :=
  match m with
  | [] => [(k, v)]
  | (k', v') :: m' =>
      if str_eqb k k' then (k', v) :: m' else (k', v') :: map_insert k v m'
  end.

(** [HashMap::keys], state.rs:162, 178. *)
Definition keys {A} (m : list (str * A)) : list str := map fst m.

(** Hash map iteration order: sorted by an arbitrary "hash" of the key that the
    environment supplies.  Every order of distinct keys arises from some hash
    function, so quantifying over [h] quantifies over all orders.
    (Maps: config.rs:70, state.rs:162, 178, 210, 253; a set: refresher.rs:481.) *)
Fixpoint hinsert {A} (h : A -> N) (x : A) (l : list A) : list A :=
  match l with
  | [] => [x]
  | y :: l' => if (h x <=? h y)%N then x :: l else y :: hinsert h x l'
  end.

(** The whole map in that order, e.g. state.rs:162, 178, config.rs:208,
    refresher.rs:484. *)
Fixpoint hsort {A} (h : A -> N) (l : list A) : list A :=
  match l with
  | [] => []
  | x :: l' => hinsert h x (hsort h l')
  end.

(** [==] on options, e.g. config.rs:515, http_server.rs:86-87. *)
Definition opt_eqb {A} (eqb : A -> A -> bool) (a b : option A) : bool :=
  match a, b with
  | None, None => true
  | Some x, Some y => eqb x y
  | _, _ => false
  end.

(** [==] on vectors, e.g. config.rs:513, 517. *)
Fixpoint list_eqb {A} (eqb : A -> A -> bool) (a b : list A) : bool :=
  match a, b with
  | [], [] => true
  | x :: a', y :: b' => eqb x y && list_eqb eqb a' b'
  | _, _ => false
  end.

(** [==] on pairs, config.rs:513. *)
Definition pair_eqb {A B} (ea : A -> A -> bool) (eb : B -> B -> bool)
    (a b : A * B) : bool :=
  ea (fst a) (fst b) && eb (snd a) (snd b).

(** [v[i] = x], state.rs:259-260, 401-402; also used for threads. *)
Fixpoint list_set {A} (i : nat) (x : A) (l : list A) : list A :=
  match l, i with
  | [], _ => []
  | _ :: l', O => x :: l'
  | y :: l', S i' => y :: list_set i' x l'
  end.
