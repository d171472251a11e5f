(** The dump structure (/repo/src/server/state.rs:267-271, 459-473,
    config.rs:583-592) and its serialised form: bincode 1.x as called by
    [bincode::serialize] / [bincode::deserialize] (state.rs:218, 225), i.e.
    fixed width little endian integers, [u64] lengths, [u32] enum tags, [u8]
    option tags, trailing bytes allowed.  [SystemTime] follows serde's
    implementation (seconds and nanoseconds since 1970). *)
From Verif Require Import Base Time Utf8 Config.
Local Open Scope N_scope.

(** state.rs:465-473 *)
Inductive tokenstate_dump :=
| DEmpty
| DActive (access_token : str) (obtained expiry : Z) (refresh_token : option str).

(** state.rs:267-271 *)
Record dump := mkDump {
  d_version : N;
  d_accounts : list (str * (account_dump * tokenstate_dump));
}.

(** state.rs:41 *)
Definition dump_version : N := 1.

(** * Encoding *)

(** bincode (state.rs:218): the [k] bytes of a number, the lowest first. *)
Fixpoint le_bytes (k : nat) (n : N) : str :=
  match k with
  | O => []
  | S k' => ascii_of_N (n mod 256) :: le_bytes k' (n / 256)
  end.

(** bincode: [u64], and lengths (state.rs:269). *)
Definition enc_u64 (n : N) : str := le_bytes 8 n.
(** bincode: the number of an enum's variant (state.rs:465-473). *)
Definition enc_u32 (n : N) : str := le_bytes 4 n.
(** bincode: [String] (state.rs:270, 468, config.rs:585-591). *)
Definition enc_str (s : str) : str := enc_u64 (N.of_nat (List.length s)) ++ s.
(** bincode: [Option] (state.rs:471, config.rs:588). *)
Definition enc_opt {A} (f : A -> str) (o : option A) : str :=
  match o with None => [ascii_of_N 0] | Some x => ascii_of_N 1 :: f x end.
(** bincode: [Vec] and [HashMap] (state.rs:270, config.rs:586, 590). *)
Definition enc_list {A} (f : A -> str) (l : list A) : str :=
  enc_u64 (N.of_nat (List.length l)) ++ flat_map f l.
(** bincode: tuples (state.rs:270, config.rs:586). *)
Definition enc_pair {A B} (f : A -> str) (g : B -> str) (p : A * B) : str :=
  f (fst p) ++ g (snd p).

(** serde: [SystemTime] before the epoch cannot be serialised. (state.rs:469-470) *)
Definition enc_time (t : Z) : outcome str :=
  (if t <? 0 then Err $"SystemTime must be later than UNIX_EPOCH"
   else Val (enc_u64 (Z.to_N (t / nanos)) ++ enc_u32 (Z.to_N (t mod nanos))))%Z.

(** [Serialize for AccountDump], the fields in order (config.rs:583-592). *)
Definition enc_account_dump (d : account_dump) : str :=
  enc_str (ad_auth_uri d) ++ enc_list (enc_pair enc_str enc_str) (ad_auth_uri_fields d)
    ++ enc_str (ad_client_id d) ++ enc_opt enc_str (ad_client_secret d)
    ++ enc_str (ad_redirect_uri d) ++ enc_list enc_str (ad_scopes d)
    ++ enc_str (ad_token_uri d).

(** [Serialize for TokenStateDump] (state.rs:459-473). *)
Definition enc_tokenstate_dump (t : tokenstate_dump) : outcome str :=
  match t with
  | DEmpty => Val (enc_u32 0)
  | DActive tok ob ex rt =>
      o <- enc_time ob ;;
      e <- enc_time ex ;;
      Val (enc_u32 1 ++ enc_str tok ++ o ++ e ++ enc_opt enc_str rt)
  end.

(** The entries of the map in [Dump] (state.rs:270), in its iteration order. *)
Fixpoint enc_entries (l : list (str * (account_dump * tokenstate_dump))) : outcome str :=
  match l with
  | [] => Val []
  | (n, (ad, ts)) :: l' =>
      t <- enc_tokenstate_dump ts ;;
      r <- enc_entries l' ;;
      Val (enc_str n ++ enc_account_dump ad ++ t ++ r)
  end.

(** [bincode::serialize(&Dump { .. })], state.rs:218-221. *)
Definition serialize (d : dump) : outcome str :=
  es <- enc_entries (d_accounts d) ;;
  Val (enc_u64 (d_version d) ++ enc_u64 (N.of_nat (List.length (d_accounts d))) ++ es).

(** * Decoding: each decoder consumes a prefix; [None] is a decoding error. *)

(** A part of [bincode::deserialize] (state.rs:225). *)
Definition decoder (A : Type) := str -> option (A * str).

(** The decoder that reads nothing (state.rs:225). *)
Definition dret {A} (x : A) : decoder A := fun s => Some (x, s).
(** One decoder after another (state.rs:225). *)
Definition dbind {A B} (d : decoder A) (f : A -> decoder B) : decoder B :=
  fun s => match d s with Some (x, s') => f x s' | None => None end.
Notation "x <~ d ;; k" := (dbind d (fun x => k))
  (at level 61, d at next level, right associativity).

(** bincode (state.rs:225): the number with these bytes. *)
Fixpoint le_val (s : str) : N :=
  match s with
  | [] => 0
  | c :: s' => N_of_ascii c + 256 * le_val s'
  end.

(** bincode: [k] bytes, an error if there are fewer (state.rs:225). *)
Definition dec_bytes (k : nat) : decoder str := fun s =>
  if (k <=? List.length s)%nat then Some (firstn k s, skipn k s) else None.

(** As [enc_u64]. *)
Definition dec_u64 : decoder N := b <~ dec_bytes 8 ;; dret (le_val b).
(** As [enc_u32]. *)
Definition dec_u32 : decoder N := b <~ dec_bytes 4 ;; dret (le_val b).
(** The tag of an [Option]. *)
Definition dec_u8 : decoder N := b <~ dec_bytes 1 ;; dret (le_val b).

(** A length that exceeds what is left cannot be satisfied: every element takes
    at least one byte, so bincode ends in an error as well. (state.rs:225) *)
Definition dec_len : decoder nat := fun s =>
  match dec_u64 s with
  | Some (n, s') =>
      if n <=? N.of_nat (List.length s') then Some (N.to_nat n, s') else None
  | None => None
  end.

(** As [enc_str]; what is not UTF-8 is an error. *)
Definition dec_str : decoder str :=
  k <~ dec_len ;;
  b <~ dec_bytes k ;;
  fun s => if utf8_valid b then Some (b, s) else None.

(** As [enc_opt]; tags other than 0 and 1 are errors. *)
Definition dec_opt {A} (d : decoder A) : decoder (option A) :=
  t <~ dec_u8 ;;
  if t =? 0 then dret None
  else if t =? 1 then (x <~ d ;; dret (Some x))
  else (fun _ => None).

(** [k] elements. *)
Fixpoint dec_n {A} (d : decoder A) (k : nat) : decoder (list A) :=
  match k with
  | O => dret []
  | S k' => x <~ d ;; l <~ dec_n d k' ;; dret (x :: l)
  end.

(** As [enc_list]. *)
Definition dec_list {A} (d : decoder A) : decoder (list A) :=
  k <~ dec_len ;; dec_n d k.

(** As [enc_pair]. *)
Definition dec_pair {A B} (d : decoder A) (e : decoder B) : decoder (A * B) :=
  x <~ d ;; y <~ e ;; dret (x, y).

(** serde: [Duration::new] overflow and [UNIX_EPOCH.checked_add] are errors.
    (state.rs:469-470) *)
Definition dec_time : decoder Z :=
  s <~ dec_u64 ;;
  n <~ dec_u32 ;;
  fun r =>
    let t := (Z.of_N s * nanos + Z.of_N n)%Z in
    if (t <=? time_max)%Z then Some (t, r) else None.

(** [Deserialize for AccountDump] (config.rs:583-592). *)
Definition dec_account_dump : decoder account_dump :=
  au <~ dec_str ;;
  auf <~ dec_list (dec_pair dec_str dec_str) ;;
  ci <~ dec_str ;;
  cs <~ dec_opt dec_str ;;
  ru <~ dec_str ;;
  sc <~ dec_list dec_str ;;
  tu <~ dec_str ;;
  dret (mkAdump au auf ci cs ru sc tu).

(** [Deserialize for TokenStateDump] (state.rs:459-473). *)
Definition dec_tokenstate_dump : decoder tokenstate_dump :=
  t <~ dec_u32 ;;
  if t =? 0 then dret DEmpty
  else if t =? 1 then
    (tok <~ dec_str ;;
     ob <~ dec_time ;;
     ex <~ dec_time ;;
     rt <~ dec_opt dec_str ;;
     dret (DActive tok ob ex rt))
  else (fun _ => None).

(** An entry of the map in [Dump] (state.rs:270). *)
Definition dec_entry : decoder (str * (account_dump * tokenstate_dump)) :=
  n <~ dec_str ;;
  ad <~ dec_account_dump ;;
  ts <~ dec_tokenstate_dump ;;
  dret (n, (ad, ts)).

(** Deserialising a [HashMap]: entries are inserted one by one. (state.rs:270) *)
Definition map_of_list {A} (l : list (str * A)) : list (str * A) :=
  fold_left (fun m kv => map_insert (fst kv) (snd kv) m) l [].

(** [Deserialize for Dump] (state.rs:267-271). *)
Definition dec_dump : decoder dump :=
  v <~ dec_u64 ;;
  l <~ dec_list dec_entry ;;
  dret (mkDump v (map_of_list l)).

(** [bincode::deserialize::<Dump>(&dump)], state.rs:225. *)
Definition deserialize (s : str) : option dump :=
  match dec_dump s with Some (d, _) => Some d | None => None end.
