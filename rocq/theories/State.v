(** Central state: /repo/src/server/state.rs. *)
From Verif Require Import Base Time Url Oracles Config Dump.
Local Open Scope Z_scope.

(** One round of clock readings: two of [Instant::now], two of
    [SystemTime::now], in the order taken. (state.rs:476-543) *)
Record reads := mkReads { ri1 : Z; ri2 : Z; rs1 : Z; rs2 : Z }.

(** [AccountId]: the code's [u128] counter is unbounded here (state.rs:407-415
    argues that it cannot wrap; C67 proves it). *)
Definition account_id := N.

(** state.rs:438-456 *)
Record active := mkActive {
  access_token : str;
  obtained : Z;
  expiry : Z;
  refresh_token : option str;
  ongoing : bool;
  fails : N;
  last_attempt : option Z;
}.

(** state.rs:427-457.  [fails] is unbounded where the code has a [u64]. *)
Inductive tokenstate :=
| TSEmpty
| TSPending (code_verifier : str) (last_notification : option Z) (state : str) (u : url)
| TSActive (a : active).

(** An element of [details], state.rs:154. *)
Record entry := mkEntry { d_name : str; d_id : account_id; d_ts : tokenstate }.

(** state.rs:151-155 *)
Record locked := mkLocked {
  account_count : N;
  lconfig : config;
  details : list entry;
}.

(** state.rs:158-173: ids counted up in the iteration order of the accounts. *)
Fixpoint new_details (names : list str) (next : N) : list entry :=
  match names with
  | [] => []
  | n :: names' => mkEntry n next TSEmpty :: new_details names' (N.succ next)
  end.

(** state.rs:158-173. *)
Definition locked_new (c : config) : locked :=
  let names := keys (c_accounts c) in
  mkLocked (N.of_nat (List.length names)) c (new_details names 0).

(** state.rs:184-187, 294-298. *)
Definition find_name (n : str) (ds : list entry) : option entry :=
  find (fun e => str_eqb (d_name e) n) ds.

(** state.rs:327-331, 343-347. *)
Definition find_id (i : account_id) (ds : list entry) : option entry :=
  find (fun e => N.eqb (d_id e) i) ds.

(** state.rs:178-203: the new details and the new account count. *)
Fixpoint update_details (old : locked) (new : config) (names : list str) (count : N)
    : outcome (list entry * N) :=
  match names with
  | [] => Val ([], count)
  | n :: names' =>
      match lookup n (c_accounts (lconfig old)) with
      | Some old_act =>
          new_act <- unwrap (lookup n (c_accounts new)) ;;
          if secure_eq new_act old_act then
            e <- unwrap (find_name n (details old)) ;;
            '(l, count') <- update_details old new names' count ;;
            Val (e :: l, count')
          else
            '(l, count') <- update_details old new names' (N.succ count) ;;
            Val (mkEntry n count TSEmpty :: l, count')
      | None =>
          '(l, count') <- update_details old new names' (N.succ count) ;;
          Val (mkEntry n count TSEmpty :: l, count')
      end
  end.

(** state.rs:175-207 *)
Definition update_conf (lk : locked) (c : config) : outcome locked :=
  '(ds, count) <- update_details lk c (keys (c_accounts c)) (account_count lk) ;;
  Val (mkLocked count c ds).

(** * Dump (state.rs:209-222, 476-509) *)

(** state.rs:477-489 *)
Definition dump_instant (r : reads) (i : Z) : Z :=
  let t := match duration_since i (ri1 r) with
           | Some d => checked_add (rs1 r) d
           | None =>
               match duration_since (ri2 r) i with
               | Some d => checked_sub (rs1 r) d
               | None => None
               end
           end in
  opt_default (rs2 r) t.

(** state.rs:476-509; the two rounds of clock readings of one token. *)
Definition tokenstate_dump_of (r1 r2 : reads) (ts : tokenstate) : tokenstate_dump :=
  match ts with
  | TSEmpty => DEmpty
  | TSPending _ _ _ _ => DEmpty
  | TSActive a =>
      DActive (access_token a) (dump_instant r1 (obtained a)) (dump_instant r2 (expiry a))
        (refresh_token a)
  end.

(** state.rs:210-216; entry number [i] uses rounds [2i] and [2i+1]. *)
Fixpoint dump_entries (c : config) (clk : nat -> reads) (i : nat) (ds : list entry)
    : outcome (list (str * (account_dump * tokenstate_dump))) :=
  match ds with
  | [] => Val []
  | e :: ds' =>
      act <- unwrap (lookup (d_name e) (c_accounts c)) ;;
      l <- dump_entries c clk (S i) ds' ;;
      Val ((d_name e, (account_dump_of act,
                       tokenstate_dump_of (clk (2 * i)%nat) (clk (2 * i + 1)%nat) (d_ts e))) :: l)
  end.

(** state.rs:209-222; [h] fixes the iteration order of the dumped map. *)
Definition locked_dump (lk : locked) (clk : nat -> reads) (h : str -> N) : outcome str :=
  l <- dump_entries (lconfig lk) clk 0 (details lk) ;;
  serialize (mkDump dump_version (hsort (fun p => h (fst p)) l)).

(** * Restore (state.rs:224-264, 511-543) *)

(** state.rs:512-524 *)
Definition restore_instant (r : reads) (t : Z) : Z :=
  let i := match duration_since t (rs1 r) with
           | Some d => checked_add (ri1 r) d
           | None =>
               match duration_since (rs2 r) t with
               | Some d => checked_sub (ri1 r) d
               | None => None
               end
           end in
  opt_default (ri2 r) i.

(** state.rs:511-543 *)
Definition tokenstate_restore (r1 r2 : reads) (d : tokenstate_dump) : tokenstate :=
  match d with
  | DEmpty => TSEmpty
  | DActive tok ob ex rt =>
      TSActive (mkActive tok (restore_instant r1 ob) (restore_instant r2 ex) rt false 0 None)
  end.

(** state.rs:230-251: which accounts to restore, and to what. *)
Fixpoint restore_candidates (c : config) (d : dump) (clk : nat -> reads) (i : nat)
    (ds : list entry) : outcome (list (str * tokenstate)) :=
  match ds with
  | [] => Val []
  | e :: ds' =>
      act <- unwrap (lookup (d_name e) (c_accounts c)) ;;
      l <- restore_candidates c d clk (S i) ds' ;;
      match lookup (d_name e) (d_accounts d) with
      | Some (act_dump, ts_dump) =>
          if secure_restorable act act_dump then
            match d_ts e, tokenstate_restore (clk (2 * i)%nat) (clk (2 * i + 1)%nat) ts_dump with
            | (TSEmpty | TSPending _ _ _ _), (TSEmpty | TSPending _ _ _ _) => Val l
            | (TSEmpty | TSPending _ _ _ _), (TSActive _ as new_ts) => Val ((d_name e, new_ts) :: l)
            | TSActive _, _ => Val l
            end
          else Val l
      | None => Val l
      end
  end.

(** First entry satisfying [p], changed by [f]; [None] if there is none
    ([position(..).unwrap()] in the code). (state.rs:254-260, 362-378, 394-402) *)
Fixpoint update_first (p : entry -> bool) (f : entry -> entry) (ds : list entry)
    : option (list entry) :=
  match ds with
  | [] => None
  | e :: ds' =>
      if p e then Some (f e :: ds')
      else match update_first p f ds' with
           | Some l => Some (e :: l)
           | None => None
           end
  end.

(** state.rs:253-261 *)
Fixpoint restore_apply (rs : list (str * tokenstate)) (ds : list entry) (count : N)
    : outcome (list entry * N) :=
  match rs with
  | [] => Val (ds, count)
  | (n, ts) :: rs' =>
      ds' <- unwrap (update_first (fun e => str_eqb (d_name e) n)
                       (fun e => mkEntry (d_name e) count ts) ds) ;;
      restore_apply rs' ds' (N.succ count)
  end.

(** state.rs:224-264; [Err] leaves the state as it was. *)
Definition locked_restore (lk : locked) (bytes : str) (clk : nat -> reads) (h : str -> N)
    : outcome locked :=
  d <- ok_or $"invalid dump" (deserialize bytes) ;;
  if negb (N.eqb (d_version d) dump_version) then Err $"Unknown dump version"
  else
    rs <- restore_candidates (lconfig lk) d clk 0 (details lk) ;;
    '(ds, count) <- restore_apply (hsort (fun p => h (fst p)) rs) (details lk) (account_count lk) ;;
    Val (mkLocked count (lconfig lk) ds).

(** * CTGuard (state.rs:283-405) *)

(** state.rs:293-299 *)
Definition validate_act_name (lk : locked) (n : str) : option account_id :=
  option_map d_id (find_name n (details lk)).

(** state.rs:302-304 *)
Definition is_act_id_valid (lk : locked) (i : account_id) : bool :=
  existsb (fun e => N.eqb (d_id e) i) (details lk).

(** state.rs:307-309 *)
Definition act_ids (lk : locked) : list account_id := map d_id (details lk).

(** state.rs:312-318 *)
Definition act_id_matching_token_state (lk : locked) (st : str) : option account_id :=
  option_map d_id
    (find (fun e => match d_ts e with
                    | TSPending _ _ s _ => str_eqb s st
                    | _ => false
                    end) (details lk)).

(** state.rs:325-334 *)
Definition ct_account (lk : locked) (i : account_id) : outcome account :=
  e <- unwrap (find_id i (details lk)) ;;
  unwrap (lookup (d_name e) (c_accounts (lconfig lk))).

(** state.rs:342-349 *)
Definition ct_tokenstate (lk : locked) (i : account_id) : outcome tokenstate :=
  e <- unwrap (find_id i (details lk)) ;;
  Val (d_ts e).

(** state.rs:389-404 (and [AccountId::new], state.rs:417-425) *)
Definition tokenstate_replace (lk : locked) (i : account_id) (ts : tokenstate)
    : outcome (locked * account_id) :=
  let new_id := account_count lk in
  ds <- unwrap (update_first (fun e => N.eqb (d_id e) i)
                  (fun e => mkEntry (d_name e) new_id ts) (details lk)) ;;
  Val (mkLocked (N.succ new_id) (lconfig lk) ds, new_id).

(** state.rs:357-381 *)
Definition tokenstate_set_ongoing_refresh (lk : locked) (i : account_id) (b : bool)
    : outcome (locked * account_id) :=
  e <- unwrap (find_id i (details lk)) ;;
  match d_ts e with
  | TSActive a =>
      tokenstate_replace lk i
        (TSActive (mkActive (access_token a) (obtained a) (expiry a) (refresh_token a) b
                     (fails a) (last_attempt a)))
  | _ => Panic
  end.

(** * AuthenticatorState (state.rs:106-144) *)

(** state.rs:36 *)
Definition nonce_len : nat := 12.

(** state.rs:106-125 *)
Definition auth_dump (O : oracles) (lk : locked) (clk : nat -> reads) (h : str -> N)
    (nonce : str) : outcome str :=
  d <- locked_dump lk clk h ;;
  c <- ok_or $"Creating dump failed." (o_encrypt O nonce d) ;;
  Val (nonce ++ c).

(** state.rs:127-144.  Note that the [Result] of the inner [restore] is bound
    to a variable and dropped (state.rs:139-140): the reply is [Ok] even if the
    dump could not be decoded.  [Val lk'] means [Ok(())]. *)
Definition auth_restore (O : oracles) (lk : locked) (bytes : str) (clk : nat -> reads)
    (h : str -> N) : outcome locked :=
  if (List.length bytes <? nonce_len)%nat then Err $"Input too short"
  else
    match o_decrypt O (firstn nonce_len bytes) (skipn nonce_len bytes) with
    | None => Err $"Restoring dump failed"
    | Some d =>
        match locked_restore lk d clk h with
        | Val lk' => Val lk'
        | Err _ => Val lk
        | Panic => Panic
        end
    end.

(** /repo/src/server/mod.rs:65-77 *)
Definition expiry_instant (lk : locked) (i : account_id) (refreshed_at expires_in : Z)
    : outcome Z :=
  match checked_add refreshed_at (from_secs expires_in) with
  | Some t => Val t
  | None =>
      act <- ct_account lk i ;;
      ok_or $"Can't represent expiry"
        (checked_add refreshed_at (act_refresh_at_least act (lconfig lk)))
  end.
