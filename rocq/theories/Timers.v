(** When things are due: /repo/src/server/refresher.rs:373-431 and
    /repo/src/server/notifier.rs:122-134, 173-191. *)
From Verif Require Import Base Time Config State.
Local Open Scope Z_scope.

(** mod.rs:55 *)
Definition max_wait_secs : Z := 37.

(** refresher.rs:382-414, on an active token: [now] is the clock reading of the
    fallback at refresher.rs:404. *)
Definition refresh_due (act : account) (c : config) (now : Z) (a : active) : option Z :=
  if ongoing a then None
  else
    match (match last_attempt a with
           | Some lra => checked_add lra (act_refresh_retry act c)
           | None => None
           end) with
    | Some t => Some t
    | None =>
        let e := opt_default (Z.min now (expiry a))
                   (checked_sub (expiry a) (act_refresh_before_expiry act c)) in
        match checked_add (obtained a) (act_refresh_at_least act c) with
        | Some t => Some (Z.min e t)
        | None => Some e
        end
    end.

(** refresher.rs:374-417 *)
Definition refresh_at (lk : locked) (now : Z) (i : account_id) : outcome (option Z) :=
  ts <- ct_tokenstate lk i ;;
  match ts with
  | TSActive a =>
      if ongoing a then Val None
      else
        act <- ct_account lk i ;;
        Val (refresh_due act (lconfig lk) now a)
  | _ => Val None
  end.

(** notifier.rs:175-191 *)
Definition notify_at (lk : locked) (now : Z) (i : account_id) : outcome (option Z) :=
  ts <- ct_tokenstate lk i ;;
  match ts with
  | TSPending _ None _ _ => Val (Some now)
  | TSPending _ (Some t) _ _ => Val (checked_add t (c_auth_notify_interval (lconfig lk)))
  | _ => Val None
  end.

(** [act_ids().filter_map(..)], refresher.rs:421-423, notifier.rs:124-126; the clock
    is read for each account. *)
Fixpoint collect_at (f : locked -> Z -> account_id -> outcome (option Z)) (lk : locked)
    (clk : nat -> reads) (j : nat) (ids : list account_id) : outcome (list (option Z)) :=
  match ids with
  | [] => Val []
  | i :: ids' =>
      x <- f lk (ri1 (clk j)) i ;;
      l <- collect_at f lk clk (S j) ids' ;;
      Val (x :: l)
  end.

(** refresher.rs:419-431 and notifier.rs:122-134: [clk 0] is the reading of the
    final [Instant::now], [clk (S j)] belongs to account number [j]. *)
Definition next_wakeup (f : locked -> Z -> account_id -> outcome (option Z)) (lk : locked)
    (clk : nat -> reads) : outcome (option Z) :=
  l <- collect_at f lk clk 1 (act_ids lk) ;;
  Val (match min_some l with
       | None => None
       | Some m =>
           match checked_add (ri1 (clk 0%nat)) (from_secs max_wait_secs) with
           | Some x => Some (Z.min m x)
           | None => Some m
           end
       end).
