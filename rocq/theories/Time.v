(** Time points and durations.

    [Instant] (crate boot_time, a copy of std's Unix implementation) and
    [SystemTime] are nanosecond counts in [Z] whose seconds part is an [i64];
    [Duration] is a non-negative nanosecond count whose seconds part is a [u64].
    Used all over /repo/src/server (e.g. state.rs:476-543,
    refresher.rs:374-431, notifier.rs:122-191, mod.rs:65-77). *)
From Verif Require Import Base.
Local Open Scope Z_scope.

(** Nanoseconds in a second. *)
Definition nanos : Z := 1000000000.
(** One more than [i64::MAX]. *)
Definition two63 : Z := 9223372036854775808.
(** One more than [u64::MAX] (mod.rs:69, config.rs:607-611). *)
Definition two64 : Z := 18446744073709551616.

(** The earliest [Instant] or [SystemTime] ([i64] seconds); the limit of
    refresher.rs:403, state.rs:476-543. *)
Definition time_min : Z := - two63 * nanos.
(** The last one; the limit of mod.rs:72-74, refresher.rs:397, 409, 426,
    notifier.rs:129, 185. *)
Definition time_max : Z := two63 * nanos - 1.

(** A value a clock can show / a field of type [Instant] can hold.
    (state.rs:442-455) *)
Definition time_ok (t : Z) : Prop := time_min <= t <= time_max.

(** [Duration::from_secs] (mod.rs:72, config.rs:615, refresher.rs:426) *)
Definition from_secs (s : Z) : Z := s * nanos.

(** [Instant::checked_add] / [SystemTime::checked_add].
    (mod.rs:72-74, 316, refresher.rs:397, 409, 426, notifier.rs:70, 129, 185) *)
Definition checked_add (t d : Z) : option Z :=
  if t + d <=? time_max then Some (t + d) else None.

(** [Instant::checked_sub] / [SystemTime::checked_sub].
    (refresher.rs:403, mod.rs:310) *)
Definition checked_sub (t d : Z) : option Z :=
  if time_min <=? t - d then Some (t - d) else None.

(** [t.checked_duration_since(u)] and [t.duration_since(u).ok()].
    (refresher.rs:452, notifier.rs:39, mod.rs:309, 315) *)
Definition duration_since (t u : Z) : option Z :=
  if u <=? t then Some (t - u) else None.

(** For the next one. (refresher.rs:424) *)
Definition opt_min (a : option Z) (b : Z) : Z :=
  match a with None => b | Some x => Z.min x b end.

(** [iter.min()] over the [Some] values of a list.
    (refresher.rs:423-424, notifier.rs:126-127) *)
Fixpoint min_some (l : list (option Z)) : option Z :=
  match l with
  | [] => None
  | None :: l' => min_some l'
  | Some x :: l' => Some (opt_min (min_some l') x)
  end.
