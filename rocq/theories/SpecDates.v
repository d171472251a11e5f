(** Specification: the dates [pizauth status] shows. *)
From Verif Require Import Base Time Oracles Config State Server.
Local Open Scope Z_scope.

(** Whoever serves the request sees the clocks run in step: what the clock on
    the wall shows is always [off] more than what the stopwatch shows. *)
Definition in_step (e : env) (off : Z) : Prop :=
  forall k, time_ok (rs1 (e_clk e k)) /\ rs1 (e_clk e k) = ri1 (e_clk e k) + off.

(** The date of the instant [i], as users see it. *)
Definition dated (O : oracles) (off i : Z) (txt : str) : Prop :=
  if (time_min <=? i + off) && (i + off <=? time_max) then o_fmt_time O (i + off) = Some txt else txt = $"<unknown time>".

(** What users are told of an account in state [ts] at time [now]. *)
Definition told (O : oracles) (off now : Z) (ts : tokenstate) (txt : str) : Prop :=
  match ts with
  | TSEmpty => txt = $"No access token"
  | TSPending _ None _ _ => txt = $"Access token pending authentication"
  | TSPending _ (Some i) _ _ =>
      exists d, dated O off i d /\ txt = $"Access token pending authentication (last notification " ++ d ++ $")"
  | TSActive a =>
      if now <? expiry a then
        exists d1 d2, dated O off (obtained a) d1 /\ dated O off (expiry a) d2
          /\ txt = $"Active access token (obtained " ++ d1 ++ $"; expires " ++ d2 ++ $")"
      else match last_attempt a with
           | Some i => exists d, dated O off i d /\ txt = $"Access token expired (last refresh attempt " ++ d ++ $")"
           | None => txt = $"Access token expired (refresh not yet attempted)"
           end
  end.

(** All readings of the clock fall on the same side of the expiry. *)
Definition same_side (e1 e2 : env) (ts : tokenstate) : Prop :=
  match ts with
  | TSActive a =>
      (forall k, ri1 (e_clk e1 k) < expiry a /\ ri1 (e_clk e2 k) < expiry a)
      \/ (forall k, expiry a <= ri1 (e_clk e1 k) /\ expiry a <= ri1 (e_clk e2 k))
  | _ => True
  end.
