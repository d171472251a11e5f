(** Specification: what the provider's answer has to look like, without the
    functions with which pizauth reads it. *)
From Verif Require Import Base Json.
Local Open Scope Z_scope.

(** The object [v] has the member [k], with the value [x]; of several with that name the last. *)
Definition member (v : json) (k : str) (x : json) : Prop :=
  exists a b, v = JObj (a ++ (k, x) :: b) /\ ~ In k (map fst b).

(** It hands over the token [tok] for [exs] seconds. *)
Record hands_over (v : json) (tok : str) (exs : Z) : Prop := {
  ho_error : forall m, ~ member v $"error" (JStr m);
  ho_token : member v $"access_token" (JStr tok);
  ho_type : member v $"token_type" (JStr $"Bearer");
  ho_lasts : member v $"expires_in" (JNum exs);
  ho_range : 0 <= exs < 2 ^ 64;
}.
