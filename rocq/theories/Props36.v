(** C18 and C23: what an answer of the provider has to look like. *)
From Verif Require Import Base Time Utf8 Url Json Oracles Config Dump State Http Timers Server SpecServer SpecAnswer AnswerLemmas.
Local Open Scope Z_scope.

(** The answers that hand over a token in the theorems about authorisations and
    refreshes, in terms of the members of the JSON object: a string [access_token], a
    [token_type] of Bearer, and [expires_in], an integer that is not negative and fits in
    64 bits; no string [error].  Nothing else in it matters, and of members with
    the same name the last counts. *)
Theorem C18_answer_means v tok exs : grants v tok exs <-> hands_over v tok exs.
Proof. exact (grants_iff v tok exs). Qed.
Print Assumptions C18_answer_means.

(** The same for the parts of an answer to a refresh. *)
Theorem C23_answer_means v k :
  (forall x, json_get k v = Some x <-> member v k x)
  /\ (forall s, json_str k v = Some s <-> member v k (JStr s))
  /\ (forall n, json_u64 k v = Some n <-> member v k (JNum n) /\ 0 <= n < 2 ^ 64).
Proof. exact (conj (fun x => get_member k v x) (conj (fun s => str_member k v s) (fun n => u64_member k v n))). Qed.
Print Assumptions C23_answer_means.

(** One that does, with a repeated member; and some that do not. *)
Definition answer_with (lasts : json) : json :=
  JObj [($"expires_in", JNum 1); ($"access_token", JStr $"tok"); ($"error", JNull); ($"expires_in", lasts);
        ($"token_type", JStr $"Bearer"); ($"scope", JArr [])].

Example C18_case_answer :
  hands_over (answer_with (JNum 3600)) $"tok" 3600
  /\ (forall tok exs, ~ hands_over (answer_with (JNum (-1))) tok exs)
  /\ (forall tok exs, ~ hands_over (answer_with (JNum (2 ^ 64))) tok exs)
  /\ (forall tok exs, ~ hands_over (answer_with (JStr $"3600")) tok exs)
  /\ (forall tok exs, ~ hands_over (answer_with JFloat) tok exs).
Proof.
  split; [apply C18_answer_means; repeat split|].
  repeat split; intros tok exs H; apply C18_answer_means in H as (_ & _ & _ & H); discriminate H.
Qed.
