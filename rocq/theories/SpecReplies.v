(** What the client makes of whatever comes back from the socket. *)
From Verif Require Import Base Utf8 Client SpecText.

(** [understood c rtn r]: [rtn] is a reply that the sub-command [c] has a use for, and
    [r] is what the user gets. *)
Inductive understood : client_cmd -> str -> client_result -> Prop :=
| un_token u n t : understood (CShow u n) ($"access_token:" ++ t) (mkResult (t ++ [nl]) None)
| un_show_pending u n url :
    understood (CShow u n) ($"pending:" ++ url)
      (mkResult [] (Some ($"Access token unavailable until authorised with URL " ++ url)))
| un_refresh_pending u n url :
    understood (CRefresh u n) ($"pending:" ++ url)
      (mkResult [] (Some ($"Access token unavailable until authorised with URL " ++ url)))
| un_scheduled u n : understood (CRefresh u n) $"scheduled:" (mkResult [] None)
| un_reloaded : understood CReload $"ok:" (mkResult [] None)
| un_restored d : understood (CRestore d) $"ok:" (mkResult [] None)
| un_revoked n : understood (CRevoke n) $"ok:" (mkResult [] None)
| un_status t : understood CStatus ($"ok:" ++ t) (mkResult (t ++ [nl]) None)
| un_error c m : c <> CDump -> c <> CShutdown -> understood c ($"error:" ++ m) (mkResult [] (Some m)).

(** All but [pizauth dump], which passes on what it gets, [pizauth shutdown], which
    waits for no reply, and [pizauth info], which is content without a server. *)
Definition reads_reply (c : client_cmd) : Prop := c <> CDump /\ c <> CShutdown /\ c <> CInfo.

Inductive makes (c : client_cmd) (rtn : str) : client_result -> Prop :=
| mk_not_text : ~ utf8 rtn -> makes c rtn (mkResult [] (Some $"stream did not contain valid UTF-8"))
| mk_understood r : utf8 rtn -> understood c rtn r -> makes c rtn r
| mk_malformed :
    utf8 rtn -> (forall r, ~ understood c rtn r) ->
    makes c rtn (mkResult [] (Some ($"Malformed response '" ++ rtn ++ $"'"))).
