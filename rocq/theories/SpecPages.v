(** What the browser is shown. *)
From Verif Require Import Base Url Json Oracles Config State Http Server SpecHttp SpecServer.

Definition end_of_line : str := [cr; nl].

(** A response without header fields. *)
Definition response (status body : str) : str := $"HTTP/1.1 " ++ status ++ end_of_line ++ end_of_line ++ body.

Definition bad_request : str := response $"400" [].
Definition not_found : str := response $"404" [].
Definition page (text : str) : str := response $"200 OK" ($"<html><body><h2>" ++ text ++ $"</h2></body></html>").
Definition page_unknown : str := page $"No pending token matches request state: request a fresh token".
Definition page_processing : str := page $"pizauth processing authentication: you can safely close this page.".

(** What the browser is shown for the request [bytes], depending on what the
    server waits for. *)
Inductive shown_page (O : oracles) (w : world) (https : bool) (bytes : str) : str -> Prop :=
| sh_unreadable : (forall u, ~ get_request O https bytes u) -> shown_page O w https bytes bad_request
| sh_no_state u :
    get_request O https bytes u -> lookup $"state" (query_pairs u) = None -> shown_page O w https bytes not_found
| sh_unknown u st :
    get_request O https bytes u -> lookup $"state" (query_pairs u) = Some st -> (forall n, ~ awaits w n st) ->
    shown_page O w https bytes page_unknown
| sh_elsewhere u st n act ru :
    get_request O https bytes u -> lookup $"state" (query_pairs u) = Some st -> awaits w n st ->
    configured w n act -> account_redirect_uri O act (w_http w) (w_https w) = Val ru -> ~ same_origin ru u ->
    shown_page O w https bytes not_found
| sh_refused u st n act ru reason :
    get_request O https bytes u -> lookup $"state" (query_pairs u) = Some st -> awaits w n st ->
    configured w n act -> account_redirect_uri O act (w_http w) (w_https w) = Val ru -> same_origin ru u ->
    lookup $"error" (query_pairs u) = Some reason -> shown_page O w https bytes bad_request
| sh_useless u st n act ru :
    get_request O https bytes u -> lookup $"state" (query_pairs u) = Some st -> awaits w n st ->
    configured w n act -> account_redirect_uri O act (w_http w) (w_https w) = Val ru -> same_origin ru u ->
    lookup $"error" (query_pairs u) = None -> lookup $"code" (query_pairs u) = None ->
    shown_page O w https bytes bad_request
| sh_code u st n act ru code :
    get_request O https bytes u -> lookup $"state" (query_pairs u) = Some st -> awaits w n st ->
    configured w n act -> account_redirect_uri O act (w_http w) (w_https w) = Val ru -> same_origin ru u ->
    lookup $"error" (query_pairs u) = None -> lookup $"code" (query_pairs u) = Some code ->
    shown_page O w https bytes page_processing.

(** RFC 9112, sections 2.1 and 4:
      status-line = HTTP-version SP status-code SP [ reason-phrase ] CRLF
      HTTP-message = start-line CRLF *( field-line CRLF ) CRLF [ message-body ]  *)
Definition no_breaks (s : str) : Prop := ~ In cr s /\ ~ In nl s.

Definition status_line (l : str) : Prop :=
  exists a b c reason, l = $"HTTP/1.1 " ++ [a; b; c] ++ $" " ++ reason
    /\ Forall (fun x => In x $"0123456789") [a; b; c] /\ no_breaks reason.

Definition field_line (l : str) : Prop :=
  exists name value, l = name ++ $":" ++ value /\ name <> [] /\ ~ In ":"%char name /\ no_breaks (name ++ value).

Definition http_response (s : str) : Prop :=
  exists l fs body, s = l ++ end_of_line ++ List.concat (map (fun f => f ++ end_of_line) fs) ++ end_of_line ++ body
    /\ status_line l /\ Forall field_line fs.
