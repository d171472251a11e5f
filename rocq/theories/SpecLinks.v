(** Specification: what an authorisation URL has to be.  Independent of
    request_token.rs; queries are read with a decoder. *)
From Verif Require Import Base Utf8 Base64 Url UrlLemmas Oracles Config SpecConfig.
Local Open Scope N_scope.

(** [s] with letters of any case is [p] in lower case, then more. *)
Definition begins_with (p s : str) : Prop := exists r, map ascii_lower s = p ++ r.

(** The port the browser is sent back to: the HTTPS server's for https
    redirects if there is such a server, else the HTTP server's. *)
Definition return_port (redirect : str) (http https : option N) (p : option N) : Prop :=
  (begins_with $"https" redirect /\ https <> None /\ p = https)
  \/ (~ (begins_with $"https" redirect /\ https <> None) /\ p = http).

(** How a port is written in a URL: not at all if it is the scheme's own. *)
Definition written_port (scheme : str) (p p' : option N) : Prop :=
  (p' = None /\ (scheme = $"http" /\ p = Some 80 \/ scheme = $"https" /\ p = Some 443))
  \/ (p' = p /\ ~ (scheme = $"http" /\ p = Some 80 \/ scheme = $"https" /\ p = Some 443)).

(** The redirect URI sent for account [act]: as configured, except for the port. *)
Definition redirect_link (O : oracles) (act : account) (http https : option N) (r : url) : Prop :=
  exists conf p,
    o_url_parse O (a_redirect_uri act) = Some conf
    /\ return_port (a_redirect_uri act) http https p
    /\ u_scheme r = u_scheme conf /\ u_user r = u_user conf /\ u_host r = u_host conf
    /\ written_port (u_scheme conf) p (u_port r)
    /\ u_path r = u_path conf /\ u_query r = u_query conf /\ u_frag r = u_frag conf.

(** Scopes, separated by spaces, in one parameter; none if there are none. *)
Definition scope_params (l : list str) : list (str * str) :=
  match l with
  | [] => []
  | s :: r => [($"scope", s ++ flat_map (fun x => $" " ++ x) r)]
  end.

(** [u] is an authorisation URL for [act] with code verifier [cvr] and state [st]. *)
Definition auth_link (O : oracles) (act : account) (http https : option N) (cvr st : str) (u : url) : Prop :=
  exists conf r,
    o_url_parse O (a_auth_uri act) = Some conf
    /\ redirect_link O act http https r
    /\ u_scheme u = u_scheme conf /\ u_user u = u_user conf /\ u_host u = u_host conf
    /\ u_port u = u_port conf /\ u_path u = u_path conf /\ u_frag u = u_frag conf
    /\ raw_pairs u
       = raw_pairs conf
         ++ [($"access_type", $"offline");
             ($"code_challenge", b64_encode (o_sha256 O cvr));
             ($"code_challenge_method", $"S256");
             ($"client_id", a_client_id act);
             ($"redirect_uri", url_to_str r);
             ($"response_type", $"code");
             ($"state", st)]
         ++ scope_params (a_scopes act)
         ++ a_auth_uri_fields act.

(** RFC 3986, section 3 and appendix B: how the text of a URL is taken apart,
      scheme "://" authority path [ "?" query ] [ "#" fragment ]  *)
Definition without (bad s : str) : Prop := forall c, In c s -> ~ In c bad.

Definition after_mark (mark : ascii) (part : option str) (s : str) : Prop :=
  match part with None => s = [] | Some x => s = mark :: x end.

Definition url_text (s sch auth path : str) (query frag : option str) : Prop :=
  exists qt ft,
    s = sch ++ $"://" ++ auth ++ path ++ qt ++ ft
    /\ after_mark "?"%char query qt /\ after_mark "#"%char frag ft
    /\ without $":/?#" sch /\ without $"/?#" auth
    /\ (path = [] \/ exists p, path = "/"%char :: p) /\ without $"?#" path
    /\ (forall x, query = Some x -> without $"#" x).

(** The authority: who, where and, unless it is the scheme's own, at which port,
    in decimal. *)
Definition authority (u : url) (a : str) : Prop :=
  exists port, a = u_user u ++ (match u_host u with Some h => h | None => [] end) ++ port
    /\ match u_port u with
       | None => port = []
       | Some n => exists d, port = ":"%char :: d /\ d <> [] /\ decimal d (Z.of_N n)
       end.

(** A law of the URL library: the parts of http and https URLs do not contain the marks
    that end them. *)
Definition tidy (u : url) : Prop :=
  without $"/?#" (u_user u) /\ (forall h, u_host u = Some h -> without $"/?#" h)
  /\ (exists p, u_path u = "/"%char :: p) /\ without $"?#" (u_path u)
  /\ (forall x, u_query u = Some x -> without $"#" x).

Definition url_parts (O : oracles) : Prop :=
  forall s u, o_url_parse O s = Some u -> u_scheme u = $"http" \/ u_scheme u = $"https" -> tidy u.
