(** The command line client: what each sub-command sends to the server
    (/repo/src/user_sender.rs) and what it prints for the reply
    (/repo/src/main.rs:149-411).  The command line itself is in Cli.v, the paths in
    Startup.v. *)
From Verif Require Import Base Utf8 Json Oracles.

(** Sub-commands that talk to the server.  [no_url] is the [-u] flag.
    [CRestore] carries what was read from standard input. (main.rs:150-409) *)
Inductive client_cmd :=
| CDump
| CInfo
| CRefresh (no_url : bool) (account : str)
| CReload
| CRestore (input : str)
| CRevoke (account : str)
| CShow (no_url : bool) (account : str)
| CShutdown
| CStatus.

(** main.rs:234, 372 and user_sender.rs:41, 120 *)
Definition url_word (no_url : bool) : str :=
  if negb no_url then $"withurl" else $"withouturl".

(** The bytes written to the socket: user_sender.rs:16, 30, 45, 66, 86-88, 105,
    124, 148, 158. *)
Definition client_request (c : client_cmd) : str :=
  match c with
  | CDump => $"dump:"
  | CInfo => $"info:"
  | CRefresh u a => $"refresh:" ++ url_word u ++ $" " ++ a
  | CReload => $"reload:"
  | CRestore d => $"restore:" ++ d
  | CRevoke a => $"revoke:" ++ a
  | CShow u a => $"showtoken:" ++ url_word u ++ $" " ++ a
  | CShutdown => $"shutdown:"
  | CStatus => $"status:"
  end.

(** What the user gets: standard output, and the error message if the command
    fails (exit status 1, main.rs:165-167 and so on). *)
Record client_result := mkResult { r_stdout : str; r_error : option str }.

(** [Ok(())], after [println!] maybe (user_sender.rs:132-133, 166-167). *)
Definition ok_with (out : str) : client_result := mkResult out None.
(** [Err(..)], written to the log by main.rs:165, 236, 251, 266, 281, 373, 388, 406. *)
Definition fail_with (msg : str) : client_result := mkResult [] (Some msg).

(** [process::exit(1)] on an error: main.rs:166, 237, 252, 267, 282, 374, 389, 407. *)
Definition exit_code (r : client_result) : N :=
  match r_error r with Some _ => 1 | None => 0 end.

(** user_sender.rs:57, 75, 96, 114, 139, 170. *)
Definition malformed (rtn : str) : client_result :=
  fail_with ($"Malformed response '" ++ rtn ++ $"'").

(** [rtn.splitn(2, ':')] (user_sender.rs:51, 72, 93, 111, 130, 164) *)
Definition split_reply (rtn : str) : option (str * str) := split_first ":"%char rtn.

(** user_sender.rs:53, 136. *)
Definition auth_first (u : str) : str :=
  $"Access token unavailable until authorised with URL " ++ u.

(** [read_to_string] fails on a reply that is not UTF-8.
    (user_sender.rs:35, 50, 71, 92, 110, 129, 163) *)
Definition bad_reply : client_result := fail_with $"stream did not contain valid UTF-8".

(** user_sender.rs:72-76, 93-97, 111-115. *)
Definition parse_simple (rtn : str) : client_result :=
  match split_reply rtn with
  | Some (k, rest) =>
      if str_eqb k $"ok" && str_eqb rest [] then ok_with []
      else if str_eqb k $"error" then fail_with rest
      else malformed rtn
  | None => malformed rtn
  end.

(** user_sender.rs:51-58 *)
Definition parse_refresh (rtn : str) : client_result :=
  match split_reply rtn with
  | Some (k, rest) =>
      if str_eqb k $"pending" then fail_with (auth_first rest)
      else if str_eqb k $"scheduled" && str_eqb rest [] then ok_with []
      else if str_eqb k $"error" then fail_with rest
      else malformed rtn
  | None => malformed rtn
  end.

(** user_sender.rs:130-140 *)
Definition parse_show (rtn : str) : client_result :=
  match split_reply rtn with
  | Some (k, rest) =>
      if str_eqb k $"access_token" then ok_with (rest ++ [nl])
      else if str_eqb k $"pending" then fail_with (auth_first rest)
      else if str_eqb k $"error" then fail_with rest
      else malformed rtn
  | None => malformed rtn
  end.

(** user_sender.rs:164-171 *)
Definition parse_status (rtn : str) : client_result :=
  match split_reply rtn with
  | Some (k, rest) =>
      if str_eqb k $"ok" then ok_with (rest ++ [nl])
      else if str_eqb k $"error" then fail_with rest
      else malformed rtn
  | None => malformed rtn
  end.

(** What the client makes of the bytes it reads back (user_sender.rs:11-172,
    main.rs:150-169, 221-284, 355-409).  What [info] makes of them is below; here
    they are passed on as they came. *)
Definition client_finish (c : client_cmd) (rtn : str) : client_result :=
  match c with
  | CDump => ok_with rtn
  | CShutdown => ok_with []
  | _ =>
      if utf8_valid rtn then
        match c with
        | CRefresh _ _ => parse_refresh rtn
        | CReload | CRestore _ | CRevoke _ => parse_simple rtn
        | CShow _ _ => parse_show rtn
        | CStatus => parse_status rtn
        | _ => ok_with rtn
        end
      else bad_reply
  end.

(** What comes of connecting to the socket: nobody is listening there; the request
    cannot be written; the connection breaks with this error while the request is
    ended or the reply read ([stream.shutdown(Shutdown::Write)?],
    [stream.read_to_string(..)?]); or these bytes are read until the end of the
    stream.  That a reply is not UTF-8 is an error of [read_to_string], too; it is
    in [client_finish].
    (user_sender.rs:13-21, 27-35, 42-50, 63-71, 83-92, 102-110, 121-129, 145-150,
    155-163) *)
Inductive connection :=
| Refused
| Unwritable
| Broken (err : str)
| Replied (rtn : str).

(** user_sender.rs:13-14, 28-29, 43-44, 64-65, 83-84, 103-104, 122-123, 146-147,
    156-157 *)
Definition not_running : client_result :=
  fail_with $"pizauth authenticator not running or not responding".

(** user_sender.rs:15-17, 29-31, 44-46, 65-67, 85-88, 104-106, 123-125, 148-150,
    157-159 *)
Definition not_writeable : client_result := fail_with $"Socket not writeable".

(** [pizauth shutdown] neither ends its request nor reads (user_sender.rs:144-152). *)
Definition client_run (c : client_cmd) (v : connection) : client_result :=
  match v with
  | Refused => not_running
  | Unwritable => not_writeable
  | Broken m => match c with CShutdown => ok_with [] | _ => fail_with m end
  | Replied rtn => client_finish c rtn
  end.

(** * [pizauth info] *)

(** user_sender.rs:25-38; all errors are alike to the caller (main.rs:180). *)
Definition server_info (O : oracles) (v : connection) : option json :=
  match v with
  | Refused | Unwritable | Broken _ => None
  | Replied rtn =>
      if utf8_valid rtn then
        match o_json O rtn with
        | inl j => Some j
        | inr _ => None
        end
      else None
  end.

(** The name pizauth was called by, its version, the cache directory and the
    configuration file (main.rs:181-188). *)
Record info_args := mkInfoArgs { ia_prog : str; ia_version : str; ia_cache : str; ia_config : str }.

(** main.rs:206: without [-j], what is printed first. *)
Definition info_head (a : info_args) : str :=
  ia_prog a ++ $" version " ++ ia_version a ++ $":" ++ [nl]
  ++ $"  cache directory: " ++ ia_cache a ++ [nl] ++ $"  config file: " ++ ia_config a ++ [nl].

(** main.rs:205-219.  What has been printed before a panic is left out. *)
Definition info_text (O : oracles) (a : info_args) (v : connection) : outcome str :=
  match server_info O v with
  | None => Val (info_head a ++ $"server not running" ++ [nl])
  | Some svj =>
      match json_str $"http_port" svj, json_str $"https_port" svj with
      | Some h, Some s =>
          let running := $"server running:" ++ [nl] ++ $"  HTTP port: " ++ h ++ [nl]
                         ++ $"  HTTPS port: " ++ s ++ [nl] in
          match json_get $"https_pub_key" svj with
          | None => Val (info_head a ++ running)
          | Some (JStr k) => Val (info_head a ++ running ++ $"  HTTPS public key: " ++ k ++ [nl])
          | Some _ => Panic
          end
      | _, _ => Panic
      end
  end.

(** main.rs:189-204: with [-j], the JSON value that is printed. *)
Definition info_json (O : oracles) (a : info_args) (v : connection) : json :=
  JObj ([($"cache_directory", JStr (ia_cache a)); ($"config_file", JStr (ia_config a));
         ($"executed_as", JStr (ia_prog a)); ($"info_format_version", JNum 2);
         ($"pizauth_version", JStr (ia_version a))]
        ++ match server_info O v with
           | Some x => [($"server_running", JBool true); ($"server_info", x)]
           | None => [($"server_running", JBool false)]
           end).
