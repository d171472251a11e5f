(** Specification: what is wrong with a configuration file, where, and how a
    report names the place.  Independent of the spans of Located.v and of
    config.rs's way of collecting fields. *)
From Verif Require Import Base Url Oracles ConfigLex ConfigParse Config SpecConfig SpecGrammar SpecLex SpecBlocks.
Local Open Scope list_scope.

(** * Places *)

(** The next lexeme of [s]: its text, what becomes of it, what follows it. *)
Definition next_lexeme (s text : str) (t : option token) (rest : str) : Prop :=
  s = text ++ rest /\ text <> []
  /\ exists before r after,
       lex_rules = before ++ r :: after /\ lr_match r text rest
       /\ (forall r' text' rest', In r' lex_rules -> text' ++ rest' = s -> lr_match r' text' rest' ->
             List.length text' <= List.length text)
       /\ (forall r', In r' before -> ~ lr_match r' text rest)
       /\ t = lr_token r text.

(** Reading tokens off the beginning of [s] leaves [rest]. *)
Inductive lexes_to : str -> list token -> str -> Prop :=
| lto_here s : lexes_to s [] s
| lto_token s text t rest ts rest' :
    next_lexeme s text (Some t) rest -> lexes_to rest ts rest' -> lexes_to s (t :: ts) rest'
| lto_blank s text rest ts rest' :
    next_lexeme s text None rest -> lexes_to rest ts rest' -> lexes_to s ts rest'.

(** Token number [i] of [s], counted from 0, begins at byte [off]. *)
Definition token_begins (s : str) (i off : nat) : Prop :=
  exists ts rest text t rest',
    lexes_to s ts rest /\ List.length ts = i /\ next_lexeme rest text (Some t) rest'
    /\ off + List.length rest = List.length s.

(** * Reports *)

(** Whitespace characters: code points with the property White_Space, in UTF-8. *)
Definition space_chars : list str :=
  [$" "; [chr 9]; [chr 10]; [chr 11]; [chr 12]; [chr 13]; [chr 194; chr 133]; [chr 194; chr 160];
   [chr 225; chr 154; chr 128]; [chr 226; chr 128; chr 168]; [chr 226; chr 128; chr 169];
   [chr 226; chr 128; chr 175]; [chr 226; chr 129; chr 159]; [chr 227; chr 128; chr 128]]
  ++ map (fun k => [chr 226; chr 128; chr (128 + N.of_nat k)]) (seq 0 11).

Definition white (s : str) : Prop := exists l, Forall (fun w => In w space_chars) l /\ s = List.concat l.

(** [t] is [s] without the whitespace at either end. *)
Definition trimmed (s t : str) : Prop :=
  (exists a b, white a /\ white b /\ s = a ++ t ++ b)
  /\ forall w r, In w space_chars -> t <> w ++ r /\ t <> r ++ w.

(** The number of characters of a text: bytes that do not continue one. *)
Definition chars (s : str) : nat :=
  List.length (filter (fun c => negb ((128 <=? N_of_ascii c) && (N_of_ascii c <? 192))%N) s).

(** [report] names the line and the column of byte [off] of [s], quotes the
    line and gives the reason. *)
Definition reported_at (s : str) (off : nat) (reason report : str) : Prop :=
  exists above left right below code,
    s = above ++ left ++ right ++ below
    /\ (above = [] \/ exists a, above = a ++ [nl])
    /\ ~ In nl left /\ ~ In nl right
    /\ (below = [] \/ exists b, below = nl :: b)
    /\ List.length (above ++ left) = off
    /\ trimmed (left ++ right) code
    /\ exists line col,
         decimal line (Z.of_nat (1 + count_occ ascii_dec above nl))
         /\ decimal col (Z.of_nat (1 + chars left))
         /\ report = $"Line " ++ line ++ $", column " ++ col ++ $":" ++ [nl] ++ $"  " ++ code ++ [nl] ++ reason.

(** * What can be wrong *)

Definition repeated (name : str) : str := $"Mustn't specify '" ++ name ++ $"' more than once".

Definition uri_of (f : field) : option str :=
  match f with FAuthUri s | FRedirectUri s | FTokenUri s => Some s | _ => None end.

Definition time_of (f : field) : option str :=
  match f with FRefreshAtLeast t | FRefreshBeforeExpiry t | FRefreshRetry t => Some t | _ => None end.

(** A field, given those before it in its block. *)
Inductive field_fault (O : oracles) (before : list field) (f : field) : str -> Prop :=
| ff_repeated : In (field_name f) (map field_name before) -> field_fault O before f (repeated (field_name f))
| ff_no_uri v :
    ~ In (field_name f) (map field_name before) -> uri_of f = Some (quote_string v) ->
    o_url_parse O v = None -> field_fault O before f $"Invalid URI"
| ff_other_uri v u :
    ~ In (field_name f) (map field_name before) -> uri_of f = Some (quote_string v) ->
    o_url_parse O v = Some u -> u_scheme u <> $"http" -> u_scheme u <> $"https" ->
    field_fault O before f $"not a valid HTTP or HTTPS URI".

(** A time that does not fit. *)
Definition too_long (t : str) : Prop := ~ exists d, time_value t d.

Definition field_fine (O : oracles) (before : list field) (f : field) : Prop :=
  ~ In (field_name f) (map field_name before)
  /\ (forall s, uri_of f = Some s -> exists v, s = quote_string v /\ http_uri O v)
  /\ (forall t, time_of f = Some t -> ~ too_long t).

Definition fields_fine (O : oracles) (fs : list field) : Prop :=
  forall before f after, fs = before ++ f :: after -> field_fine O before f.

(** A block whose fields are fine. *)
Inductive block_fault (fs : list field) : str -> Prop :=
| bf_missing names1 name names2 :
    [$"auth_uri"; $"client_id"; $"token_uri"] = names1 ++ name :: names2 ->
    (forall n, In n names1 -> In n (map field_name fs)) -> ~ In name (map field_name fs) ->
    block_fault fs (name ++ $" not specified")
| bf_clash :
    (forall n, In n [$"auth_uri"; $"client_id"; $"token_uri"] -> In n (map field_name fs)) ->
    (exists s, In (FLoginHint s) fs) ->
    (exists l v, In (FAuthUriFields l) fs /\ In (quote_string $"login_hint", v) l) ->
    block_fault fs
      $"Both the 'login_hint' attribute and a 'auth_uri_fields' field with the name 'login_hint' are specified. The 'login_hint' attribute is deprecated so remove it.".

Definition top_time (t : toplevel) : option str :=
  match t with
  | TLAuthNotifyInterval s | TLRefreshAtLeast s | TLRefreshBeforeExpiry s | TLRefreshRetry s => Some s
  | _ => None
  end.

(** An item, given those before it. *)
Definition top_fine (O : oracles) (before : list toplevel) (t : toplevel) : Prop :=
  t <> TLAuthErrorCmd
  /\ (forall n, In n (option_names t) -> ~ In n (flat_map option_names before))
  /\ (forall s, top_time t = Some s -> ~ too_long s)
  /\ (forall n fs, t = TLAccount n fs -> fields_fine O fs /\ ~ exists reason, block_fault fs reason).

Definition tops_fine (O : oracles) (ts : list toplevel) : Prop :=
  forall before t after, ts = before ++ t :: after -> top_fine O before t.

(** Which token of a field or an option is pointed at: the value, or the keyword
    in front of a list. *)
Definition value_token (f : field) : nat :=
  match f with FAuthUriFields _ | FScopes _ => 0 | _ => 2 end.

(** The first thing wrong in the tokens of a file, the number of the token to
    point at and the reason to give. *)
Inductive fault (O : oracles) (toks : list token) : nat -> str -> Prop :=
| f_renamed tb before tx ta after :
    toks = tb ++ tx ++ ta -> g_toplevels tb before -> g_toplevel tx TLAuthErrorCmd -> g_toplevels ta after ->
    tops_fine O before ->
    fault O toks (List.length tb) $"'auth_error_cmd' has been renamed to 'error_notify_cmd'"
| f_repeated tb before tx t ta after n :
    toks = tb ++ tx ++ ta -> g_toplevels tb before -> g_toplevel tx t -> g_toplevels ta after ->
    tops_fine O before -> In n (option_names t) -> In n (flat_map option_names before) ->
    fault O toks (List.length tb + 2) (repeated n)
| f_field tb before n tf fs tx f tg fs' ta after reason :
    toks = tb ++ [TkKw KwAccount; TkString n; TkLBrace] ++ tf ++ tx ++ tg ++ [TkRBrace] ++ ta ->
    g_toplevels tb before -> g_fields tf fs -> g_field tx f -> g_fields tg fs' -> g_toplevels ta after ->
    tops_fine O before -> fields_fine O fs -> field_fault O fs f reason ->
    fault O toks (List.length tb + 3 + List.length tf + value_token f) reason
| f_block tb before tx n fs ta after reason :
    toks = tb ++ tx ++ ta -> g_toplevels tb before -> g_toplevel tx (TLAccount n fs) -> g_toplevels ta after ->
    tops_fine O before -> fields_fine O fs -> block_fault fs reason ->
    fault O toks (List.length tb) reason.

(** The first thing wrong is a time that does not fit. *)
Inductive time_fault (O : oracles) (tree : list toplevel) : Prop :=
| tf_option before t after s :
    tree = before ++ t :: after -> tops_fine O before ->
    (forall n, In n (option_names t) -> ~ In n (flat_map option_names before)) ->
    top_time t = Some s -> too_long s -> time_fault O tree
| tf_field before n fs f fs' after s :
    tree = before ++ TLAccount n (fs ++ f :: fs') :: after -> tops_fine O before ->
    fields_fine O fs -> ~ In (field_name f) (map field_name fs) ->
    time_of f = Some s -> too_long s -> time_fault O tree.

(** Wrong with the file as a whole, every item being fine. *)
Inductive whole_fault (O : oracles) (tree : list toplevel) : str -> Prop :=
| wf_no_server : In TLHttpListenNone tree -> In TLHttpsListenNone tree ->
    whole_fault O tree $"Cannot set both http_listen and https_listen to 'none'"
| wf_no_account :
    ~ (In TLHttpListenNone tree /\ In TLHttpsListenNone tree) -> ~ (exists n fs, In (TLAccount n fs) tree) ->
    whole_fault O tree $"Must specify at least one account"
| wf_https name fs act r :
    ~ In TLHttpListenNone tree -> In TLHttpsListenNone tree ->
    last_block name tree fs -> block_means O name fs act -> a_redirect_uri act = $"https" ++ r ->
    whole_fault O tree ($"Account " ++ name ++ $" has an 'https' redirect but the HTTPS server is set to 'none'")
| wf_http name fs act r :
    In TLHttpListenNone tree -> ~ In TLHttpsListenNone tree ->
    last_block name tree fs -> block_means O name fs act ->
    a_redirect_uri act = $"http" ++ r -> (forall r', r <> $"s" ++ r') ->
    whole_fault O tree ($"Account " ++ name ++ $" has an 'http' redirect but the HTTP server is set to 'none'").
