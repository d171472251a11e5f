(** What a command line means, following pizauth(1) and the usual conventions
    for options. *)
From Verif Require Import Base Utf8 Client Cli.

(** A word that is no option: it is "-" or does not begin with a dash. *)
Definition plain (w : str) : Prop := w = $"-" \/ forall r, w <> "-"%char :: r.

(** The flags of each sub-command. *)
Inductive flag (cmd : str) : ascii -> Prop :=
| flag_h : flag cmd "h"
| flag_v : flag cmd "v"
| flag_u : cmd = $"show" \/ cmd = $"refresh" -> flag cmd "u"
| flag_j : cmd = $"info" -> flag cmd "j"
| flag_d : cmd = $"server" -> flag cmd "d".

(** Flags written with two dashes. *)
Inductive long_flag : str -> ascii -> Prop :=
| long_help : long_flag $"help" "h"
| long_verbose : long_flag $"verbose" "v"
| long_letter c : long_flag [c] c.

(** The sub-commands that know [-c]. *)
Definition has_config (cmd : str) : Prop := cmd = $"info" \/ cmd = $"server".

(** One option on the command line. *)
Inductive given := GFlag (c : ascii) | GConfig (file : option str).

(** [says cmd ws gs fs]: the words [ws] after the sub-command give the options
    [gs] and leave the arguments [fs]. *)
Inductive says (cmd : str) : list str -> list given -> list str -> Prop :=
| says_end : says cmd [] [] []
| says_rest ws : says cmd ($"--" :: ws) [] ws
| says_argument w ws gs fs :
    plain w -> says cmd ws gs fs -> says cmd (w :: ws) gs (w :: fs)
| says_flags cs ws gs fs :
    cs <> [] -> Forall (flag cmd) cs -> says cmd ws gs fs ->
    says cmd (("-"%char :: cs) :: ws) (map GFlag cs ++ gs) fs
| says_long n c ws gs fs :
    long_flag n c -> flag cmd c -> says cmd ws gs fs ->
    says cmd (($"--" ++ n) :: ws) (GFlag c :: gs) fs
| says_config_here cs file ws gs fs :
    has_config cmd -> Forall (flag cmd) cs -> file <> [] -> says cmd ws gs fs ->
    says cmd (("-"%char :: cs ++ "c"%char :: file) :: ws) (map GFlag cs ++ GConfig (Some file) :: gs) fs
| says_config_next cs file ws gs fs :
    has_config cmd -> Forall (flag cmd) cs -> plain file -> says cmd ws gs fs ->
    says cmd (("-"%char :: cs ++ $"c") :: file :: ws) (map GFlag cs ++ GConfig (Some file) :: gs) fs
| says_config_long n file ws gs fs :
    has_config cmd -> n = $"config" \/ n = $"c" -> says cmd ws gs fs ->
    says cmd (($"--" ++ n ++ $"=" ++ file) :: ws) (GConfig (Some file) :: gs) fs
(** An option that lacks its file. *)
| says_config_missing cs ws gs fs :
    has_config cmd -> Forall (flag cmd) cs -> (forall w ws', ws = w :: ws' -> ~ plain w) -> says cmd ws gs fs ->
    says cmd (("-"%char :: cs ++ $"c") :: ws) (map GFlag cs ++ GConfig None :: gs) fs
| says_config_long_missing n ws gs fs :
    has_config cmd -> n = $"config" \/ n = $"c" -> says cmd ws gs fs ->
    says cmd (($"--" ++ n) :: ws) (GConfig None :: gs) fs.

Definition is_flag (c : ascii) (g : given) : bool :=
  match g with GFlag d => if ascii_dec c d then true else false | GConfig _ => false end.
Definition is_config (g : given) : bool :=
  match g with GConfig _ => true | GFlag _ => false end.

(** No option is repeated, except [-v]. *)
Definition no_repeats (gs : list given) : Prop :=
  (forall c, c <> "v"%char -> List.length (filter (is_flag c) gs) <= 1)
  /\ List.length (filter is_config gs) <= 1.

Definition verbosity (gs : list given) : nat := List.length (filter (is_flag "v") gs).

Definition has_flag (c : ascii) (gs : list given) (b : bool) : Prop :=
  b = true <-> In (GFlag c) gs.

Definition names_config (gs : list given) (file : option str) : Prop :=
  match file with
  | Some f => In (GConfig (Some f)) gs
  | None => forall f, ~ In (GConfig (Some f)) gs
  end.

(** The sub-commands that take no argument and talk to the server. *)
Inductive simple (stdin : str) : str -> client_cmd -> Prop :=
| simple_dump : simple stdin $"dump" CDump
| simple_reload : simple stdin $"reload" CReload
| simple_restore : simple stdin $"restore" (CRestore stdin)
| simple_shutdown : simple stdin $"shutdown" CShutdown
| simple_status : simple stdin $"status" CStatus.

(** What the command line [cmd ws] asks for, if it is well formed. *)
Inductive asks_for (stdin cmd : str) (ws : list str) : invocation -> Prop :=
| asks_simple gs c :
    simple stdin cmd c -> says cmd ws gs [] -> no_repeats gs -> ~ In (GFlag "h") gs ->
    asks_for stdin cmd ws (IClient (verbosity gs) c)
| asks_revoke gs a :
    cmd = $"revoke" -> says cmd ws gs [a] -> no_repeats gs -> ~ In (GFlag "h") gs ->
    asks_for stdin cmd ws (IClient (verbosity gs) (CRevoke a))
| asks_show gs a u :
    cmd = $"show" -> says cmd ws gs [a] -> no_repeats gs -> ~ In (GFlag "h") gs -> has_flag "u" gs u ->
    asks_for stdin cmd ws (IClient (verbosity gs) (CShow u a))
| asks_refresh gs a u :
    cmd = $"refresh" -> says cmd ws gs [a] -> no_repeats gs -> ~ In (GFlag "h") gs -> has_flag "u" gs u ->
    asks_for stdin cmd ws (IClient (verbosity gs) (CRefresh u a))
| asks_info gs f j :
    cmd = $"info" -> says cmd ws gs [] -> no_repeats gs -> ~ In (GFlag "h") gs -> has_flag "j" gs j ->
    names_config gs f ->
    asks_for stdin cmd ws (IInfo f j)
| asks_server gs f d :
    cmd = $"server" -> says cmd ws gs [] -> no_repeats gs -> ~ In (GFlag "h") gs -> has_flag "d" gs (negb d) ->
    names_config gs f ->
    asks_for stdin cmd ws (IServer f d (verbosity gs)).
