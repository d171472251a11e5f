(** The command line: /repo/src/main.rs:130-148 and the start of each branch of
    [main] (main.rs:149-411), with the part of the library getopts 0.2.21 that it
    uses ([Options::parse], written down as remembered from the
    library's source). *)
From Verif Require Import Base Utf8 Client.

(** * getopts *)

(** [HasArg::No] and [HasArg::Maybe]; [Occur::Optional] and [Occur::Multi].
    (main.rs:145-146, 172-173, 223, 287-288, 357) *)
Inductive has_arg := TakesNone | TakesMaybe.
Inductive occurs := AtMostOnce | AnyTimes.

(** All options of pizauth have a letter; some have a long name too.
    (main.rs:145-146, 172-173, 223, 287-288, 357) *)
Record optdef := mkOpt { op_letter : ascii; op_long : str; op_arg : has_arg; op_occurs : occurs }.

(** [Optval] (main.rs:104, 152) *)
Inductive optval := Given | WithValue (s : str).

(** [is_arg] (getopts, called from main.rs:151 etc.) *)
Definition is_option_like (s : str) : bool :=
  match s with
  | c :: _ :: _ => Ascii.eqb c "-"%char
  | _ => false
  end.

(** [find_opt] for a letter and for what follows two dashes: [Name::from_str]
    takes a name of one byte for a letter.
    (getopts, called from main.rs:151 etc.) *)
Definition find_letter (opts : list optdef) (c : ascii) : option optdef :=
  find (fun o => Ascii.eqb (op_letter o) c) opts.

(** The same for what follows two dashes. (getopts, called from main.rs:151 etc.) *)
Definition find_name (opts : list optdef) (s : str) : option optdef :=
  match s with
  | [] => None
  | [c] => find_letter opts c
  | _ => find (fun o => str_eqb (op_long o) s) opts
  end.

(** The letters after a single dash: the flags up to the first option that may
    take an argument, that option, and what is left of the word.  [None] is
    [UnrecognizedOption].  (Characters that are not ASCII are compared byte by
    byte here: no option has such a letter.)
    (getopts, called from main.rs:151 etc.) *)
Fixpoint letters (opts : list optdef) (cs : str)
    : option (list (ascii * optval) * option (optdef * str)) :=
  match cs with
  | [] => Some ([], None)
  | c :: cs' =>
      match find_letter opts c with
      | None => None
      | Some o =>
          match op_arg o with
          | TakesMaybe => Some ([], Some (o, cs'))
          | TakesNone =>
              match letters opts cs' with
              | Some (vs, last) => Some ((c, Given) :: vs, last)
              | None => None
              end
          end
      end
  end.

(** [tail.splitn(2, '=')] (getopts, called from main.rs:151 etc.) *)
Definition split_long (s : str) : str * option str :=
  match split_first "="%char s with
  | Some (a, b) => (a, Some b)
  | None => (s, None)
  end.

(** Options found, in front of those of the rest. *)
Definition cons_vals {A} (vs : list (ascii * optval)) (r : option (list (ascii * optval) * A)) :=
  match r with
  | Some (ws, fs) => Some (vs ++ ws, fs)
  | None => None
  end.

(** A free argument, in front of those of the rest. *)
Definition cons_free (a : str) (r : option (list (ascii * optval) * list str)) :=
  match r with
  | Some (ws, fs) => Some (ws, a :: fs)
  | None => None
  end.

(** The loop of [Options::parse]: the options given, in order, and the free
    arguments. (main.rs:151, 174, 224, 241, 256, 271, 289, 358, 378, 393) *)
Fixpoint parse_words (opts : list optdef) (args : list str) : option (list (ascii * optval) * list str) :=
  match args with
  | [] => Some ([], [])
  | cur :: rest =>
      if negb (is_option_like cur) then cons_free cur (parse_words opts rest)
      else if str_eqb cur $"--" then Some ([], rest)
      else
        match cur with
        | _ :: c :: tail =>
            if Ascii.eqb c "-"%char then
              let (nm, v) := split_long tail in
              match find_name opts nm with
              | None => None
              | Some o =>
                  match op_arg o, v with
                  | TakesNone, Some _ => None
                  | _, Some x => cons_vals [(op_letter o, WithValue x)] (parse_words opts rest)
                  | _, None => cons_vals [(op_letter o, Given)] (parse_words opts rest)
                  end
              end
            else
              match letters opts (c :: tail) with
              | None => None
              | Some (vs, None) => cons_vals vs (parse_words opts rest)
              | Some (vs, Some (o, (_ :: _) as v)) =>
                  cons_vals (vs ++ [(op_letter o, WithValue v)]) (parse_words opts rest)
              | Some (vs, Some (o, [])) =>
                  match rest with
                  | next :: rest' =>
                      if is_option_like next
                      then cons_vals (vs ++ [(op_letter o, Given)]) (parse_words opts rest)
                      else cons_vals (vs ++ [(op_letter o, WithValue next)]) (parse_words opts rest')
                  | [] => Some (vs ++ [(op_letter o, Given)], [])
                  end
              end
        | _ => None
        end
  end.

(** [Matches::opt_count], [opt_present], [opt_str] (main.rs:157, 332) *)
Definition opt_count (c : ascii) (vs : list (ascii * optval)) : nat :=
  List.length (filter (fun v => Ascii.eqb (fst v) c) vs).

(** [opt_present], e.g. main.rs:152, 189, 234, 324. *)
Definition opt_present (c : ascii) (vs : list (ascii * optval)) : bool :=
  negb (Nat.eqb (opt_count c vs) 0).

(** [opt_str], main.rs:104. *)
Definition opt_str (c : ascii) (vs : list (ascii * optval)) : option str :=
  match find (fun v => Ascii.eqb (fst v) c) vs with
  | Some (_, WithValue s) => Some s
  | _ => None
  end.

(** The end of [Options::parse]: [OptionDuplicated].
    (main.rs:151, 174, 224, 241, 256, 271, 289, 358, 378, 393) *)
Definition parse_opts (opts : list optdef) (args : list str) : option (list (ascii * optval) * list str) :=
  match parse_words opts args with
  | Some (vs, fs) =>
      if forallb (fun o => match op_occurs o with
                           | AnyTimes => true
                           | AtMostOnce => Nat.leb (opt_count (op_letter o) vs) 1
                           end) opts
      then Some (vs, fs) else None
  | None => None
  end.

(** * main *)

(** What pizauth was asked to do. (main.rs:130-412) *)
Inductive invocation :=
| IUsage                                                (** print the usage, exit with 1 *)
| IClient (verbosity : nat) (c : client_cmd)
| IInfo (config : option str) (as_json : bool)
| IServer (config : option str) (detach : bool) (verbosity : nat).

(** main.rs:144-146, 172-173, 223, 287-288, 357 *)
Definition opt_h := mkOpt "h"%char $"help" TakesNone AtMostOnce.
Definition opt_v := mkOpt "v"%char $"verbose" TakesNone AnyTimes.
Definition opt_c := mkOpt "c"%char $"config" TakesMaybe AtMostOnce.
Definition opt_j := mkOpt "j"%char [] TakesNone AtMostOnce.
Definition opt_u := mkOpt "u"%char [] TakesNone AtMostOnce.
Definition opt_d := mkOpt "d"%char [] TakesNone AtMostOnce.

(** main.rs:144-146. *)
Definition base_opts := [opt_h; opt_v].

(** A sub-command without argument: main.rs:150-154, 170-178, 240-244, 255-259,
    285-293, 377-381, 392-399. *)
Definition no_args (opts : list optdef) (args : list str) (k : list (ascii * optval) -> invocation) : invocation :=
  match parse_opts opts args with
  | None => IUsage
  | Some (vs, fs) =>
      if opt_present "h"%char vs then IUsage
      else match fs with
           | [] => k vs
           | _ => IUsage
           end
  end.

(** One with an account: main.rs:221-234, 270-279, 355-371. *)
Definition one_arg (opts : list optdef) (args : list str) (k : list (ascii * optval) -> str -> invocation) : invocation :=
  match parse_opts opts args with
  | None => IUsage
  | Some (vs, fs) =>
      if opt_present "h"%char vs then IUsage
      else match fs with
           | [a] => k vs a
           | _ => IUsage
           end
  end.

(** main.rs:149-411.  [stdin] is what [restore] would read. *)
Definition dispatch (stdin cmd : str) (args : list str) : invocation :=
  if str_eqb cmd $"dump" then no_args base_opts args (fun vs => IClient (opt_count "v"%char vs) CDump)
  else if str_eqb cmd $"info" then
    no_args (base_opts ++ [opt_c; opt_j]) args
      (fun vs => IInfo (opt_str "c"%char vs) (opt_present "j"%char vs))
  else if str_eqb cmd $"refresh" then
    one_arg (base_opts ++ [opt_u]) args
      (fun vs a => IClient (opt_count "v"%char vs) (CRefresh (opt_present "u"%char vs) a))
  else if str_eqb cmd $"reload" then no_args base_opts args (fun vs => IClient (opt_count "v"%char vs) CReload)
  else if str_eqb cmd $"restore" then
    no_args base_opts args (fun vs => IClient (opt_count "v"%char vs) (CRestore stdin))
  else if str_eqb cmd $"revoke" then
    one_arg base_opts args (fun vs a => IClient (opt_count "v"%char vs) (CRevoke a))
  else if str_eqb cmd $"server" then
    no_args (base_opts ++ [opt_c; opt_d]) args
      (fun vs => IServer (opt_str "c"%char vs) (negb (opt_present "d"%char vs)) (opt_count "v"%char vs))
  else if str_eqb cmd $"show" then
    one_arg (base_opts ++ [opt_u]) args
      (fun vs a => IClient (opt_count "v"%char vs) (CShow (opt_present "u"%char vs) a))
  else if str_eqb cmd $"shutdown" then
    no_args base_opts args (fun vs => IClient (opt_count "v"%char vs) CShutdown)
  else if str_eqb cmd $"status" then
    no_args base_opts args (fun vs => IClient (opt_count "v"%char vs) CStatus)
  else IUsage.

(** main.rs:140-149: [env::args] panics on an argument that is not UTF-8.  The
    first argument is the name of the program. *)
Definition main_args (stdin : str) (args : list str) : outcome invocation :=
  if forallb utf8_valid args then
    match args with
    | _ :: cmd :: rest => Val (dispatch stdin cmd rest)
    | _ => Val IUsage
    end
  else Panic.
