(** What the user of a sub-command gets to see, and what the server has done. *)
From Verif Require Import Base Time Utf8 Url Json Oracles Config Dump State Server Client
  SpecConfig SpecServer SpecRestore SpecText.
From Coq Require Sorting.Sorted.

(** What is written to the client's connection. *)
Definition written (a : action) : str :=
  match a with AEmit (OReply _ s) => s | _ => [] end.

(** [gives O w e c lk' acts r]: the server in [w] takes the request of the
    sub-command [c]; its state becomes [lk'], it will take the actions [acts] and
    then wait for the next request; the user gets the result [r], made from all that
    is written to the connection. *)
Definition gives (O : oracles) (w : world) (e : env) (c : client_cmd) (lk' : locked) (acts : list action)
    (r : client_result) : Prop :=
  (exists os, step O w (LTick 0 e)
              = SNext (emit (set_thread (set_lk w lk') 0 (do_all acts PMain)) (OClient (client_request c) :: os)))
  /\ (forall q s, In (AEmit (OReply q s)) acts -> q = client_request c)
  /\ r = client_run c (Replied (flat_map written acts)).

(** The account named on the command line: arguments are strings. *)
Definition names (c : client_cmd) : option str :=
  match c with
  | CRefresh _ n | CRevoke n | CShow _ n => Some n
  | _ => None
  end.

(** The server runs, and what it has been given by the outside is text. *)
Definition ready (O : oracles) (w : world) : Prop :=
  text_laws O /\ url_laws O /\ reachable O w /\ utf8_posts (w_trace w).

Definition succeeded (r : client_result) : Prop := exit_code r = 0%N.

(** The command fails and says [m] on standard error, nothing on standard output. *)
Definition fails_saying (r : client_result) (m : str) : Prop :=
  r_stdout r = [] /\ r_error r = Some m.

(** The URL the user is told to visit, if they want to know it. *)
Definition told (no_url : bool) (u : url) : str :=
  $"Access token unavailable until authorised with URL " ++ if no_url then [] else url_to_str u.

(** Account [n] has a token that can be used at time [now]. *)
Definition usable (w : world) (n : str) (now : Z) : Prop :=
  exists a, holds w n (TSActive a) /\ (now < expiry a)%Z.

(** Nothing but a new authorisation can get account [n] a token: it has none, or
    one that has expired and cannot be refreshed. *)
Definition needs_authorising (w : world) (n : str) (now : Z) : Prop :=
  exists ts, holds w n ts
    /\ match ts with TSActive a => (expiry a <= now)%Z /\ refresh_token a = None | _ => True end.

(** An authorisation of account [n] with URL [u] is under way in [lk']. *)
Definition awaiting (w : world) (lk' : locked) (n : str) (u : url) : Prop :=
  exists cvr ln st, holds (set_lk w lk') n (TSPending cvr ln st u).

(** One line per account, in order: its name and what there is to say about it. *)
Definition says_all (O : oracles) (w : world) (e : env) (lines : list str) : Prop :=
  Sorted.LocallySorted str_le lines
  /\ exists txts, Permutation lines (map (fun p => d_name (fst p) ++ $": " ++ snd p) (combine (details (w_lk w)) txts))
    /\ List.length txts = List.length (details (w_lk w))
    /\ forall k e0 txt, nth_error (details (w_lk w)) k = Some e0 -> nth_error txts k = Some txt ->
         status_ok O (e_clk e (3 * k)) (e_clk e (3 * k + 1)) (e_clk e (3 * k + 2)) (d_ts e0) txt.

(** * [pizauth info] *)

(** Text that JSON strings take as it is. *)
Definition plain_char (c : ascii) : bool :=
  between 32 126 c && negb (Ascii.eqb c dquote) && negb (Ascii.eqb c "\"%char).
Definition plain (s : str) : Prop := forallb plain_char s = true.

Definition in_quotes (s : str) : str := [dquote] ++ s ++ [dquote].

(** The JSON object with these string members. *)
Definition object_text (m : list (str * str)) : str :=
  $"{" ++ join $"," (map (fun kv => in_quotes (fst kv) ++ $":" ++ in_quotes (snd kv)) m) ++ $"}".

(** What is known about [serde_json]: it reads such objects. *)
Definition json_law (O : oracles) : Prop :=
  forall m, Forall (fun kv => plain (fst kv) /\ plain (snd kv)) m ->
    o_json O (object_text m) = inl (JObj (map (fun kv => (fst kv, JStr (snd kv))) m)).

(** How a port is shown. *)
Definition port_shown (p : option N) (s : str) : Prop :=
  match p with
  | None => s = $"none"
  | Some n => decimal s (Z.of_N n)
  end.

(** Lines as printed. *)
Definition lines (l : list str) : str := List.concat (map (fun x => x ++ [nl]) l).

(** What pizauth says about itself. *)
Definition about (prog version cache config : str) : list str :=
  [prog ++ $" version " ++ version ++ $":"; $"  cache directory: " ++ cache; $"  config file: " ++ config].
