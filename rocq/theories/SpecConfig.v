(** Specification vocabulary for configuration files: what lexemes look like
    and what they mean.  Independent of the lexer and of config.rs. *)
From Verif Require Import Base Url Oracles.
Local Open Scope Z_scope.

(** A decimal digit and its value. *)
Definition digit_of (c : ascii) (v : Z) : Prop :=
  0 <= v <= 9 /\ c = ascii_of_N (Z.to_N (48 + v)).

(** [decimal s v]: the non-empty digit string [s] denotes [v], most significant
    digit first. *)
Inductive decimal : str -> Z -> Prop :=
| dec_one c v : digit_of c v -> decimal [c] v
| dec_more s n c v : decimal s n -> digit_of c v -> decimal (s ++ [c]) (10 * n + v).

(** Time units in seconds. *)
Inductive time_unit : ascii -> Z -> Prop :=
| tu_s : time_unit "s"%char 1
| tu_m : time_unit "m"%char 60
| tu_h : time_unit "h"%char (60 * 60)
| tu_d : time_unit "d"%char (24 * (60 * 60)).

Definition time_lexeme (t : str) : Prop :=
  exists s n c u, t = s ++ [c] /\ decimal s n /\ time_unit c u.

(** Writing a string: every backslash and quote gets a backslash in front. *)
Definition escape_char (c : ascii) : str :=
  if Ascii.eqb c dquote || Ascii.eqb c bslash then [bslash; c] else [c].
Definition escape (s : str) : str := flat_map escape_char s.
Definition quote_string (s : str) : str := [dquote] ++ escape s ++ [dquote].

(** An http or https URI as far as [Url::parse] is concerned. *)
Definition http_uri (O : oracles) (s : str) : Prop :=
  exists u, o_url_parse O s = Some u /\ (u_scheme u = $"http" \/ u_scheme u = $"https").
