(** Specification: which byte sequences are acceptable browser requests
    (RFC 2616 as far as pizauth understands it). *)
From Verif Require Import Base Utf8 Url Oracles.

(** Unicode white space, in UTF-8. *)
Definition white_chars : list str := map (map ascii_of_N)
  [[9]; [10]; [11]; [12]; [13]; [32]; [194; 133]; [194; 160]; [225; 154; 128];
   [226; 128; 128]; [226; 128; 129]; [226; 128; 130]; [226; 128; 131]; [226; 128; 132]; [226; 128; 133];
   [226; 128; 134]; [226; 128; 135]; [226; 128; 136]; [226; 128; 137]; [226; 128; 138];
   [226; 128; 168]; [226; 128; 169]; [226; 128; 175]; [226; 129; 159]; [227; 128; 128]]%N.

Inductive all_white : str -> Prop :=
| aw_nil : all_white []
| aw_snoc w c : all_white w -> In c white_chars -> all_white (w ++ c).

(** [t] is [s] without the white space at its end. *)
Definition trimmed (s t : str) : Prop :=
  exists w, s = t ++ w /\ all_white w /\ forall t' c, In c white_chars -> t <> t' ++ c.

(** [l] is a line, [rest] what follows. *)
Definition is_line (l rest : str) : Prop :=
  utf8_valid l = true
  /\ ((exists l', l = l' ++ [nl] /\ ~ In nl l') \/ (~ In nl l /\ rest = [])).

(** The header: lines up to an empty one (or the end of the input); whatever
    follows does not matter. *)
Inductive header : str -> list str -> Prop :=
| hd_end blank rest : is_line blank rest -> all_white blank -> header (blank ++ rest) []
| hd_more l rest ls : is_line l rest -> ~ all_white l -> header rest ls -> header (l ++ rest) (l :: ls).

Definition continues (l : str) : Prop := exists r, l = " "%char :: r \/ l = tab :: r.

(** Header fields: lines starting with a space or tab continue the previous one. *)
Inductive unfolded : list str -> list str -> Prop :=
| uf_nil : unfolded [] []
| uf_new ls fs l t : unfolded ls fs -> ~ continues l -> trimmed l t -> unfolded (ls ++ [l]) (fs ++ [t])
| uf_cont ls fs f l t : unfolded ls (fs ++ [f]) -> continues l -> trimmed l t -> unfolded (ls ++ [l]) (fs ++ [f ++ t]).

(** A field named "host", in any case. *)
Definition host_field (f v : str) : Prop :=
  exists h o s t pad, f = [h; o; s; t] ++ $":" ++ pad ++ v
    /\ In h $"hH" /\ In o $"oO" /\ In s $"sS" /\ In t $"tT"
    /\ Forall (fun c => c = " "%char \/ c = tab) pad /\ ~ continues v.

Definition only_host (fs : list str) (v : str) : Prop :=
  exists before f after, fs = before ++ f :: after /\ host_field f v
    /\ forall f' v', In f' (before ++ after) -> ~ host_field f' v'.

Definition total (ls : list str) : nat := List.length (List.concat ls).

Definition max_size : nat := Z.to_nat (2 ^ 14).

(** The request [s], received by the HTTPS server iff [https], is for [u]. *)
Definition get_request (O : oracles) (https : bool) (s : str) (u : url) : Prop :=
  exists path version rest ls fs host,
    let first := $"GET " ++ path ++ $" " ++ version in
    s = first ++ rest /\ is_line first rest /\ ~ In " "%char path /\ ~ In " "%char version
    /\ header rest ls /\ total (first :: ls) < max_size
    /\ unfolded ls fs /\ only_host fs host
    /\ o_url_parse O ((if https then $"https://" else $"http://") ++ host ++ path) = Some u.
