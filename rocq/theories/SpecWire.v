(** Specification: browser requests that arrive bit by bit, and what the server
    is asked through its sockets. *)
From Verif Require Import Base Utf8 Url Oracles SpecHttp SpecStatus State Server Wire.
From Coq Require Import Permutation.

(** A whole line. *)
Definition whole_line (l : str) : Prop :=
  utf8_valid l = true /\ exists l', l = l' ++ [nl] /\ ~ In nl l'.

(** The bytes [s] may still become an acceptable request, or not; the server
    has to wait for more: there is no whole line yet; or there are a request
    line and header fields, but the empty line is still missing. *)
Definition unfinished (s : str) : Prop :=
  ~ In nl s
  \/ exists path version ls rest,
       let first := $"GET " ++ path ++ $" " ++ version in
       s = List.concat (first :: ls) ++ rest /\ ~ In nl rest
       /\ Forall whole_line (first :: ls)
       /\ ~ In " "%char path /\ ~ In " "%char version
       /\ Forall (fun l => ~ all_white l) ls
       /\ match ls with l :: _ => ~ continues l | [] => True end
       /\ total (first :: ls) < max_size.

(** The requests of clients in a trace, in order. *)
Definition requests (t : list obs) : list str :=
  flat_map (fun o => match o with OClient r => [r] | _ => [] end) t.

(** The browsers' requests in a trace, in order. *)
Definition visits (t : list obs) : list (bool * str) :=
  flat_map (fun o => match o with OHttpIn h b => [(h, b)] | _ => [] end) t.

(** What the server learns from a client: nothing if the connection breaks off. *)
Definition heard (c : conn) : list str :=
  match c_fin c with Ended => [List.concat (c_in c)] | _ => [] end.

(** A browser has asked for [u]: the bytes that have come are a request for it,
    and nothing is missing, or nothing more will come. *)
Definition browser_asks (O : oracles) (b : browser) (u : url) : Prop :=
  get_request O (b_https b) (List.concat (c_in (b_conn b))) u
  /\ (c_fin (b_conn b) = Ended \/ ~ unfinished (List.concat (c_in (b_conn b)))).

(** Its request can be judged. *)
Definition due (b : browser) : Prop :=
  c_fin (b_conn b) <> Open \/ ~ unfinished (List.concat (c_in (b_conn b))).

(** Steps of the main thread when clocks and the like show [e]. *)
Definition of_main (e : env) (l : nlabel) : Prop :=
  match l with NMain e' => e' = e | NTick tid e' => tid = 0 /\ e' = e | _ => False end.

(** The client whose turn it is brings the server down. *)
Definition next_breaks (O : oracles) (e : env) (s : net) : Prop :=
  exists c, nth_error (n_clients s) (n_next s) = Some c
    /\ breaks_down O (n_world s) (LTick 0 (with_client e (List.concat (c_in c)))).
