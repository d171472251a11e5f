(** The sockets in front of the server: bytes that arrive in pieces, other sides
    that fall silent or break off, clients that are served one after the other.
    /repo/src/server/mod.rs:81-83, 397-403; http_server.rs:280-323, 386-399,
    443-465. *)
From Verif Require Import Base Utf8 Url Oracles Config Located Http State Server.

(** How the other side has left a connection: it may still send; it has closed
    its half; reading fails (connection reset, or a TLS error).
    (mod.rs:81, http_server.rs:285, 304) *)
Inductive fin := Open | Ended | Broken.

(** Everything that has arrived on a connection, in the pieces in which [read]
    hands it out, oldest first. (mod.rs:81, http_server.rs:283) *)
Record conn := mkConn { c_in : list str; c_fin : fin }.

(** What a thread reading a connection makes of what has arrived so far:
    something; an error; or [read] blocks (no time limit is ever set).
    (mod.rs:81, http_server.rs:285, 304) *)
Inductive got (A : Type) := Got (a : A) | Bad | Waits.
Arguments Got {A} a.
Arguments Bad {A}.
Arguments Waits {A}.

(** [Read::read_to_end], mod.rs:83: read until the other side ends. *)
Fixpoint read_to_end (buf : str) (ps : list str) (f : fin) : got str :=
  match ps with
  | p :: ps' => read_to_end (buf ++ p) ps' f
  | [] => match f with Open => Waits | Ended => Got buf | Broken => Bad end
  end.

(** [BufRead::read_line] without the UTF-8 check, on a [BufReader] that holds
    [buf]; [line] is what has been read of the line.  An exhausted buffer is
    refilled from the next piece. (http_server.rs:285, 304) *)
Fixpoint next_line (line buf : str) (ps : list str) (f : fin) : got (str * str * list str) :=
  match split_first nl buf with
  | Some (a, b) => Got (line ++ a ++ [nl], b, ps)
  | None =>
      match ps with
      | p :: ps' => next_line (line ++ buf) p ps' f
      | [] =>
          match f with
          | Open => Waits
          | Ended => Got (line ++ buf, [], [])
          | Broken => Bad
          end
      end
  end.

(** http_server.rs:285, 306: [rdr.read_line(..)?] *)
Definition line_in (buf : str) (ps : list str) (f : fin) : got (str * str * list str) :=
  match next_line [] buf ps f with
  | Got (l, buf', ps') => if utf8_valid l then Got (l, buf', ps') else Bad
  | Bad => Bad
  | Waits => Waits
  end.

(** http_server.rs:297-323, like [Http.read_headers]. *)
Fixpoint headers_in (fuel : nat) (buf : str) (ps : list str) (f : fin) (size : N) (req : list str)
  : got (list str) :=
  match fuel with
  | O => Bad
  | S fuel' =>
      if (max_http_request_size <=? size)%N then Bad
      else
        match line_in buf ps f with
        | Waits => Waits
        | Bad => Bad
        | Got (line, buf', ps') =>
            match trim_end line with
            | [] => Got (rev req)
            | _ =>
                let size' := (size + N.of_nat (List.length line))%N in
                match line with
                | c :: _ =>
                    if is_sp_tab c then
                      match req with
                      | x :: req' => headers_in fuel' buf' ps' f size' ((x ++ trim_end line) :: req')
                      | [] => Bad
                      end
                    else headers_in fuel' buf' ps' f size' (trim_end line :: req)
                | [] => Bad
                end
            end
        end
  end.

(** http_server.rs:280-356, like [Http.parse_get]. *)
Definition get_in (O : oracles) (is_https : bool) (ps : list str) (f : fin) : got url :=
  match line_in [] ps f with
  | Waits => Waits
  | Bad => Bad
  | Got (req_line, buf, ps') =>
      match split_all " "%char req_line with
      | [m; path; _] =>
          if str_eqb m $"GET" then
            match headers_in (S (List.length (List.concat ps))) buf ps' f
                    (N.of_nat (List.length req_line)) [] with
            | Waits => Waits
            | Bad => Bad
            | Got req =>
                match find_host None req with
                | Some (Some h) =>
                    match o_url_parse O ((if is_https then $"https" else $"http") ++ $"://" ++ h ++ path) with
                    | Some u => Got u
                    | None => Bad
                    end
                | _ => Bad
                end
            end
          else Bad
      | _ => Bad
      end
  end.

(** * The server and its connections *)

(** A connection accepted at http_server.rs:390 or 449 and its thread. *)
Record browser := mkBrowser {
  b_https : bool;
  b_conn : conn;
  b_read : bool;                  (* has its thread read the request? *)
}.

(** The server with everybody who has connected to it (mod.rs:398,
    http_server.rs:390, 449). *)
Record net := mkNet {
  n_world : world;
  n_clients : list conn;          (* every client that ever connected, oldest first *)
  n_next : nat;                   (* how many of them the main thread has finished reading *)
  n_browsers : list browser;      (* every browser that ever connected *)
}.

(** mod.rs:397, nobody has connected yet *)
Definition net_start (w : world) : net := mkNet w [] 0 [].

(** What happens on the sockets (mod.rs:177-178, 397-403; http_server.rs:301-340, 390-397,
    449-465). *)
Inductive nlabel :=
| NClient                         (* a client connects *)
| NClientSends (n : nat) (p : str)
| NClientEnds (n : nat) (f : fin)
| NMain (e : env)                 (* mod.rs:398-402 *)
| NBrowser (https : bool)         (* a browser connects *)
| NBrowserSends (n : nat) (p : str)
| NBrowserEnds (n : nat) (f : fin)
| NRead (n : nat)                 (* the browser's thread has read the request *)
| NTick (tid : nat) (e : env).    (* anything else the server does *)

(** [stream.read_to_end(..)] (mod.rs:81) has given [req]. *)
Definition with_client (e : env) (req : str) : env :=
  mkEnv (e_clk e) (e_state_bytes e) (e_verifier_bytes e) (e_nonce e) (Some req) (e_file e) (e_hash e)
    (e_idhash e) (e_post e) (e_cmd_ok e) (e_wake e).

(** The server took a step. *)
Definition set_world (s : net) (r : sres) : option net :=
  match r with
  | SNext w => Some (mkNet w (n_clients s) (n_next s) (n_browsers s))
  | _ => None
  end.

(** The other side sends a piece, ... *)
Definition sends (c : conn) (p : str) : option conn :=
  match c_fin c with
  | Open => Some (mkConn (c_in c ++ [p]) Open)
  | _ => None
  end.

(** ... closes its half, or breaks the connection. *)
Definition ends (c : conn) (f : fin) : option conn :=
  match c_fin c, f with
  | Open, Ended | Open, Broken => Some (mkConn (c_in c) f)
  | _, _ => None
  end.

(** Is the main thread at [listener.incoming()] (mod.rs:398)? *)
Definition is_main (p : option pc) : bool :=
  match p with Some PMain => true | _ => false end.

(** The bytes for which [Server.step] stands: all that has arrived; a request
    that could not be read to its end is as good as none. (http_server.rs:48-56) *)
Definition request_bytes (O : oracles) (b : browser) : option str :=
  match get_in O (b_https b) (c_in (b_conn b)) (c_fin (b_conn b)) with
  | Waits => None
  | Got _ => Some (List.concat (c_in (b_conn b)))
  | Bad => match c_fin (b_conn b) with
           | Broken => Some []
           | _ => Some (List.concat (c_in (b_conn b)))
           end
  end.

(** A client's connection changes. *)
Definition update_client (s : net) (n : nat) (g : conn -> option conn) : option net :=
  match nth_error (n_clients s) n with
  | Some c =>
      match g c with
      | Some c' => Some (mkNet (n_world s) (list_set n c' (n_clients s)) (n_next s) (n_browsers s))
      | None => None
      end
  | None => None
  end.

(** A browser's connection changes. *)
Definition update_browser (s : net) (n : nat) (g : conn -> option conn) : option net :=
  match nth_error (n_browsers s) n with
  | Some b =>
      match g (b_conn b) with
      | Some c' =>
          Some (mkNet (n_world s) (n_clients s) (n_next s)
                  (list_set n (mkBrowser (b_https b) c' (b_read b)) (n_browsers s)))
      | None => None
      end
  | None => None
  end.

(** One step of the server and its sockets (the same places). *)
Definition net_step (O : oracles) (s : net) (l : nlabel) : option net :=
  if negb (w_alive (n_world s)) then None
  else
    match l with
    | NClient => Some (mkNet (n_world s) (n_clients s ++ [mkConn [] Open]) (n_next s) (n_browsers s))
    | NClientSends n p => update_client s n (fun c => sends c p)
    | NClientEnds n f => update_client s n (fun c => ends c f)
    (* mod.rs:398-402: the next client in the order of connecting; nothing else
       happens in this thread until its request has been read to the end *)
    | NMain e =>
        if is_main (nth_error (w_threads (n_world s)) 0) then
          match nth_error (n_clients s) (n_next s) with
          | None => None
          | Some c =>
              match read_to_end [] (c_in c) (c_fin c) with
              | Waits => None
              (* mod.rs:83 [?]: logged, the connection is dropped *)
              | Bad => Some (mkNet (n_world s) (n_clients s) (S (n_next s)) (n_browsers s))
              | Got req =>
                  set_world (mkNet (n_world s) (n_clients s) (S (n_next s)) (n_browsers s))
                    (step O (n_world s) (LTick 0 (with_client e req)))
              end
          end
        else None
    (* http_server.rs:390-397, 449-465: each connection has its own thread *)
    | NBrowser https =>
        if is_some (if https then w_https (n_world s) else w_http (n_world s))
        then Some (mkNet (n_world s) (n_clients s) (n_next s)
                     (n_browsers s ++ [mkBrowser https (mkConn [] Open) false]))
        else None
    | NBrowserSends n p => update_browser s n (fun c => sends c p)
    | NBrowserEnds n f => update_browser s n (fun c => ends c f)
    | NRead n =>
        match nth_error (n_browsers s) n with
        | None => None
        | Some b =>
            if b_read b then None
            else
              match request_bytes O b with
              | None => None
              | Some bytes =>
                  set_world
                    (mkNet (n_world s) (n_clients s) (n_next s)
                       (list_set n (mkBrowser (b_https b) (b_conn b) true) (n_browsers s)))
                    (step O (n_world s) (LHttpConn (b_https b) bytes))
              end
        end
    | NTick tid e =>
        if is_main (nth_error (w_threads (n_world s)) tid) then None
        else set_world s (step O (n_world s) (LTick tid e))
    end.

(** One thing after another. *)
Fixpoint net_run (O : oracles) (s : net) (ls : list nlabel) : option net :=
  match ls with
  | [] => Some s
  | l :: ls' =>
      match net_step O s l with
      | Some s' => net_run O s' ls'
      | None => None
      end
  end.

(** main.rs:321-322 *)
Inductive net_reachable (O : oracles) : net -> Prop :=
| nreach_init e c hp hsp pk :
    config_from_path O e = Val c -> net_reachable O (net_start (init_world c hp hsp pk))
| nreach_step s l s' : net_reachable O s -> net_step O s l = Some s' -> net_reachable O s'.
