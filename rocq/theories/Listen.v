(** Start-up of the part that talks to browsers: binding the TCP ports, making
    the certificate, starting the threads (/repo/src/server/mod.rs:353-397,
    /repo/src/server/http_server.rs:373-442). *)
From Verif Require Import Base Utf8 Oracles Config State Http Timers Server.
Local Open Scope N_scope.

(** [SocketAddr] (http_server.rs:379, 425) *)
Record addr := mkAddr { ad_ip : str; ad_port : N }.

(** How the operating system and the libraries answer.
    [n_resolve]: [ToSocketAddrs] for a string, [inr] an error;
    [n_held]: the addresses somebody listens at before we start;
    [n_bind]: making a socket listen at an address while those of the list are
    taken: the port it got (the one asked for, or any for port 0), or an error;
    [n_hostname]: [hostname::get], bytes;
    [n_cert]: [generate_simple_self_signed], the raw public key or an error;
    [n_tls]: the error of [with_single_cert], if any;
    [n_sock]: the error of binding the Unix socket, if any.
    (http_server.rs:378, 416, 421, 424, 437-443, mod.rs:397) *)
Record net := mkNet {
  n_resolve : str -> list addr + str;
  n_held : list addr;
  n_bind : list addr -> addr -> N + str;
  n_hostname : option str;
  n_cert : list str -> str + str;
  n_tls : option str;
  n_sock : option str;
}.

(** The standard library's [TcpListener::bind]: the addresses in turn, until one
    works; the error of the last one if none does.  [TcpListener::local_addr],
    called next in the code, is the address bound.
    (http_server.rs:378-379, 424-425) *)
Fixpoint bind_first (sys : net) (held : list addr) (l : list addr) (last : str) : outcome addr :=
  match l with
  | [] => Err last
  | a :: l' =>
      match n_bind sys held a with
      | inl p => Val (mkAddr (ad_ip a) p)
      | inr m => bind_first sys held l' m
      end
  end.

(** [TcpListener::bind(s)], http_server.rs:378, 424. *)
Definition tcp_bind (sys : net) (held : list addr) (s : str) : outcome addr :=
  match n_resolve sys s with
  | inl l => bind_first sys held l $"could not resolve to any addresses"
  | inr m => Err m
  end.

(** A listening socket of the server: [None] for plain HTTP, the certificate's
    names and raw public key for HTTPS. (http_server.rs:374-383, 402-429) *)
Record listener := mkListener { l_addr : addr; l_cert : option (list str * str) }.

(** http_server.rs:373-382 *)
Definition http_server_setup (sys : net) (held : list addr) (c : config) : outcome (option listener) :=
  match c_http_listen c with
  | Some s =>
      a <- tcp_bind sys held s ;;
      Val (Some (mkListener a None))
  | None => Val None
  end.

(** http_server.rs:409-419 *)
Definition cert_names (sys : net) : list str :=
  [$"localhost"; $"127.0.0.1"; $"::1"]
  ++ match n_hostname sys with
     | Some x => if utf8_valid x then [x] else []
     | None => []
     end.

(** http_server.rs:401-428 *)
Definition https_server_setup (sys : net) (held : list addr) (c : config) : outcome (option listener) :=
  match c_https_listen c with
  | Some s =>
      match n_cert sys (cert_names sys) with
      | inr m => Err m
      | inl key =>
          a <- tcp_bind sys held s ;;
          Val (Some (mkListener a (Some (cert_names sys, key))))
      end
  | None => Val None
  end.

(** Those that there are (mod.rs:353-360). *)
Definition listed (o : option listener) : list listener := match o with Some l => [l] | None => [] end.
(** mod.rs:353-360: the port of one that there is. *)
Definition port_of (o : option listener) : N := match o with Some l => ad_port (l_addr l) | None => 0 end.
(** mod.rs:367-374: the raw key of one that there is. *)
Definition key_of (o : option listener) : str :=
  match o with Some (mkListener _ (Some (_, k))) => k | _ => [] end.

(** mod.rs:353-397 with http_server.rs:430-442: the server as it begins to serve
    clients, or the error with which it ends (main.rs:351-353).  The threads are
    started before the Unix socket is bound; if that fails they end with the
    process, and what they may have done by then is left out. *)
Definition server_setup (sys : net) (c : config) : outcome (list listener * world) :=
  h <- http_server_setup sys (n_held sys) c ;;
  s <- https_server_setup sys (map l_addr (listed h) ++ n_held sys) c ;;
  match s, n_tls sys with
  | Some _, Some m => Err m
  | _, _ =>
      match n_sock sys with
      | Some m => Err m
      | None => Val (listed h ++ listed s, init_world c (port_of h) (port_of s) (key_of s))
      end
  end.
