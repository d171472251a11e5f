(** Specification: where a server listens, and where it may send a browser. *)
From Verif Require Import Base Utf8 Url Oracles Config State Http Timers Server SpecLinks Listen.
Local Open Scope N_scope.

(** What the operating system promises about a socket that listens: it has a
    port, the one asked for if one was, and nobody else has that address. *)
Definition net_laws (sys : net) : Prop :=
  forall held a p, n_bind sys held a = inl p ->
    p <> 0 /\ (ad_port a <> 0 -> p = ad_port a) /\ ~ In (mkAddr (ad_ip a) p) held.

(** A certificate for this machine: its names, loopback's and its own, if that is
    text; with the key that was made for them. *)
Definition certified (sys : net) (cert : list str * str) : Prop :=
  n_cert sys (fst cert) = inl (snd cert)
  /\ (forall x, In x (fst cert) <->
        x = $"localhost" \/ x = $"127.0.0.1" \/ x = $"::1" \/ (n_hostname sys = Some x /\ utf8_valid x = true)).

Definition is_https (l : listener) : Prop := l_cert l <> None.

(** [l] listens at an address that the text [told] stands for, alone. *)
Definition listens_at (sys : net) (told : str) (l : listener) : Prop :=
  exists all a,
    n_resolve sys told = inl all /\ In a all
    /\ ad_ip (l_addr l) = ad_ip a /\ ad_port (l_addr l) <> 0
    /\ (ad_port a <> 0 -> ad_port (l_addr l) = ad_port a)
    /\ ~ In (l_addr l) (n_held sys).

(** The listeners of one kind are what the configuration says: none or one. *)
Definition as_told (sys : net) (told : option str) (ls : list listener) : Prop :=
  match told with
  | None => ls = []
  | Some s => exists l, ls = [l] /\ listens_at sys s l
  end.

(** Those for HTTP and those for HTTPS. *)
Definition plain_ones (ls : list listener) : list listener :=
  filter (fun l => match l_cert l with None => true | Some _ => false end) ls.
Definition secure_ones (ls : list listener) : list listener :=
  filter (fun l => match l_cert l with None => false | Some _ => true end) ls.

Definition port_shown (ls : list listener) : option N :=
  match ls with [] => None | l :: _ => Some (ad_port (l_addr l)) end.

(** An address that can be listened at, others being taken. *)
Definition can_listen (sys : net) (held : list addr) (told : option str) : Prop :=
  forall s, told = Some s ->
    exists all a p, n_resolve sys s = inl all /\ In a all /\ n_bind sys held a = inl p.

(** The port a browser connects to: RFC 9110, section 4.2. *)
Definition effective_port (u : url) : option N :=
  match u_port u with
  | Some p => Some p
  | None => if str_eqb (u_scheme u) $"http" then Some 80
            else if str_eqb (u_scheme u) $"https" then Some 443 else None
  end.

(** A browser that is sent to [r] and looks for it on this machine finds a
    listener, which speaks the protocol the browser does. *)
Definition comes_back (ls : list listener) (r : url) : Prop :=
  exists l, In l ls /\ effective_port r = Some (ad_port (l_addr l)) /\ (is_https l <-> u_scheme r = $"https").

(** URLs that are written plainly: neither spaces nor control characters, which the
    URL parser drops silently at both ends, or everywhere. *)
Definition plainly (s : str) : Prop := forall c, In c s -> 33 <= N_of_ascii c /\ N_of_ascii c <= 126.

(** What is known about [Url::parse]: the scheme of a plainly written URL is what
    stands before the colon, in lower case. *)
Definition scheme_law (O : oracles) : Prop :=
  forall s u, o_url_parse O s = Some u -> plainly s -> ~ In ":"%char (u_scheme u) /\ begins_with (u_scheme u ++ $":") s.

(** The server for that kind of URL is running. *)
Definition kind_on (ls : list listener) (scheme : str) : Prop :=
  exists l, In l ls /\ (is_https l /\ scheme = $"https" \/ ~ is_https l /\ scheme = $"http").
