(** Parsing browser requests: /repo/src/server/http_server.rs:280-372. *)
From Verif Require Import Base Utf8 Url Oracles.

(** http_server.rs:35 *)
Definition max_http_request_size : N := 16384.

(** [BufRead::read_line] without the UTF-8 check: up to and including the next
    newline, everything at end of input. (http_server.rs:285, 304) *)
Fixpoint read_raw_line (s : str) : str * str :=
  match s with
  | [] => ([], [])
  | c :: s' =>
      if Ascii.eqb c nl then ([c], s')
      else let '(l, r) := read_raw_line s' in (c :: l, r)
  end.

(** [rdr.read_line(..)?], http_server.rs:285, 304. *)
Definition read_line (s : str) : option (str * str) :=
  let '(l, r) := read_raw_line s in
  if utf8_valid l then Some (l, r) else None.

(** Length of the white space character (Unicode [White_Space], in UTF-8) that
    ends the string whose reverse is given; 0 if it does not end in one.
    (http_server.rs:305, 316, 321) *)
Definition ws_len_rev (r : str) : nat :=
  match r with
  | [] => 0
  | a :: r1 =>
      let n := N_of_ascii a in
      if ((n =? 32) || ((9 <=? n) && (n <=? 13)))%N then 1
      else
        match r1 with
        | [] => 0
        | b :: r2 =>
            let m := N_of_ascii b in
            if ((m =? 194) && ((n =? 133) || (n =? 160)))%N then 2
            else
              match r2 with
              | [] => 0
              | c :: _ =>
                  let k := N_of_ascii c in
                  if (((k =? 225) && (m =? 154) && (n =? 128))
                      || ((k =? 226) && (m =? 128)
                          && (((128 <=? n) && (n <=? 138)) || (n =? 168) || (n =? 169) || (n =? 175)))
                      || ((k =? 226) && (m =? 129) && (n =? 159))
                      || ((k =? 227) && (m =? 128) && (n =? 128)))%N
                  then 3 else 0
              end
        end
  end.

(** White space removed from the front of a reversed string; fuel: the length
    (http_server.rs:305, 316, 321). *)
Fixpoint trim_rev (fuel : nat) (r : str) : str :=
  match fuel with
  | O => r
  | S fuel' =>
      match ws_len_rev r with
      | O => r
      | n => trim_rev fuel' (skipn n r)
      end
  end.

(** [str::trim_end]; [s.trim().is_empty()] iff [trim_end s] is empty.
    (http_server.rs:305, 316, 321) *)
Definition trim_end (s : str) : str := rev (trim_rev (List.length s) (rev s)).

(** http_server.rs:310, 338. *)
Definition is_sp_tab (c : ascii) : bool := Ascii.eqb c " "%char || Ascii.eqb c tab.

(** http_server.rs:297-323.  [req] is in reverse order.  [None] is [Err].  One
    unit of fuel per line, the length of the input is enough. *)
Fixpoint read_headers (fuel : nat) (s : str) (size : N) (req : list str) : option (list str) :=
  match fuel with
  | O => None
  | S fuel' =>
      if (max_http_request_size <=? size)%N then None
      else
        match read_line s with
        | None => None
        | Some (line, s') =>
            match trim_end line with
            | [] => Some (rev req)
            | _ =>
                let size' := (size + N.of_nat (List.length line))%N in
                match line with
                | c :: _ =>
                    if is_sp_tab c then
                      match req with
                      | x :: req' => read_headers fuel' s' size' ((x ++ trim_end line) :: req')
                      | [] => None
                      end
                    else read_headers fuel' s' size' (trim_end line :: req)
                | [] => None
                end
            end
        end
  end.

(** http_server.rs:325-344.  Outer [None] is [Err] (repeated host field). *)
Fixpoint find_host (host : option str) (req : list str) : option (option str) :=
  match req with
  | [] => Some host
  | f :: req' =>
      match split_first ":"%char f with
      | Some (name, value) =>
          if eq_ignore_ascii_case name $"host" then
            match host with
            | Some _ => None
            | None => find_host (Some (drop_while is_sp_tab value)) req'
            end
          else find_host host req'
      | None => find_host host req'
      end
  end.

(** http_server.rs:282-356; the argument is everything the client sends. *)
Definition parse_get (O : oracles) (is_https : bool) (s : str) : option url :=
  match read_line s with
  | None => None
  | Some (req_line, s') =>
      match split_all " "%char req_line with
      | [m; path; _] =>
          if str_eqb m $"GET" then
            match read_headers (S (List.length s)) s' (N.of_nat (List.length req_line)) [] with
            | None => None
            | Some req =>
                match find_host None req with
                | Some (Some h) =>
                    o_url_parse O ((if is_https then $"https" else $"http") ++ $"://" ++ h ++ path)
                | _ => None
                end
            end
          else None
      | _ => None
      end
  end.

(** http_server.rs:358-372 *)
Definition http_200 (body : str) : str :=
  $"HTTP/1.1 200 OK" ++ [cr; nl; cr; nl] ++ $"<html><body><h2>" ++ body ++ $"</h2></body></html>".
Definition http_404 : str := $"HTTP/1.1 404" ++ [cr; nl; cr; nl].
Definition http_400 : str := $"HTTP/1.1 400" ++ [cr; nl; cr; nl].
