(** Places in the configuration file: /repo/src/config.rs as it reads a text and
    reports what is wrong with it, with the spans of /repo/src/config.y and the
    messages of [error_at_span].  Config.v has the same functions without
    places; [Locate.v] proves that the two agree on everything else. *)
From Verif Require Import Base Time Url Oracles ConfigLex ConfigParse Config.

(** [lrpar::Span]: byte offsets. (config_ast.rs:1) *)
Record span := mkSpan { sp_from : nat; sp_to : nat }.

(** A lexeme: what it is and where. *)
Notation lexeme := (token * span)%type.

(** lrlex, as in ConfigLex.v, keeping the offset [off] of [s] in the text.
    (config.rs:59-60) *)
Fixpoint lexemes_fuel (fuel off : nat) (s : str) : option (list lexeme) :=
  match s with
  | [] => Some []
  | _ =>
      match fuel with
      | O => None
      | S fuel' =>
          let '(n, r) := best_match rules s 0 RAny in
          match lexemes_fuel fuel' (off + n) (skipn n s) with
          | None => None
          | Some ls =>
              match rule_token r (firstn n s) with
              | Some t => Some ((t, mkSpan off (off + n)) :: ls)
              | None => Some ls
              end
          end
      end
  end.

(** config.rs:59-60, lexemes with their spans. *)
Definition lexemes (s : str) : option (list lexeme) := lexemes_fuel (List.length s) 0 s.

(** config.y: each production together with the lexemes it covers; the spans
    that config_ast.rs records are projections of these (below). (config.y:8-67) *)
Record located := mkLocated {
  lt_top : toplevel;
  lt_lexemes : list lexeme;
  lt_fields : list (field * list lexeme);
}.

(** config.y:30-47 (AccountFields) up to the closing brace. *)
Fixpoint l_fields (fuel : nat) (ls : list lexeme) : list (field * list lexeme) :=
  match fuel with
  | O => []
  | S fuel' =>
      match p_field (map fst ls) with
      | Some (f, r) =>
          let n := List.length ls - List.length r in
          (f, firstn n ls) :: l_fields fuel' (skipn n ls)
      | None => []
      end
  end.

(** config.y:13-28 (TopLevel). *)
Definition l_toplevel (ls : list lexeme) : option (located * list lexeme) :=
  match p_toplevel (map fst ls) with
  | Some (t, r) =>
      let n := List.length ls - List.length r in
      Some (mkLocated t (firstn n ls)
              match t with
              | TLAccount _ _ => l_fields n (skipn 3 (firstn n ls))
              | _ => []
              end, skipn n ls)
  | None => None
  end.

(** config.y:8-11 (TopLevels). *)
Fixpoint l_toplevels (fuel : nat) (ls : list lexeme) : option (list located) :=
  match ls with
  | [] => Some []
  | _ =>
      match fuel with
      | O => None
      | S fuel' =>
          match l_toplevel ls with
          | Some (t, r) =>
              match l_toplevels fuel' r with
              | Some l => Some (t :: l)
              | None => None
              end
          | None => None
          end
      end
  end.

(** The span of the [i]-th symbol of a production, [$1] being 0. (config.y:14-67) *)
Definition symbol_span (i : nat) (ls : list lexeme) : span :=
  match nth_error ls i with Some (_, sp) => sp | None => mkSpan 0 0 end.

(** [$span]: from the beginning of the first to the end of the last symbol.
    (config.y:14-15) *)
Definition whole_span (ls : list lexeme) : span :=
  mkSpan (sp_from (symbol_span 0 ls)) (sp_to (symbol_span (List.length ls - 1) ls)).

(** config.y:15-47: which span a field or an item records: the value [$3], the
    keyword [$1] of a list, the whole of a block. *)
Definition field_span (p : field * list lexeme) : span :=
  match fst p with
  | FAuthUriFields _ | FScopes _ => symbol_span 0 (snd p)
  | _ => symbol_span 2 (snd p)
  end.

(** The span that config.y:14-27 hands to config_ast.rs:3-18. *)
Definition top_span (t : located) : span :=
  match lt_top t with
  | TLAccount _ _ | TLAuthErrorCmd => whole_span (lt_lexemes t)
  | _ => symbol_span 2 (lt_lexemes t)
  end.

(** [char::is_whitespace]: the characters with the property White_Space, in
    UTF-8. (config.rs:660) *)
Definition white_chars : list str :=
  map (map chr)
    [[9]; [10]; [11]; [12]; [13]; [32]; [194; 133]; [194; 160]; [225; 154; 128];
     [226; 128; 128]; [226; 128; 129]; [226; 128; 130]; [226; 128; 131]; [226; 128; 132];
     [226; 128; 133]; [226; 128; 134]; [226; 128; 135]; [226; 128; 136]; [226; 128; 137];
     [226; 128; 138]; [226; 128; 168]; [226; 128; 169]; [226; 128; 175]; [226; 129; 159];
     [227; 128; 128]]%N.

(** White space removed in front; fuel: the length ([trim], config.rs:660, 665). *)
Fixpoint strip (fuel : nat) (ws : list str) (s : str) : str :=
  match fuel with
  | O => s
  | S fuel' =>
      match find (fun w => starts_with w s) ws with
      | Some w => strip fuel' ws (skipn (List.length w) s)
      | None => s
      end
  end.

(** [str::trim]. (config.rs:660, 665) *)
Definition trim (s : str) : str :=
  let s1 := strip (List.length s) white_chars s in
  rev (strip (List.length s1) (map (@rev ascii) white_chars) (rev s1)).

(** [str::chars().count()]: every byte but continuation bytes begins a
    character. (config.rs:654) *)
Definition char_count (s : str) : nat :=
  List.length (filter (fun c => let n := N_of_ascii c in negb ((128 <=? n) && (n <=? 191))%N) s).

(** [split('\n').next()], config.rs:657-658. *)
Definition not_nl (c : ascii) : bool := negb (Ascii.eqb c nl).

(** [lexer.line_col(span)] of lrlex: the beginning of the span, lines and
    columns counted from 1, columns in characters. (config.rs:654) *)
Definition line_col (input : str) (sp : span) : nat * nat :=
  let before := firstn (sp_from sp) input in
  (S (List.length (filter (fun c => Ascii.eqb c nl) before)),
   S (char_count (rev (take_while not_nl (rev before))))).

(** [lexer.span_lines_str(span).split('\n').next()]: the line in which the span
    begins. (config.rs:655-659) *)
Definition first_line (input : str) (sp : span) : str :=
  rev (take_while not_nl (rev (firstn (sp_from sp) input)))
  ++ take_while not_nl (skipn (sp_from sp) input).

(** config.rs:649-668 *)
Definition error_at_span (input : str) (sp : span) (msg : str) : str :=
  let '(line_off, col) := line_col input sp in
  let code := trim (first_line input sp) in
  $"Line " ++ dec_of_N (N.of_nat line_off) ++ $", column " ++ dec_of_N (N.of_nat col) ++ $":" ++ [nl]
  ++ $"  " ++ trim code ++ [nl] ++ msg.

(** The checks of config.rs:243-333, whose errors all go through
    [error_at_span]. *)
Definition at_span {A} (input : str) (sp : span) (o : outcome A) : outcome A :=
  match o with
  | Err msg => Err (error_at_span input sp msg)
  | _ => o
  end.

(** Body of the loop at config.rs:378-471. *)
Definition l_field_step (O : oracles) (input : str) (a : field_acc) (p : field * list lexeme)
    : outcome field_acc :=
  let sp := field_span p in
  let 'mkFacc au auf ci cs lh ru ral rbe rr sc tu := a in
  match fst p with
  | FAuthUri s =>
      x <- at_span input sp (check_not_assigned_uri O $"auth_uri" s au) ;;
      Val (mkFacc (Some x) auf ci cs lh ru ral rbe rr sc tu)
  | FAuthUriFields l =>
      _ <- at_span input sp (check_not_assigned $"auth_uri_fields" auf) ;;
      Val (mkFacc au (Some (map (fun kv => (unescape_str (fst kv), unescape_str (snd kv))) l))
             ci cs lh ru ral rbe rr sc tu)
  | FClientId s =>
      x <- at_span input sp (check_not_assigned_str $"client_id" s ci) ;;
      Val (mkFacc au auf (Some x) cs lh ru ral rbe rr sc tu)
  | FClientSecret s =>
      x <- at_span input sp (check_not_assigned_str $"client_secret" s cs) ;;
      Val (mkFacc au auf ci (Some x) lh ru ral rbe rr sc tu)
  | FLoginHint s =>
      x <- at_span input sp (check_not_assigned_str $"login_hint" s lh) ;;
      Val (mkFacc au auf ci cs (Some x) ru ral rbe rr sc tu)
  | FRedirectUri s =>
      x <- at_span input sp (check_not_assigned_uri O $"redirect_uri" s ru) ;;
      Val (mkFacc au auf ci cs lh (Some x) ral rbe rr sc tu)
  | FRefreshAtLeast t =>
      x <- at_span input sp (check_not_assigned_time $"refresh_at_least" t ral) ;;
      d <- time_str_to_duration x ;;
      Val (mkFacc au auf ci cs lh ru (Some d) rbe rr sc tu)
  | FRefreshBeforeExpiry t =>
      x <- at_span input sp (check_not_assigned_time $"refresh_before_expiry" t rbe) ;;
      d <- time_str_to_duration x ;;
      Val (mkFacc au auf ci cs lh ru ral (Some d) rr sc tu)
  | FRefreshRetry t =>
      x <- at_span input sp (check_not_assigned_time $"refresh_retry" t rr) ;;
      d <- time_str_to_duration x ;;
      Val (mkFacc au auf ci cs lh ru ral rbe (Some d) sc tu)
  | FScopes l =>
      _ <- at_span input sp (check_not_assigned $"scopes" sc) ;;
      Val (mkFacc au auf ci cs lh ru ral rbe rr (Some (map unescape_str l)) tu)
  | FTokenUri s =>
      x <- at_span input sp (check_not_assigned_uri O $"token_uri" s tu) ;;
      Val (mkFacc au auf ci cs lh ru ral rbe rr sc (Some x))
  end.

(** config.rs:378-471: the loop. *)
Fixpoint l_fields_loop (O : oracles) (input : str) (a : field_acc) (fs : list (field * list lexeme))
    : outcome field_acc :=
  match fs with
  | [] => Val a
  | f :: fs' => a' <- l_field_step O input a f ;; l_fields_loop O input a' fs'
  end.

(** config.rs:360-498; [sp] is [overall_span]. *)
Definition l_from_fields (O : oracles) (input name : str) (sp : span) (fs : list (field * list lexeme))
    : outcome account :=
  a <- l_fields_loop O input facc0 fs ;; at_span input sp (fields_finish name a).

(** Body of the loop at config.rs:83-195. *)
Definition l_top_step (O : oracles) (input : str) (a : top_acc) (t : located) : outcome top_acc :=
  let sp := top_span t in
  let 'mkTacc acts anc ani enc hl hsl tei ral rbe rr tec := a in
  match lt_top t with
  | TLAccount n _ =>
      let act_name := unescape_str n in
      act <- l_from_fields O input act_name sp (lt_fields t) ;;
      Val (mkTacc (map_insert act_name act acts) anc ani enc hl hsl tei ral rbe rr tec)
  | TLAuthErrorCmd =>
      at_span input sp (Err $"'auth_error_cmd' has been renamed to 'error_notify_cmd'")
  | TLAuthNotifyCmd s =>
      x <- at_span input sp (check_not_assigned_str $"auth_notify_cmd" s anc) ;;
      Val (mkTacc acts (Some x) ani enc hl hsl tei ral rbe rr tec)
  | TLAuthNotifyInterval s =>
      x <- at_span input sp (check_not_assigned_time $"auth_notify_interval" s ani) ;;
      d <- time_str_to_duration x ;;
      Val (mkTacc acts anc (Some d) enc hl hsl tei ral rbe rr tec)
  | TLErrorNotifyCmd s =>
      x <- at_span input sp (check_not_assigned_str $"error_notify_cmd" s enc) ;;
      Val (mkTacc acts anc ani (Some x) hl hsl tei ral rbe rr tec)
  | TLHttpListen s =>
      x <- at_span input sp (check_not_assigned_str $"http_listen" s hl) ;;
      Val (mkTacc acts anc ani enc (Some (Some x)) hsl tei ral rbe rr tec)
  | TLHttpListenNone =>
      _ <- at_span input sp (check_not_assigned $"http_listen" hl) ;;
      Val (mkTacc acts anc ani enc (Some None) hsl tei ral rbe rr tec)
  | TLHttpsListen s =>
      x <- at_span input sp (check_not_assigned_str $"https_listen" s hsl) ;;
      Val (mkTacc acts anc ani enc hl (Some (Some x)) tei ral rbe rr tec)
  | TLHttpsListenNone =>
      _ <- at_span input sp (check_not_assigned $"https_listen" hsl) ;;
      Val (mkTacc acts anc ani enc hl (Some None) tei ral rbe rr tec)
  | TLTransientErrorIfCmd s =>
      x <- at_span input sp (check_not_assigned_str $"transient_error_if_cmd" s tei) ;;
      Val (mkTacc acts anc ani enc hl hsl (Some x) ral rbe rr tec)
  | TLRefreshAtLeast s =>
      x <- at_span input sp (check_not_assigned_time $"refresh_at_least" s ral) ;;
      d <- time_str_to_duration x ;;
      Val (mkTacc acts anc ani enc hl hsl tei (Some d) rbe rr tec)
  | TLRefreshBeforeExpiry s =>
      x <- at_span input sp (check_not_assigned_time $"refresh_before_expiry" s rbe) ;;
      d <- time_str_to_duration x ;;
      Val (mkTacc acts anc ani enc hl hsl tei ral (Some d) rr tec)
  | TLRefreshRetry s =>
      x <- at_span input sp (check_not_assigned_time $"refresh_retry" s rr) ;;
      d <- time_str_to_duration x ;;
      Val (mkTacc acts anc ani enc hl hsl tei ral rbe (Some d) tec)
  | TLTokenEventCmd s =>
      x <- at_span input sp (check_not_assigned_str $"token_event_cmd" s tec) ;;
      Val (mkTacc acts anc ani enc hl hsl tei ral rbe rr (Some x))
  end.

(** config.rs:83-195: the loop. *)
Fixpoint l_tops_loop (O : oracles) (input : str) (a : top_acc) (ts : list located) : outcome top_acc :=
  match ts with
  | [] => Val a
  | t :: ts' => a' <- l_top_step O input a t ;; l_tops_loop O input a' ts'
  end.

(** config.rs:58-240.  The text of syntax errors, which lrpar composes, is not
    modelled. *)
Definition from_str (O : oracles) (h : str -> N) (input : str) : outcome config :=
  match lexemes input with
  | None => Err $"syntax error"
  | Some ls =>
      match l_toplevels (List.length ls) ls with
      | None => Err $"syntax error"
      | Some ts => a <- l_tops_loop O input tacc0 ts ;; tops_finish h a
      end
  end.
