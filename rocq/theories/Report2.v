(** From spans to tokens, and what becomes of a rejected file. *)
From Verif Require Import Base BaseLemmas Time Url Oracles ConfigLex ConfigParse Config Located SpecConfig SpecGrammar SpecLex
  SpecBlocks SpecReport LexLemmas Lexing ConfigParseProofs ConfigLemmas Blocks Tops Reads Places Locate Faults Report.

(** * Spans and the numbers of tokens *)

Lemma concat_nth {A} (a : list (list A)) x b k :
  k < List.length x -> nth_error (List.concat (a ++ x :: b)) (List.length (List.concat a) + k) = nth_error x k.
Proof.
  intros L. rewrite concat_app. cbn [List.concat]. rewrite nth_error_app2 by lia.
  replace (List.length (List.concat a) + k - List.length (List.concat a)) with k by lia. rewrite nth_error_app1 by exact L. reflexivity.
Qed.

Lemma symbol_nth k (ls : list lexeme) : k < List.length ls -> exists t, nth_error ls k = Some (t, symbol_span k ls).
Proof.
  intros L. unfold symbol_span. destruct (nth_error ls k) as [[t sp]|] eqn:E; [eauto|]. apply nth_error_None in E. lia.
Qed.

Definition lex_of (ts : list located) : list lexeme := List.concat (map lt_lexemes ts).
Definition lex_fields (ps : list (field * list lexeme)) : list lexeme := List.concat (map snd ps).

Lemma lex_of_app a b : lex_of (a ++ b) = lex_of a ++ lex_of b.
Proof. unfold lex_of. rewrite map_app, concat_app. reflexivity. Qed.

Lemma lex_fields_app a b : lex_fields (a ++ b) = lex_fields a ++ lex_fields b.
Proof. unfold lex_fields. rewrite map_app, concat_app. reflexivity. Qed.

Lemma lex_of_nth ts1 t ts2 k : k < List.length (lt_lexemes t) ->
  nth_error (lex_of (ts1 ++ t :: ts2)) (List.length (lex_of ts1) + k) = nth_error (lt_lexemes t) k.
Proof. intros L. unfold lex_of. rewrite map_app. cbn [map]. apply concat_nth, L. Qed.

Lemma lex_fields_nth ps1 p ps2 k : k < List.length (snd p) ->
  nth_error (lex_fields (ps1 ++ p :: ps2)) (List.length (lex_fields ps1) + k) = nth_error (snd p) k.
Proof. intros L. unfold lex_fields. rewrite map_app. cbn [map]. apply concat_nth, L. Qed.

Lemma lex_of_length (ts : list located) : List.length (map fst (lex_of ts)) = List.length (lex_of ts).
Proof. apply map_length. Qed.

(** Each item has the grammar's tokens. *)
Lemma lex_of_grammar ts : Forall covers ts -> g_toplevels (map fst (lex_of ts)) (map lt_top ts).
Proof.
  induction ts as [|t ts IH]; intros C; [constructor|]. inversion C; subst.
  change (lex_of (t :: ts)) with (lt_lexemes t ++ lex_of ts). rewrite map_app. apply g_toplevels_cons; [apply cv_top; assumption|auto].
Qed.

Lemma lex_fields_grammar ps : Forall (fun p => g_field (map fst (snd p)) (fst p)) ps -> g_fields (map fst (lex_fields ps)) (map fst ps).
Proof.
  induction ps as [|t ts IH]; intros C; [constructor|]. inversion C; subst.
  change (lex_fields (t :: ts)) with (snd t ++ lex_fields ts). rewrite map_app. apply g_fields_cons; auto.
Qed.

Lemma g_fields_app t1 : forall fs, g_fields t1 fs -> forall t2 fs', g_fields t2 fs' -> g_fields (t1 ++ t2) (fs ++ fs').
Proof.
  intros fs. revert t1. induction fs as [|f fs IH]; intros t1 G t2 fs' G'; apply g_fields_inv in G.
  - subst t1. exact G'.
  - destruct G as (a & b & -> & GF & G). rewrite <- app_assoc. apply g_fields_cons; auto.
Qed.

(** There is one way to divide the tokens. *)
Lemma split_tops : forall before ts tb rest,
  Forall covers ts -> map fst (lex_of ts) = tb ++ rest -> g_toplevels tb before ->
  exists ts1 ts2, ts = ts1 ++ ts2 /\ map lt_top ts1 = before /\ map fst (lex_of ts1) = tb /\ map fst (lex_of ts2) = rest.
Proof.
  induction before as [|x before IH]; intros ts tb rest C E G; apply g_toplevels_inv in G.
  - subst tb. exists [], ts. auto.
  - destruct G as (t1 & t2 & -> & GX & G). destruct ts as [|u us].
    { destruct (g_toplevel_head _ _ GX) as (k & t' & ->). discriminate E. }
    inversion C as [|? ? CU CS]; subst. change (lex_of (u :: us)) with (lt_lexemes u ++ lex_of us) in E.
    rewrite map_app, <- app_assoc in E.
    pose proof (p_toplevel_complete _ _ (map fst (lex_of us)) (cv_top _ CU)) as P1.
    pose proof (p_toplevel_complete _ _ (t2 ++ rest) GX) as P2. rewrite E, P2 in P1. injection P1 as EX ER.
    rewrite ER in E. apply app_inv_tail in E.
    destruct (IH us t2 rest CS (eq_sym ER) G) as (ts1 & ts2 & -> & M & M1 & M2).
    exists (u :: ts1), ts2. split; [reflexivity|]. split; [cbn [map]; congruence|]. split; [|exact M2].
    change (lex_of (u :: ts1)) with (lt_lexemes u ++ lex_of ts1). rewrite map_app, E, M1. reflexivity.
Qed.

Lemma split_fields : forall fs ps tb rest,
  Forall (fun p => g_field (map fst (snd p)) (fst p)) ps -> map fst (lex_fields ps) = tb ++ rest -> g_fields tb fs ->
  exists ps1 ps2, ps = ps1 ++ ps2 /\ map fst ps1 = fs /\ map fst (lex_fields ps1) = tb /\ map fst (lex_fields ps2) = rest.
Proof.
  induction fs as [|x fs IH]; intros ps tb rest C E G; apply g_fields_inv in G.
  - subst tb. exists [], ps. auto.
  - destruct G as (t1 & t2 & -> & GX & G). destruct ps as [|u us].
    { destruct (g_field_head _ _ GX) as (k & t' & ->). discriminate E. }
    inversion C as [|? ? CU CS]; subst. change (lex_fields (u :: us)) with (snd u ++ lex_fields us) in E.
    rewrite map_app, <- app_assoc in E.
    pose proof (p_field_complete _ _ (map fst (lex_fields us)) CU) as P1.
    pose proof (p_field_complete _ _ (t2 ++ rest) GX) as P2. rewrite E, P2 in P1. injection P1 as EX ER.
    rewrite ER in E. apply app_inv_tail in E.
    destruct (IH us t2 rest CS (eq_sym ER) G) as (ts1 & ts2 & -> & M & M1 & M2).
    exists (u :: ts1), ts2. split; [reflexivity|]. split; [cbn [map]; congruence|]. split; [|exact M2].
    change (lex_fields (u :: ts1)) with (snd u ++ lex_fields ts1). rewrite map_app, E, M1. reflexivity.
Qed.

Lemma split_top ts t1 x rest :
  Forall covers ts -> map fst (lex_of ts) = t1 ++ rest -> g_toplevel t1 x ->
  exists u us, ts = u :: us /\ lt_top u = x /\ map fst (lt_lexemes u) = t1 /\ map fst (lex_of us) = rest.
Proof.
  intros C E G. destruct (split_tops [x] ts t1 rest C E) as (ts1 & ts2 & -> & M & M1 & M2).
  { rewrite <- (app_nil_r t1). apply g_toplevels_cons; [exact G|constructor]. }
  destruct ts1 as [|u [|v w]]; try discriminate. injection M as M. exists u, ts2. split; [reflexivity|]. split; [exact M|].
  split; [|exact M2]. rewrite <- M1. unfold lex_of. cbn [map List.concat]. rewrite app_nil_r. reflexivity.
Qed.

Lemma split_field ps t1 x rest :
  Forall (fun p => g_field (map fst (snd p)) (fst p)) ps -> map fst (lex_fields ps) = t1 ++ rest -> g_field t1 x ->
  exists u us, ps = u :: us /\ fst u = x /\ map fst (snd u) = t1 /\ map fst (lex_fields us) = rest.
Proof.
  intros C E G. destruct (split_fields [x] ps t1 rest C E) as (ts1 & ts2 & -> & M & M1 & M2).
  { rewrite <- (app_nil_r t1). apply g_fields_cons; [exact G|constructor]. }
  destruct ts1 as [|u [|v w]]; try discriminate. injection M as M. exists u, ts2. split; [reflexivity|]. split; [exact M|].
  split; [|exact M2]. rewrite <- M1. unfold lex_fields. cbn [map List.concat]. rewrite app_nil_r. reflexivity.
Qed.

Lemma top_length t : covers t -> 2 < List.length (lt_lexemes t).
Proof.
  intros C. pose proof (cv_top _ C) as G. rewrite <- (map_length fst). destruct G; cbn [List.length app]; try lia.
Qed.

Lemma field_length (p : field * list lexeme) : g_field (map fst (snd p)) (fst p) -> 2 < List.length (snd p).
Proof. intros G. rewrite <- (map_length fst). destruct G; cbn [List.length app]; try lia. Qed.

(** * Faults of located items are the faults of the specification *)

(** Token [i] of [ls] begins where [sp] does. *)
Definition begins (ls : list lexeme) (i : nat) (sp : span) : Prop :=
  exists t sp', nth_error ls i = Some (t, sp') /\ sp_from sp' = sp_from sp.

Lemma whole_begins ts1 t ts2 : covers t ->
  begins (lex_of (ts1 ++ t :: ts2)) (List.length (lex_of ts1)) (whole_span (lt_lexemes t)).
Proof.
  intros C. pose proof (top_length t C). destruct (symbol_nth 0 (lt_lexemes t)) as (x & E); [lia|].
  exists x, (symbol_span 0 (lt_lexemes t)). split; [|reflexivity].
  rewrite <- (Nat.add_0_r (List.length (lex_of ts1))), lex_of_nth by lia. exact E.
Qed.

Lemma value_begins ts1 t ts2 : covers t ->
  begins (lex_of (ts1 ++ t :: ts2)) (List.length (lex_of ts1) + 2) (symbol_span 2 (lt_lexemes t)).
Proof.
  intros C. pose proof (top_length t C). destruct (symbol_nth 2 (lt_lexemes t)) as (x & E); [lia|].
  exists x, (symbol_span 2 (lt_lexemes t)). split; [|reflexivity]. rewrite lex_of_nth by lia. exact E.
Qed.

Lemma field_begins ts1 t ts2 n fs ps1 p ps2 :
  covers t -> lt_top t = TLAccount n fs -> lt_fields t = ps1 ++ p :: ps2 ->
  begins (lex_of (ts1 ++ t :: ts2)) (List.length (lex_of ts1) + 3 + List.length (lex_fields ps1) + value_token (fst p)) (field_span p).
Proof.
  intros C T EP. destruct (cv_block _ C _ _ T) as (MF & a & b & c & mid & d & EL & EM & G).
  rewrite EP in EM, G. apply Forall_app in G as [_ G]. inversion G as [|? ? GP _]; subst. pose proof (field_length p GP) as L.
  fold (lex_fields (ps1 ++ p :: ps2)) in EL.
  assert (exists x sp', nth_error (snd p) (value_token (fst p)) = Some (x, sp') /\ sp' = field_span p) as (x & sp' & E & ->).
  { destruct (symbol_nth (value_token (fst p)) (snd p)) as (x & E); [destruct (fst p); cbn; lia|].
    exists x, (symbol_span (value_token (fst p)) (snd p)). split; [exact E|]. unfold field_span. destruct (fst p); reflexivity. }
  exists x, (field_span p). split; [|reflexivity]. rewrite <- !Nat.add_assoc.
  assert (value_token (fst p) < List.length (snd p)) as LV by (destruct (fst p); cbn; lia).
  assert (List.length (lex_fields ps1) + value_token (fst p) < List.length (lex_fields (ps1 ++ p :: ps2))) as LL.
  { rewrite lex_fields_app, app_length. change (lex_fields (p :: ps2)) with (snd p ++ lex_fields ps2). rewrite app_length. lia. }
  rewrite lex_of_nth by (rewrite EL, !app_length; cbn [List.length]; lia).
  rewrite EL, nth_error_app2 by (cbn; lia).
  replace (3 + (List.length (lex_fields ps1) + value_token (fst p))
           - List.length [(TkKw KwAccount, a); (TkString n, b); (TkLBrace, c)])
    with (List.length (lex_fields ps1) + value_token (fst p)) by (cbn [List.length]; lia).
  rewrite nth_error_app1 by exact LL. rewrite lex_fields_nth by exact LV. exact E.
Qed.

Lemma top_fault_fault O ts1 t ts2 sp m :
  Forall covers (ts1 ++ t :: ts2) -> tops_fine O (map lt_top ts1) -> top_fault O (map lt_top ts1) t sp m ->
  exists i, fault O (map fst (lex_of (ts1 ++ t :: ts2))) i m /\ begins (lex_of (ts1 ++ t :: ts2)) i sp.
Proof.
  intros C F X. apply Forall_app in C as [C1 C]. inversion C as [|? ? CT C2]; subst.
  assert (map fst (lex_of (ts1 ++ t :: ts2)) = map fst (lex_of ts1) ++ map fst (lt_lexemes t) ++ map fst (lex_of ts2)) as ET.
  { rewrite lex_of_app, map_app. change (lex_of (t :: ts2)) with (lt_lexemes t ++ lex_of ts2). rewrite map_app. reflexivity. }
  pose proof (lex_of_grammar _ C1) as G1. pose proof (lex_of_grammar _ C2) as G2. pose proof (cv_top _ CT) as GT.
  destruct X as [T|n NR I IB|n fs ps1 p ps2 m T EP FF FX|n fs m T FF B].
  - exists (List.length (lex_of ts1)). split; [|apply whole_begins, CT]. rewrite <- lex_of_length. rewrite T in GT.
    eapply f_renamed; eassumption.
  - exists (List.length (lex_of ts1) + 2). split; [|apply value_begins, CT]. rewrite <- lex_of_length.
    eapply f_repeated; eassumption.
  - exists (List.length (lex_of ts1) + 3 + List.length (lex_fields ps1) + value_token (fst p)).
    split; [|eapply field_begins; eassumption].
    destruct (cv_block _ CT _ _ T) as (MF & a & b & c & mid & d & EL & EM & G). rewrite EP in EM, G.
    apply Forall_app in G as [GP1 G]. inversion G as [|? ? GP GP2]; subst.
    rewrite <- lex_of_length, <- (map_length fst (lex_fields ps1)).
    apply (f_field O _ _ (map lt_top ts1) n _ (map fst ps1) (map fst (snd p)) (fst p) (map fst (lex_fields ps2)) (map fst ps2)
             (map fst (lex_of ts2)) (map lt_top ts2)); try assumption; try (apply lex_fields_grammar; assumption).
    rewrite ET, EL. fold (lex_fields (ps1 ++ p :: ps2)). rewrite lex_fields_app.
    change (lex_fields (p :: ps2)) with (snd p ++ lex_fields ps2). rewrite !map_app. cbn [map fst]. rewrite <- !app_assoc. reflexivity.
  - exists (List.length (lex_of ts1)). split; [|apply whole_begins, CT]. rewrite <- lex_of_length. rewrite T in GT.
    eapply f_block; eassumption.
Qed.

Lemma fault_top_fault O ts i m :
  Forall covers ts -> fault O (map fst (lex_of ts)) i m ->
  exists ts1 t ts2 sp, ts = ts1 ++ t :: ts2 /\ tops_fine O (map lt_top ts1) /\ top_fault O (map lt_top ts1) t sp m
    /\ begins (lex_of ts) i sp.
Proof.
  intros C X.
  destruct X as [tb before tx ta after E G1 GT G2 F|tb before tx t ta after n E G1 GT G2 F I IB
                |tb before n tf fs tx f tg fs' ta after reason E G1 GF GX GF' G2 F FF FX
                |tb before tx n fs ta after reason E G1 GT G2 F FF B].
  - destruct (split_tops _ _ _ _ C E G1) as (ts1 & ts2 & -> & <- & <- & E2). apply Forall_app in C as [C1 C2].
    destruct (split_top _ _ _ _ C2 E2 GT) as (u & us & -> & T & <- & _). inversion C2 as [|? ? CU _]; subst.
    exists ts1, u, us, (whole_span (lt_lexemes u)). split; [reflexivity|]. split; [exact F|]. split; [apply lf_renamed, T|].
    rewrite lex_of_length. apply whole_begins, CU.
  - destruct (split_tops _ _ _ _ C E G1) as (ts1 & ts2 & -> & <- & <- & E2). apply Forall_app in C as [C1 C2].
    destruct (split_top _ _ _ _ C2 E2 GT) as (u & us & -> & T & <- & _). inversion C2 as [|? ? CU _]; subst.
    exists ts1, u, us, (symbol_span 2 (lt_lexemes u)). split; [reflexivity|]. split; [exact F|]. split.
    + apply lf_repeated; [|exact I|exact IB]. intros T. rewrite T in I. destruct I as [<-|[]]. exact (no_old_name _ _ F IB).
    + rewrite lex_of_length. apply value_begins, CU.
  - destruct (split_tops _ _ _ _ C E G1) as (ts1 & ts2 & -> & <- & <- & E2). apply Forall_app in C as [C1 C2].
    assert (g_toplevel ([TkKw KwAccount; TkString n; TkLBrace] ++ (tf ++ tx ++ tg) ++ [TkRBrace]) (TLAccount n (fs ++ f :: fs'))) as GT.
    { constructor. apply g_fields_app; [exact GF|]. apply g_fields_cons; assumption. }
    assert (map fst (lex_of ts2) = ([TkKw KwAccount; TkString n; TkLBrace] ++ (tf ++ tx ++ tg) ++ [TkRBrace]) ++ ta) as E3
      by (rewrite E2, <- !app_assoc; reflexivity).
    destruct (split_top _ _ _ _ C2 E3 GT) as (u & us & -> & T & EU & _).
    inversion C2 as [|? ? CU _]; subst. destruct (cv_block _ CU _ _ T) as (MF & a & b & c & mid & d & EL & EM & G).
    rewrite EL in EU. cbn [map fst app] in EU. injection EU as EU. rewrite map_app in EU. cbn [map fst] in EU.
    apply app_inv_tail in EU. rewrite EM in EU. fold (lex_fields (lt_fields u)) in EU.
    destruct (split_fields _ _ _ _ G EU GF) as (ps1 & psr & EP & <- & <- & ER). rewrite EP in G. apply Forall_app in G as [_ G].
    destruct (split_field _ _ _ _ G ER GX) as (p & ps2 & -> & <- & <- & _).
    exists ts1, u, us, (field_span p). split; [reflexivity|]. split; [exact F|]. split; [eapply lf_field; eassumption|].
    rewrite lex_of_length, map_length. eapply field_begins; eassumption.
  - destruct (split_tops _ _ _ _ C E G1) as (ts1 & ts2 & -> & <- & <- & E2). apply Forall_app in C as [C1 C2].
    destruct (split_top _ _ _ _ C2 E2 GT) as (u & us & -> & T & <- & _). inversion C2 as [|? ? CU _]; subst.
    exists ts1, u, us, (whole_span (lt_lexemes u)). split; [reflexivity|]. split; [exact F|]. split; [eapply lf_block; eassumption|].
    rewrite lex_of_length. apply whole_begins, CU.
Qed.

(** * The file as a whole *)

Lemma redirect_checks_err hl hsl l m :
  redirect_checks hl hsl l = Err m -> exists n act, In (n, act) l /\ redirect_check hl hsl (n, act) = Err m.
Proof.
  induction l as [|[n act] l IH]; [discriminate|]. cbn [redirect_checks]. intros E. apply bind_err in E as [E|([] & _ & E)].
  - exists n, act. split; [left; reflexivity|exact E].
  - destruct (IH E) as (n' & a' & I & X). exists n', a'. split; [right; exact I|exact X].
Qed.

Lemma redirect_checks_no_panic hl hsl l : redirect_checks hl hsl l <> Panic.
Proof.
  induction l as [|p l IH]; [discriminate|]. cbn [redirect_checks]. apply bind_no_panic; [apply redirect_check_no_panic|auto].
Qed.

Lemma whole_outcome O h tree :
  Forall top_ok tree -> tops_fine O tree ->
  match tops_finish h (tfill O tree) with
  | Val _ => ~ exists m, whole_fault O tree m
  | Err m => whole_fault O tree m
  | Panic => False
  end.
Proof.
  intros K F. apply (tops_fine_iff O tree K) in F as (N & V).
  pose proof (proj2 (http_listen_iff tree None N K)) as H1. pose proof (proj2 (https_listen_iff tree None N K)) as H2.
  pose proof (fun name act => in_blocks O tree h name act V K) as IB.
  assert (forall n fs, In (TLAccount n fs) tree -> exists name act, n = quote_string name /\ block_means O name fs act) as BL.
  { intros n fs I. rewrite Forall_forall in V, K. destruct (K _ I) as [Q FF]. exact (proj1 (block_valid_iff O n fs Q FF) (V _ I)). }
  assert (hsort (fun p => h (fst p)) (blocks O tree) = [] <-> ~ exists n fs, In (TLAccount n fs) tree) as NA.
  { split.
    - intros E (n & fs & I). destruct (BL n fs I) as (name & act & -> & _). destruct (last_block_exists name tree fs I) as (fs' & L).
      pose proof (last_block_in _ _ _ L) as I'. destruct (BL _ _ I') as (name' & act' & Q & B). apply quote_inj in Q as <-.
      pose proof (proj2 (IB name act') (ex_intro _ fs' (conj L B))) as X. rewrite E in X. destruct X.
    - intros NE. destruct (hsort (fun p => h (fst p)) (blocks O tree)) as [|[name act] l] eqn:E; [reflexivity|].
      destruct (proj1 (IB name act) (or_introl eq_refl)) as (fs & L & _). apply last_block_in in L. destruct NE. eauto. }
  pose proof (redirect_checks_err (first_of o_http tree) (first_of o_https tree) (hsort (fun p => h (fst p)) (blocks O tree))) as RE.
  pose proof (proj1 (redirect_checks_iff (first_of o_http tree) (first_of o_https tree) (hsort (fun p => h (fst p)) (blocks O tree)))) as RV.
  pose proof (redirect_checks_no_panic (first_of o_http tree) (first_of o_https tree) (hsort (fun p => h (fst p)) (blocks O tree))) as RP.
  assert (match tops_finish h (tfill O tree) with
    | Val _ => ~ (first_of o_http tree = Some None /\ first_of o_https tree = Some None)
               /\ hsort (fun p => h (fst p)) (blocks O tree) <> []
               /\ redirect_checks (first_of o_http tree) (first_of o_https tree) (hsort (fun p => h (fst p)) (blocks O tree)) = Val tt
    | Err m =>
       (first_of o_http tree = Some None /\ first_of o_https tree = Some None /\ m = $"Cannot set both http_listen and https_listen to 'none'")
       \/ (~ (first_of o_http tree = Some None /\ first_of o_https tree = Some None)
           /\ ((hsort (fun p => h (fst p)) (blocks O tree) = [] /\ m = $"Must specify at least one account")
               \/ redirect_checks (first_of o_http tree) (first_of o_https tree) (hsort (fun p => h (fst p)) (blocks O tree)) = Err m))
    | Panic => False
    end) as T.
  { unfold tops_finish, tfill. cbn [t_http_listen t_https_listen t_accounts].
    set (l := hsort (fun p => h (fst p)) (blocks O tree)) in *. clearbody l.
    destruct (first_of o_http tree) as [[a|]|]; destruct (first_of o_https tree) as [[b|]|];
      first [ left; split; [reflexivity|split; reflexivity]
            | destruct l as [|x l]; [right; split; [intros (A & B); discriminate|left; split; reflexivity]|];
              destruct (redirect_checks _ _ (x :: l)) as [[]|m|] eqn:R; cbn [bind];
              [ split; [intros (A & B); discriminate|split; [discriminate|reflexivity]]
              | right; split; [intros (A & B); discriminate|right; reflexivity]
              | exact (RP eq_refl) ] ]. }
  destruct (tops_finish h (tfill O tree)) as [c|m|].
  - destruct T as (NB & NE & R). rewrite H1, H2 in NB. intros (m & X).
    destruct X as [I1 I2|_ NA'|name fs act r N1 I2 L B E|name fs act r I1 N2 L B E E'].
    + tauto.
    + apply NE, NA, NA'.
    + apply (proj1 (RV R name act (proj2 (IB name act) (ex_intro _ fs (conj L B)))) r E). apply H2, I2.
    + apply (proj2 (RV R name act (proj2 (IB name act) (ex_intro _ fs (conj L B)))) r E E'). apply H1, I1.
  - destruct T as [(I1 & I2 & ->)|(NB & [(E & ->)|E])]; [apply H1 in I1; apply H2 in I2|rewrite H1, H2 in NB..].
    + apply wf_no_server; assumption.
    + apply wf_no_account; [exact NB|apply NA, E].
    + apply RE in E as (name & act & I & E). apply IB in I as (fs & L & B). unfold redirect_check in E.
      destruct (starts_with $"https" (a_redirect_uri act)) eqn:S1.
      * destruct (first_of o_https tree) as [[b|]|] eqn:HS; try discriminate. injection E as <-.
        apply starts_with_iff in S1 as (r & S1). apply (wf_https O tree name fs act r); try assumption; [|apply H2; reflexivity].
        intros I1. apply NB. split; [exact I1|]. apply H2. reflexivity.
      * destruct (starts_with $"http" (a_redirect_uri act)) eqn:S2; [|discriminate].
        destruct (first_of o_http tree) as [[b|]|] eqn:HS; try discriminate. injection E as <-.
        apply starts_with_iff in S2 as (r & S2). apply (wf_http O tree name fs act r); try assumption.
        -- apply H1. reflexivity.
        -- intros I2. apply NB. split; [|exact I2]. apply H1. reflexivity.
        -- intros r' ->. apply (starts_with_false _ _ S1 r'). rewrite S2. reflexivity.
  - exact T.
Qed.

(** * Reading a text *)

Lemma from_str_parsed O h s toks tree :
  lexes s toks -> g_toplevels toks tree ->
  exists ls ts, lexemes s = Some ls /\ map fst ls = toks /\ ls = lex_of ts /\ map lt_top ts = tree
    /\ Forall covers ts /\ Forall top_ok tree
    /\ from_str O h s = (a <- l_tops_loop O s tacc0 ts ;; tops_finish h a).
Proof.
  intros L G. pose proof (text_items_ok _ _ _ L G) as K. apply lex_iff in L. destruct (lexemes_lex _ _ L) as (ls & E & M).
  destruct (l_toplevels_spec (List.length ls) ls) as (P & C).
  rewrite M in P. rewrite <- (map_length fst ls), M in P. fold (parse_tokens toks) in P.
  rewrite (proj2 (parse_tokens_grammar _ _) G) in P. rewrite <- M, map_length in P.
  destruct (l_toplevels (List.length ls) ls) as [ts|] eqn:T; [|discriminate]. cbn [option_map] in P. injection P as P.
  destruct (C ts eq_refl) as (EL & CF). exists ls, ts. unfold from_str. rewrite E, T. repeat split; auto.
Qed.

Lemma fault_parses O toks i m : fault O toks i m -> exists tree, g_toplevels toks tree.
Proof.
  assert (forall tb before tx t ta after, g_toplevels tb before -> g_toplevel tx t -> g_toplevels ta after ->
    g_toplevels (tb ++ tx ++ ta) (before ++ t :: after)) as J.
  { intros tb before tx t ta after G1 GT G2. revert tb G1. induction before as [|x before IH]; intros tb G1; apply g_toplevels_inv in G1.
    - subst tb. exact (g_toplevels_cons _ _ _ _ GT G2).
    - destruct G1 as (a & b & -> & GX & G1). rewrite <- app_assoc. apply g_toplevels_cons; auto. }
  intros X.
  destruct X as [tb before tx ta after E G1 GT G2 F|tb before tx t ta after n E G1 GT G2 F I IB
                |tb before n tf fs tx f tg fs' ta after reason E G1 GF GX GF' G2 F FF FX
                |tb before tx n fs ta after reason E G1 GT G2 F FF B]; subst toks; eauto.
  assert (g_toplevel ([TkKw KwAccount; TkString n; TkLBrace] ++ (tf ++ tx ++ tg) ++ [TkRBrace]) (TLAccount n (fs ++ f :: fs'))) as GT.
  { constructor. apply g_fields_app; [exact GF|]. apply g_fields_cons; assumption. }
  pose proof (J _ _ _ _ _ _ G1 GT G2) as G. rewrite <- !app_assoc in G. eauto.
Qed.

Lemma begins_at s ls i sp : lexemes s = Some ls -> begins ls i sp ->
  token_begins s i (sp_from sp) /\ sp_from sp <= List.length s.
Proof.
  intros L (t & sp' & N & E). rewrite <- E. pose proof (lexeme_begins s ls i t sp' L N) as B. split; [exact B|].
  destruct B as (? & ? & ? & ? & ? & _ & _ & _ & Q). lia.
Qed.

(** What is wrong is reported. *)
Lemma fault_reported O h s toks i reason :
  lexes s toks -> fault O toks i reason ->
  exists off report, token_begins s i off /\ reported_at s off reason report /\ from_str O h s = Err report.
Proof.
  intros L X. destruct (fault_parses _ _ _ _ X) as (tree & G).
  destruct (from_str_parsed O h s toks tree L G) as (ls & ts & E & M & EL & MT & C & K & FS). subst toks ls tree.
  destruct (fault_top_fault _ _ _ _ C X) as (ts1 & t & ts2 & sp & -> & F & TX & B).
  destruct (begins_at _ _ _ _ E B) as (TB & LE). exists (sp_from sp), (error_at_span s sp reason).
  split; [exact TB|]. split; [apply error_reported, LE|]. rewrite FS, (l_tops_fault O s ts1 t ts2 sp reason K C F TX). reflexivity.
Qed.

Lemma map_split {A B} (g : A -> B) l b y a : map g l = b ++ y :: a -> exists l1 x l2, l = l1 ++ x :: l2 /\ map g l1 = b /\ g x = y /\ map g l2 = a.
Proof.
  revert b. induction l as [|z l IH]; intros [|c b] E; try discriminate.
  - injection E as E1 E2. exists [], z, l. auto.
  - injection E as E1 E2. destruct (IH b E2) as (l1 & x & l2 & -> & A1 & A2 & A3). exists (z :: l1), x, l2. cbn. rewrite E1, A1. auto.
Qed.

Lemma time_fault_reported O h s toks tree :
  lexes s toks -> g_toplevels toks tree -> time_fault O tree ->
  exists r, from_str O h s = Err ($"Invalid time: " ++ r).
Proof.
  intros L G X. destruct (from_str_parsed O h s toks tree L G) as (ls & ts & E & M & EL & MT & C & K & FS). rewrite FS. clear FS.
  assert (exists ts1 t ts2, ts = ts1 ++ t :: ts2 /\ tops_fine O (map lt_top ts1) /\ top_late O (map lt_top ts1) t)
    as (ts1 & t & ts2 & -> & F & TL).
  { destruct X as [before t after x ET F NX TT TL|before n fs f fs' after x ET F FF NX TT TL];
      rewrite ET in MT; apply map_split in MT as (ts1 & u & ts2 & -> & <- & EU & _).
    - exists ts1, u, ts2. split; [reflexivity|]. split; [exact F|]. rewrite <- EU in *. eapply ll_option; eassumption.
    - exists ts1, u, ts2. split; [reflexivity|]. split; [exact F|]. apply Forall_app in C as [_ C]. inversion C as [|? ? CU _]; subst.
      destruct (cv_block _ CU _ _ EU) as (MF & _). apply map_split in MF as (ps1 & p & ps2 & EP & <- & <- & _).
      eapply ll_field; eassumption. }
  subst tree. destruct (l_tops_late O s ts1 t ts2 K C F TL) as (r & R). rewrite R. exists r. reflexivity.
Qed.

Lemma whole_fault_reported O h s toks tree m :
  lexes s toks -> g_toplevels toks tree -> tops_fine O tree -> whole_fault O tree m ->
  exists m', whole_fault O tree m' /\ from_str O h s = Err m'.
Proof.
  intros L G F X. destruct (from_str_parsed O h s toks tree L G) as (ls & ts & E & M & EL & MT & C & K & FS).
  rewrite FS. rewrite <- MT in K, F. rewrite (l_tops_fine O s ts K C F). rewrite MT in *. cbn [bind].
  pose proof (whole_outcome O h tree K F) as W. destruct (tops_finish h (tfill O tree)) as [c|m'|]; [|eauto|tauto].
  destruct W. eauto.
Qed.

(** Every rejection is one of these. *)
Lemma rejected_because O h s report :
  from_str O h s = Err report ->
  (~ exists toks tree, lexes s toks /\ g_toplevels toks tree)
  \/ exists toks tree, lexes s toks /\ g_toplevels toks tree
     /\ ((exists i reason off, fault O toks i reason /\ token_begins s i off /\ reported_at s off reason report)
         \/ (time_fault O tree /\ exists r, report = $"Invalid time: " ++ r)
         \/ (tops_fine O tree /\ whole_fault O tree report)).
Proof.
  intros E. destruct (lex_total s) as (toks & LX).
  destruct (parse_tokens toks) as [tree|] eqn:P.
  2:{ left. intros (toks' & tree & L & G). apply lex_iff in L. rewrite LX in L. injection L as <-.
      rewrite (proj2 (parse_tokens_grammar _ _) G) in P. discriminate. }
  right. exists toks, tree. apply parse_tokens_grammar in P. apply lex_iff in LX. split; [exact LX|]. split; [exact P|].
  destruct (from_str_parsed O h s toks tree LX P) as (ls & ts & LE & M & EL & MT & C & K & FS). rewrite FS in E.
  rewrite <- MT in K. pose proof (l_tops_outcome O s ts K C) as LO.
  destruct (l_tops_loop O s tacc0 ts) as [a|m|]; cbn [bind] in E; [| |destruct LO].
  - right. right. destruct LO as (F & ->). rewrite MT in *. split; [exact F|].
    pose proof (whole_outcome O h tree K F) as W. rewrite E in W. exact W.
  - injection E as ->. destruct LO as (ts1 & t & ts2 & -> & F & [(sp & m0 & X & ->)|(X & r & ->)]).
    + left. destruct (top_fault_fault _ _ _ _ _ _ C F X) as (i & FI & B). subst ls.
      destruct (begins_at _ _ _ _ LE B) as (TB & SL). exists i, m0, (sp_from sp). rewrite <- M.
      split; [exact FI|]. split; [exact TB|apply error_reported, SL].
    + right. left. split; [|exists r; reflexivity]. rewrite <- MT, map_app. cbn [map].
      apply Forall_app in C as [_ C]. inversion C as [|? ? CU _]; subst.
      destruct X as [x NX TT TL|n fs ps1 p ps2 x T EP FF NX TT TL].
      * eapply tf_option; [reflexivity|..]; eassumption.
      * destruct (cv_block _ CU _ _ T) as (MF & _). rewrite EP, map_app in MF. cbn [map] in MF. subst fs. rewrite T.
        eapply tf_field; [reflexivity|..]; eassumption.
Qed.

(** A text with nothing wrong is accepted. *)
Lemma accepted_iff O h s :
  (exists c, from_str O h s = Val c)
  <-> exists toks tree, lexes s toks /\ g_toplevels toks tree /\ tops_fine O tree /\ ~ exists m, whole_fault O tree m.
Proof.
  split.
  - intros (c & E). apply from_str_val in E as E0. apply reads_sound in E0 as (toks & tree & L & G & _).
    exists toks, tree. split; [exact L|]. split; [exact G|].
    destruct (from_str_parsed O h s toks tree L G) as (ls & ts & LE & M & EL & MT & C & K & FS). rewrite FS in E.
    rewrite <- MT in K. pose proof (l_tops_outcome O s ts K C) as LO.
    destruct (l_tops_loop O s tacc0 ts) as [a|m|]; cbn [bind] in E; try discriminate. destruct LO as (F & ->). rewrite MT in *.
    split; [exact F|]. pose proof (whole_outcome O h tree K F) as W. rewrite E in W. exact W.
  - intros (toks & tree & L & G & F & W). destruct (from_str O h s) as [c|m|] eqn:E; [eauto| |destruct (from_str_no_panic O h s E)].
    exfalso. destruct (from_str_parsed O h s toks tree L G) as (ls & ts & LE & M & EL & MT & C & K & FS). rewrite FS in E.
    rewrite <- MT in K, F. rewrite (l_tops_fine O s ts K C F) in E. rewrite MT in *. cbn [bind] in E.
    pose proof (whole_outcome O h tree K F) as WO. rewrite E in WO. apply W. eauto.
Qed.
