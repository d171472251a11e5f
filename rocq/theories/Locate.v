(** The configuration reader with places (Located.v) agrees with the one without
    (Config.v) but for the places, and reports the first thing wrong where it
    is. *)
From Verif Require Import Base BaseLemmas Time Url Oracles ConfigLex ConfigParse Config Located SpecConfig SpecGrammar SpecLex
  SpecBlocks SpecReport LexLemmas Lexing ConfigParseProofs ConfigLemmas Blocks Tops Reads Places.

(** * Productions and their lexemes *)

(** The fields of a block cover consecutive lexemes. *)
Definition covers_fields (lfs : list (field * list lexeme)) (ls : list lexeme) : Prop :=
  ls = List.concat (map snd lfs) /\ Forall (fun p => g_field (map fst (snd p)) (fst p)) lfs.

(** What a located item is about. *)
Record covers (t : located) : Prop := {
  cv_top : g_toplevel (map fst (lt_lexemes t)) (lt_top t);
  cv_block : forall n fs, lt_top t = TLAccount n fs ->
    map fst (lt_fields t) = fs
    /\ exists a b c mid d, lt_lexemes t = [(TkKw KwAccount, a); (TkString n, b); (TkLBrace, c)] ++ mid ++ [(TkRBrace, d)]
         /\ covers_fields (lt_fields t) mid;
}.

Lemma map_fst_app {A B} (ls : list (A * B)) t r :
  map fst ls = t ++ r ->
  map fst (firstn (List.length ls - List.length r) ls) = t
  /\ map fst (skipn (List.length ls - List.length r) ls) = r.
Proof.
  intros E. assert (List.length ls - List.length r = List.length t) as ->.
  { apply (f_equal (@List.length A)) in E. rewrite map_length, app_length in E. lia. }
  rewrite <- firstn_map, <- skipn_map, E. split.
  - rewrite firstn_app, firstn_all, Nat.sub_diag, firstn_O, app_nil_r. reflexivity.
  - rewrite skipn_app, skipn_all, Nat.sub_diag, skipn_O. reflexivity.
Qed.

Lemma l_fields_spec : forall fs fuel ls ts d,
  map fst ls = ts ++ [TkRBrace] ++ d -> g_fields ts fs -> List.length fs <= fuel ->
  map fst (l_fields fuel ls) = fs
  /\ covers_fields (l_fields fuel ls) (firstn (List.length ts) ls).
Proof.
  induction fs as [|f fs IH]; intros fuel ls ts d E G L.
  - apply g_fields_inv in G as ->. cbn [app] in E. destruct fuel as [|fuel]; [split; [reflexivity|split; [reflexivity|constructor]]|].
    cbn [l_fields]. rewrite E. split; [reflexivity|]. split; [reflexivity|constructor].
  - destruct fuel as [|fuel]; [cbn in L; lia|]. apply g_fields_inv in G as (t1 & t2 & -> & GF & G).
    cbn [l_fields]. rewrite E. rewrite <- app_assoc, (p_field_complete _ _ _ GF). rewrite <- app_assoc in E.
    destruct (map_fst_app _ _ _ E) as [E1 E2].
    assert (List.length ls - List.length (t2 ++ [TkRBrace] ++ d) = List.length t1) as N.
    { pose proof (f_equal (@List.length token) E) as LE. rewrite map_length, app_length in LE. lia. }
    rewrite N in *. destruct (IH fuel _ t2 d E2 G ltac:(cbn in L; lia)) as (M & C & F).
    cbn [map fst]. split; [f_equal; exact M|]. split.
    + cbn [map snd List.concat]. rewrite <- C. rewrite app_length. clear. revert ls. generalize (List.length t1) as n.
      induction n as [|n IH]; intros ls; [reflexivity|]. destruct ls as [|x ls]; [cbn; destruct (List.length t2); reflexivity|].
      cbn. f_equal. apply IH.
    + constructor; [|exact F]. cbn [fst snd]. rewrite E1. exact GF.
Qed.

Lemma map_fst_cons {A B} (l : list (A * B)) x r : map fst l = x :: r -> exists b l', l = (x, b) :: l' /\ map fst l' = r.
Proof. destruct l as [|[a b] l]; [discriminate|]. cbn. intros E. injection E as -> <-. eauto. Qed.

Lemma l_toplevel_spec ls t r :
  l_toplevel ls = Some (t, r) ->
  p_toplevel (map fst ls) = Some (lt_top t, map fst r) /\ ls = lt_lexemes t ++ r /\ covers t.
Proof.
  unfold l_toplevel. destruct (p_toplevel (map fst ls)) as [[x rt]|] eqn:P; [|discriminate].
  intros E. injection E as <- <-. destruct (p_toplevel_sound _ _ _ P) as (tx & EX & G).
  destruct (map_fst_app _ _ _ EX) as [E1 E2]. set (n := List.length ls - List.length rt) in *.
  cbn [lt_top lt_lexemes]. split; [rewrite E2; reflexivity|]. split; [symmetry; apply firstn_skipn|].
  split; cbn [lt_top lt_lexemes lt_fields]; [rewrite E1; exact G|].
  clearbody n. intros nm fs ->. rename E1 into M.
  inversion G as [n0 ts fs0 GF TX NX| | | | | | | | | | | | |]. subst n0 fs0. rewrite <- TX in M. clear G TX. cbn [app] in M.
  destruct (map_fst_cons _ _ _ M) as (a & l1 & F1 & M1). destruct (map_fst_cons _ _ _ M1) as (b & l2 & -> & M2).
  destruct (map_fst_cons _ _ _ M2) as (c & l3 & -> & M3). rewrite F1. cbn [skipn].
  destruct (l_fields_spec fs n l3 ts [] M3 GF) as (MF & CF).
  { pose proof (g_fields_length _ _ GF). apply (f_equal (@List.length token)) in M.
    rewrite map_length, firstn_length in M. cbn in M. rewrite app_length in M. lia. }
  split; [exact MF|].
  assert (exists d, l3 = firstn (List.length ts) l3 ++ [(TkRBrace, d)]) as (d & ED).
  { assert (map fst (skipn (List.length ts) l3) = [TkRBrace]) as K.
    { rewrite <- skipn_map, M3, skipn_app, skipn_all, Nat.sub_diag. reflexivity. }
    destruct (map_fst_cons _ _ _ K) as (d & l' & SK & ME). destruct l'; [|discriminate]. exists d.
    rewrite <- SK. symmetry. apply firstn_skipn. }
  exists a, b, c, (firstn (List.length ts) l3), d. split; [cbn [app]; rewrite <- ED; reflexivity|exact CF].
Qed.

Lemma l_toplevels_spec fuel : forall ls,
  option_map (map lt_top) (l_toplevels fuel ls) = p_toplevels fuel (map fst ls)
  /\ forall l, l_toplevels fuel ls = Some l -> ls = List.concat (map lt_lexemes l) /\ Forall covers l.
Proof.
  induction fuel as [|fuel IH]; intros ls.
  - destruct ls as [|x ls]; (split; [reflexivity|]); intros l E; [injection E as <-|discriminate].
    split; [reflexivity|constructor].
  - destruct ls as [|x ls]; [split; [reflexivity|]; intros l E; injection E as <-; split; [reflexivity|constructor]|].
    cbn [l_toplevels map p_toplevels]. change (fst x :: map fst ls) with (map fst (x :: ls)).
    destruct (l_toplevel (x :: ls)) as [[t r]|] eqn:E1.
    + destruct (l_toplevel_spec _ _ _ E1) as (P & S & C). rewrite P. destruct (IH r) as (I1 & I2). rewrite <- I1.
      destruct (l_toplevels fuel r) as [l0|]; [|split; [reflexivity|discriminate]].
      split; [reflexivity|]. intros l E. injection E as <-. destruct (I2 l0 eq_refl) as (S0 & F0).
      split; [cbn; rewrite <- S0; exact S|constructor; assumption].
    + assert (p_toplevel (map fst (x :: ls)) = None) as ->; [|split; [reflexivity|discriminate]].
      unfold l_toplevel in E1. destruct (p_toplevel (map fst (x :: ls))) as [[y rt]|]; [discriminate|reflexivity].
Qed.

(** * Agreement *)

Definition same_but_place {A} (s : str) (o o' : outcome A) : Prop :=
  match o, o' with
  | Val x, Val y => x = y
  | Err m, Err m' => m' = m \/ exists sp, m' = error_at_span s sp m
  | Panic, Panic => True
  | _, _ => False
  end.

Lemma same_refl {A} s (o : outcome A) : same_but_place s o o.
Proof. destruct o; cbn; auto. Qed.

Lemma same_at {A} s sp (o : outcome A) : same_but_place s o (at_span s sp o).
Proof. destruct o; cbn; eauto. Qed.

Lemma same_bind {A B} s (o o' : outcome A) (f f' : A -> outcome B) :
  same_but_place s o o' -> (forall x, same_but_place s (f x) (f' x)) ->
  same_but_place s (bind o f) (bind o' f').
Proof. intros S F. destruct o, o'; cbn in *; try tauto. subst. apply F. Qed.

Ltac same := match goal with
  | |- same_but_place _ (bind _ _) (bind _ _) => apply same_bind; [|intros ?; same]
  | |- same_but_place _ _ (at_span _ _ _) => apply same_at
  | |- _ => apply same_refl
  end.

Lemma field_step_same O s a p : same_but_place s (field_step O a (fst p)) (l_field_step O s a p).
Proof.
  destruct a, p as [f ls]. unfold l_field_step. generalize (field_span (f, ls)). intros sp.
  destruct f; cbn [fst field_step]; repeat same.
Qed.

Lemma fields_loop_same O s fs : forall a, same_but_place s (fields_loop O a (map fst fs)) (l_fields_loop O s a fs).
Proof.
  induction fs as [|p fs IH]; intros a; [reflexivity|]. cbn [map fields_loop l_fields_loop].
  apply same_bind; [apply field_step_same|exact IH].
Qed.

Lemma from_fields_same O s n sp fs : same_but_place s (from_fields O n (map fst fs)) (l_from_fields O s n sp fs).
Proof. apply same_bind; [apply fields_loop_same|]. intros a. apply same_at. Qed.

Lemma top_step_same O s a t : covers t -> same_but_place s (top_step O a (lt_top t)) (l_top_step O s a t).
Proof.
  intros [_ CB]. destruct a, t as [x ls fs]. unfold l_top_step. generalize (top_span (mkLocated x ls fs)). intros sp.
  cbn [lt_top lt_fields] in *. destruct x; cbn [top_step]; try (repeat same; fail).
  destruct (CB _ _ eq_refl) as (<- & _). apply same_bind; [apply from_fields_same|]. intros y. apply same_refl.
Qed.

Lemma tops_loop_same O s ts : forall a, Forall covers ts ->
  same_but_place s (tops_loop O a (map lt_top ts)) (l_tops_loop O s a ts).
Proof.
  induction ts as [|t ts IH]; intros a F; [reflexivity|]. inversion F as [|? ? C F']; subst.
  cbn [map tops_loop l_tops_loop]. apply same_bind; [apply top_step_same, C|]. intros x. apply IH, F'.
Qed.

Lemma from_str_same O h s : same_but_place s (config_from_str O h s) (from_str O h s).
Proof.
  unfold config_from_str, from_str. destruct (lexemes_some s) as (ls & L). rewrite L.
  assert (lex s = Some (map fst ls)) as ->.
  { unfold lex, lexemes in *. rewrite <- (lexemes_fst _ 0), L. reflexivity. }
  unfold parse_tokens. destruct (l_toplevels_spec (List.length ls) ls) as (P & C).
  rewrite map_length, <- P. destruct (l_toplevels (List.length ls) ls) as [ts|]; [|left; reflexivity].
  cbn [option_map]. destruct (C ts eq_refl) as (_ & F). unfold config_of_toplevels.
  apply same_bind; [apply tops_loop_same, F|]. intros a. apply same_refl.
Qed.

Lemma from_str_val O h s c : from_str O h s = Val c <-> config_from_str O h s = Val c.
Proof.
  pose proof (from_str_same O h s) as S. destruct (from_str O h s), (config_from_str O h s); cbn in S;
    try tauto; try (subst; tauto); split; discriminate.
Qed.

Lemma from_str_no_panic O h s : from_str O h s <> Panic.
Proof.
  intros E. pose proof (from_str_same O h s) as S. rewrite E in S.
  destruct (config_from_str O h s) eqn:C; cbn in S; try tauto. exact (config_from_str_no_panic O h s C).
Qed.
