(** The parser accepts exactly the grammar of SpecGrammar.v. *)
From Verif Require Import Base BaseLemmas ConfigLex ConfigParse SpecGrammar.

Definition commas (l : list str) : list token := flat_map (fun s => [TkComma; TkString s]) l.
Definition comma_pairs (l : list (str * str)) : list token :=
  flat_map (fun kv => [TkComma; TkString (fst kv); TkColon; TkString (snd kv)]) l.

Lemma commas_app a b : commas (a ++ b) = commas a ++ commas b.
Proof. apply flat_map_app. Qed.

Lemma comma_pairs_app a b : comma_pairs (a ++ b) = comma_pairs a ++ comma_pairs b.
Proof. apply flat_map_app. Qed.

Lemma g_scopes_iff ts l :
  g_scopes ts l <->
  ts = commas l \/ exists s l', l = s :: l' /\ ts = TkString s :: commas l'.
Proof.
  split.
  - intros G. induction G as [ts l s G [->|(s0 & l' & -> & ->)]|s|].
    + left. rewrite commas_app. reflexivity.
    + right. exists s0, (l' ++ [s]). rewrite commas_app. auto.
    + right. exists s, []. auto.
    + left. reflexivity.
  - assert (forall l0 ts0 l1, g_scopes ts0 l0 -> g_scopes (ts0 ++ commas l1) (l0 ++ l1)) as K.
    { intros l0 ts0 l1. revert l0 ts0. induction l1 as [|s l1 IH]; intros l0 ts0 G; simpl.
      - rewrite !app_nil_r. exact G.
      - specialize (IH (l0 ++ [s]) (ts0 ++ [TkComma; TkString s]) (gs_more _ _ s G)).
        rewrite <- !app_assoc in IH. exact IH. }
    intros [->|(s & l' & -> & ->)].
    + apply (K [] []). constructor.
    + apply (K [s] [TkString s]). constructor.
Qed.

Lemma g_uri_fields_iff ts l :
  g_uri_fields ts l <->
  ts = comma_pairs l
  \/ exists k v l', l = (k, v) :: l' /\ ts = TkString k :: TkColon :: TkString v :: comma_pairs l'.
Proof.
  split.
  - intros G. induction G as [ts l k v G [->|(k0 & v0 & l' & -> & ->)]|k v|].
    + left. rewrite comma_pairs_app. reflexivity.
    + right. exists k0, v0, (l' ++ [(k, v)]). rewrite comma_pairs_app. auto.
    + right. exists k, v, []. auto.
    + left. reflexivity.
  - assert (forall l0 ts0 l1, g_uri_fields ts0 l0 -> g_uri_fields (ts0 ++ comma_pairs l1) (l0 ++ l1)) as K.
    { intros l0 ts0 l1. revert l0 ts0. induction l1 as [|[k v] l1 IH]; intros l0 ts0 G; simpl.
      - rewrite !app_nil_r. exact G.
      - specialize (IH (l0 ++ [(k, v)]) (ts0 ++ [TkComma; TkString k; TkColon; TkString v]) (gu_more _ _ k v G)).
        rewrite <- !app_assoc in IH. exact IH. }
    intros [->|(k & v & l' & -> & ->)].
    + apply (K [] []). constructor.
    + apply (K [(k, v)] [TkString k; TkColon; TkString v]). constructor.
Qed.

(** Lists of fields and items, from the front. *)
Lemma g_fields_cons ts f ts' fs : g_field ts f -> g_fields ts' fs -> g_fields (ts ++ ts') (f :: fs).
Proof.
  intros F G. induction G as [ts1 fs1 ts2 f2 G IH F2|].
  - rewrite app_assoc. apply (gfs_more _ (f :: fs1)); assumption.
  - rewrite app_nil_r. apply (gfs_more [] []); [constructor|exact F].
Qed.

Lemma g_fields_inv ts fs :
  g_fields ts fs ->
  match fs with
  | [] => ts = []
  | f :: fs' => exists t1 t2, ts = t1 ++ t2 /\ g_field t1 f /\ g_fields t2 fs'
  end.
Proof.
  intros G. induction G as [ts fs ts' f G IH F|]; [|reflexivity].
  destruct fs as [|f0 fs0]; simpl.
  - subst ts. exists ts', []. rewrite app_nil_r. split; [reflexivity|]. split; [exact F|constructor].
  - destruct IH as (t1 & t2 & -> & F0 & G0). exists t1, (t2 ++ ts'). rewrite app_assoc.
    split; [reflexivity|]. split; [exact F0|]. constructor; assumption.
Qed.

Lemma g_toplevels_cons ts f ts' fs :
  g_toplevel ts f -> g_toplevels ts' fs -> g_toplevels (ts ++ ts') (f :: fs).
Proof.
  intros F G. induction G as [ts1 fs1 ts2 f2 G IH F2|].
  - rewrite app_assoc. apply (gts_more _ (f :: fs1)); assumption.
  - rewrite app_nil_r. apply (gts_more [] []); [constructor|exact F].
Qed.

Lemma g_toplevels_inv ts fs :
  g_toplevels ts fs ->
  match fs with
  | [] => ts = []
  | f :: fs' => exists t1 t2, ts = t1 ++ t2 /\ g_toplevel t1 f /\ g_toplevels t2 fs'
  end.
Proof.
  intros G. induction G as [ts fs ts' f G IH F|]; [|reflexivity].
  destruct fs as [|f0 fs0]; simpl.
  - subst ts. exists ts', []. rewrite app_nil_r. split; [reflexivity|]. split; [exact F|constructor].
  - destruct IH as (t1 & t2 & -> & F0 & G0). exists t1, (t2 ++ ts'). rewrite app_assoc.
    split; [reflexivity|]. split; [exact F0|]. constructor; assumption.
Qed.

(** * Soundness *)

Lemma p_comma_strs_sound n ts l r :
  List.length ts <= n -> p_comma_strs ts = (l, r) -> ts = commas l ++ r.
Proof.
  revert ts l r. induction n as [|n IH]; intros ts l r L E.
  - destruct ts; [|simpl in L; lia]. simpl in E. injection E as <- <-. reflexivity.
  - destruct ts as [|t0 ts]; [simpl in E; injection E as <- <-; reflexivity|].
    destruct t0; try (simpl in E; injection E as <- <-; reflexivity).
    destruct ts as [|t1 ts]; [simpl in E; injection E as <- <-; reflexivity|].
    destruct t1; try (simpl in E; injection E as <- <-; reflexivity).
    cbn [p_comma_strs] in E. destruct (p_comma_strs ts) as [l0 r0] eqn:R.
    injection E as <- <-. simpl. f_equal. f_equal. apply IH; [simpl in L; lia|exact R].
Qed.

Lemma p_scopes_sound ts l r :
  p_scopes ts = (l, r) -> exists t, ts = t ++ r /\ g_scopes t l.
Proof.
  intros E. assert (p_comma_strs ts = (l, r) -> exists t, ts = t ++ r /\ g_scopes t l) as K.
  { intros E'. apply (p_comma_strs_sound (List.length ts)) in E'; [|lia].
    exists (commas l). split; [exact E'|]. apply g_scopes_iff. left. reflexivity. }
  destruct ts as [|t0 ts]; [apply K; exact E|].
  destruct t0; try (apply K; exact E).
  cbn [p_scopes] in E. destruct (p_comma_strs ts) as [l0 r0] eqn:R. injection E as <- <-.
  apply (p_comma_strs_sound (List.length ts)) in R; [|lia].
  exists (TkString s :: commas l0). split; [simpl; congruence|].
  apply g_scopes_iff. right. exists s, l0. auto.
Qed.

Lemma p_comma_pairs_sound n ts l r :
  List.length ts <= n -> p_comma_pairs ts = (l, r) -> ts = comma_pairs l ++ r.
Proof.
  revert ts l r. induction n as [|n IH]; intros ts l r L E.
  - destruct ts; [|simpl in L; lia]. simpl in E. injection E as <- <-. reflexivity.
  - destruct ts as [|t0 ts]; [simpl in E; injection E as <- <-; reflexivity|].
    destruct t0; try (simpl in E; injection E as <- <-; reflexivity).
    destruct ts as [|t1 ts]; [simpl in E; injection E as <- <-; reflexivity|].
    destruct t1; try (simpl in E; injection E as <- <-; reflexivity).
    destruct ts as [|t2 ts]; [simpl in E; injection E as <- <-; reflexivity|].
    destruct t2; try (simpl in E; injection E as <- <-; reflexivity).
    destruct ts as [|t3 ts]; [simpl in E; injection E as <- <-; reflexivity|].
    destruct t3; try (simpl in E; injection E as <- <-; reflexivity).
    cbn [p_comma_pairs] in E. destruct (p_comma_pairs ts) as [l0 r0] eqn:R.
    injection E as <- <-. simpl. do 4 f_equal. apply IH; [simpl in L; lia|exact R].
Qed.

Lemma p_pairs_sound ts l r :
  p_pairs ts = (l, r) -> exists t, ts = t ++ r /\ g_uri_fields t l.
Proof.
  intros E. assert (p_comma_pairs ts = (l, r) -> exists t, ts = t ++ r /\ g_uri_fields t l) as K.
  { intros E'. apply (p_comma_pairs_sound (List.length ts)) in E'; [|lia].
    exists (comma_pairs l). split; [exact E'|]. apply g_uri_fields_iff. left. reflexivity. }
  destruct ts as [|t0 ts]; [apply K; exact E|].
  destruct t0; try (apply K; exact E).
  destruct ts as [|t1 ts]; [apply K; exact E|].
  destruct t1; try (apply K; exact E).
  destruct ts as [|t2 ts]; [apply K; exact E|].
  destruct t2; try (apply K; exact E).
  cbn [p_pairs] in E. destruct (p_comma_pairs ts) as [l0 r0] eqn:R. injection E as <- <-.
  apply (p_comma_pairs_sound (List.length ts)) in R; [|lia].
  exists (TkString s :: TkColon :: TkString s0 :: comma_pairs l0). split; [simpl; congruence|].
  apply g_uri_fields_iff. right. exists s, s0, l0. auto.
Qed.

Ltac split_match H :=
  repeat match type of H with
         | context [match ?x with _ => _ end] =>
             first [ is_var x; destruct x; try discriminate H
                   | fail ]
         end.

Lemma p_field_sound ts f r :
  p_field ts = Some (f, r) -> exists t, ts = t ++ r /\ g_field t f.
Proof.
  intros E. unfold p_field in E.
  split_match E;
  try (injection E as <- <-; eexists [_; _; _; _]; split; [reflexivity|constructor]).
  all: match type of E with
       | context [p_pairs ?x] => destruct (p_pairs x) as [l0 r0] eqn:P
       | context [p_scopes ?x] => destruct (p_scopes x) as [l0 r0] eqn:P
       end; split_match E; injection E as <- <-.
  all: first [ apply p_pairs_sound in P as (t & -> & G) | apply p_scopes_sound in P as (t & -> & G) ].
  - exists ([TkKw KwAuthUriFields; TkEq; TkLBrace] ++ t ++ [TkRBrace; TkSemi]).
    rewrite <- !app_assoc. split; [reflexivity|]. constructor. exact G.
  - exists ([TkKw KwScopes; TkEq; TkLBrack] ++ t ++ [TkRBrack; TkSemi]).
    rewrite <- !app_assoc. split; [reflexivity|]. constructor. exact G.
Qed.

Lemma p_fields_sound fuel ts fs r :
  p_fields fuel ts = Some (fs, r) -> exists t, ts = t ++ TkRBrace :: r /\ g_fields t fs.
Proof.
  revert ts fs r. induction fuel as [|fuel IH]; intros ts fs r E; [discriminate|].
  cbn [p_fields] in E.
  assert ((exists r0, ts = TkRBrace :: r0 /\ Some ([], r0) = Some (fs, r)) \/
          (match p_field ts with
          | Some (f, r) =>
              match p_fields fuel r with
              | Some (fs, r') => Some (f :: fs, r')
              | None => None
              end
          | None => None
          end = Some (fs, r))) as [(r0 & -> & E2)|E2].
  { destruct ts as [|t ts]; [right; exact E|]. destruct t; try (right; exact E).
    left. exists ts. auto. }
  - injection E2 as <- <-. exists []. split; [reflexivity|constructor].
  - destruct (p_field ts) as [[f r1]|] eqn:F; [|discriminate].
    destruct (p_fields fuel r1) as [[fs1 r2]|] eqn:G; [|discriminate].
    injection E2 as <- <-. apply p_field_sound in F as (t1 & -> & F).
    apply IH in G as (t2 & -> & G). exists (t1 ++ t2). rewrite <- app_assoc.
    split; [reflexivity|]. apply g_fields_cons; assumption.
Qed.

Lemma p_toplevel_sound ts x r :
  p_toplevel ts = Some (x, r) -> exists t, ts = t ++ r /\ g_toplevel t x.
Proof.
  intros E. unfold p_toplevel in E.
  split_match E;
  try (injection E as <- <-; eexists [_; _; _; _]; split; [reflexivity|constructor]).
  match type of E with
  | context [p_fields ?f ?x] => destruct (p_fields f x) as [[l0 r0]|] eqn:P; [|discriminate]
  end. injection E as <- <-. apply p_fields_sound in P as (t & -> & G).
  exists ([TkKw KwAccount; TkString s; TkLBrace] ++ t ++ [TkRBrace]).
  rewrite <- !app_assoc. split; [reflexivity|]. constructor. exact G.
Qed.

Lemma p_toplevels_sound fuel ts l :
  p_toplevels fuel ts = Some l -> g_toplevels ts l.
Proof.
  revert ts l. induction fuel as [|fuel IH]; intros ts l E.
  - destruct ts; [|discriminate]. injection E as <-. constructor.
  - destruct ts as [|t0 ts0]; [injection E as <-; constructor|].
    remember (t0 :: ts0) as ts eqn:Ets. cbn [p_toplevels] in E. rewrite Ets in E. rewrite <- Ets in E.
    destruct (p_toplevel ts) as [[x r]|] eqn:T; [|discriminate].
    destruct (p_toplevels fuel r) as [l0|] eqn:R; [|discriminate].
    injection E as <-. apply p_toplevel_sound in T as (t & -> & G).
    apply g_toplevels_cons; [exact G|]. apply IH. exact R.
Qed.

(** * Completeness *)

Lemma p_comma_strs_complete l t r :
  t <> TkComma -> p_comma_strs (commas l ++ t :: r) = (l, t :: r).
Proof.
  intros N. induction l as [|s l IH]; simpl.
  - destruct t; try reflexivity. congruence.
  - rewrite IH. reflexivity.
Qed.

Lemma p_scopes_complete ts l t r :
  g_scopes ts l -> t <> TkComma -> (forall s, t <> TkString s) ->
  p_scopes (ts ++ t :: r) = (l, t :: r).
Proof.
  intros G N NS. apply g_scopes_iff in G as [->|(s & l' & -> & ->)].
  - destruct l as [|s l].
    + simpl. destruct t; try reflexivity; try congruence; try (exfalso; eapply NS; reflexivity).
    + unfold p_scopes. simpl. rewrite p_comma_strs_complete; auto.
  - simpl. rewrite p_comma_strs_complete; auto.
Qed.

Lemma p_comma_pairs_complete l t r :
  t <> TkComma -> p_comma_pairs (comma_pairs l ++ t :: r) = (l, t :: r).
Proof.
  intros N. induction l as [|[k v] l IH]; simpl.
  - destruct t; try reflexivity. congruence.
  - rewrite IH. reflexivity.
Qed.

Lemma p_pairs_complete ts l t r :
  g_uri_fields ts l -> t <> TkComma -> (forall s, t <> TkString s) ->
  p_pairs (ts ++ t :: r) = (l, t :: r).
Proof.
  intros G N NS. apply g_uri_fields_iff in G as [->|(k & v & l' & -> & ->)].
  - destruct l as [|[k v] l].
    + simpl. destruct t; try reflexivity; try congruence; try (exfalso; eapply NS; reflexivity).
    + unfold p_pairs. simpl. rewrite p_comma_pairs_complete; auto.
  - simpl. rewrite p_comma_pairs_complete; auto.
Qed.

Lemma p_field_complete ts f r : g_field ts f -> p_field (ts ++ r) = Some (f, r).
Proof.
  intros G. destruct G as [| ts l G | | | | | | | | ts l G |]; try reflexivity.
  - rewrite <- !app_assoc. simpl. rewrite (p_pairs_complete ts l); [reflexivity|exact G|discriminate|discriminate].
  - rewrite <- !app_assoc. simpl. rewrite (p_scopes_complete ts l); [reflexivity|exact G|discriminate|discriminate].
Qed.

Lemma g_field_head ts f : g_field ts f -> exists k ts', ts = TkKw k :: ts'.
Proof. intros G. destruct G; simpl; eauto. Qed.

Lemma p_fields_complete ts fs r fuel :
  g_fields ts fs -> List.length fs < fuel -> p_fields fuel (ts ++ TkRBrace :: r) = Some (fs, r).
Proof.
  revert ts r fuel. induction fs as [|f fs IH]; intros ts r fuel G L;
    (destruct fuel as [|fuel]; [simpl in L; lia|]); apply g_fields_inv in G.
  - subst ts. reflexivity.
  - destruct G as (t1 & t2 & -> & F & G). rewrite <- app_assoc.
    pose proof (g_field_head _ _ F) as (k & t1' & ->).
    simpl app. cbn [p_fields].
    pose proof (p_field_complete _ _ (t2 ++ TkRBrace :: r) F) as PF. simpl app in PF. rewrite PF.
    rewrite IH; [reflexivity|exact G|simpl in L; lia].
Qed.

Lemma g_fields_length ts fs : g_fields ts fs -> List.length fs <= List.length ts.
Proof.
  intros G. induction G as [ts fs ts' f G IH F|]; simpl; [|lia].
  rewrite !app_length. apply g_field_head in F as (k & t & ->). simpl. lia.
Qed.

Lemma p_toplevel_complete ts x r : g_toplevel ts x -> p_toplevel (ts ++ r) = Some (x, r).
Proof.
  intros G. destruct G as [n ts fs G| | | | | | | | | | | | |]; try reflexivity.
  rewrite <- !app_assoc. simpl app. cbn [p_toplevel].
  rewrite (p_fields_complete ts fs); [reflexivity|exact G|].
  apply g_fields_length in G. simpl. rewrite app_length. simpl. lia.
Qed.

Lemma g_toplevel_head ts x : g_toplevel ts x -> exists k ts', ts = TkKw k :: ts'.
Proof. intros G. destruct G; simpl; eauto. Qed.

Lemma p_toplevels_complete ts l fuel :
  g_toplevels ts l -> List.length l <= fuel -> p_toplevels fuel ts = Some l.
Proof.
  revert ts fuel. induction l as [|x l IH]; intros ts fuel G L; apply g_toplevels_inv in G.
  - subst ts. destruct fuel; reflexivity.
  - destruct G as (t1 & t2 & -> & T & G). destruct fuel as [|fuel]; [simpl in L; lia|].
    pose proof (g_toplevel_head _ _ T) as (k & t1' & ->).
    pose proof (p_toplevel_complete _ _ t2 T) as PT. simpl app in *. cbn [p_toplevels].
    rewrite PT. rewrite IH; [reflexivity|exact G|simpl in L; lia].
Qed.

Lemma g_toplevels_length ts l : g_toplevels ts l -> List.length l <= List.length ts.
Proof.
  intros G. induction G as [ts fs ts' f G IH F|]; simpl; [|lia].
  rewrite !app_length. apply g_toplevel_head in F as (k & t & ->). simpl. lia.
Qed.

Theorem parse_tokens_grammar ts l : parse_tokens ts = Some l <-> g_toplevels ts l.
Proof.
  split.
  - apply p_toplevels_sound.
  - intros G. apply p_toplevels_complete; [exact G|]. apply g_toplevels_length. exact G.
Qed.
