(** The command line is read as specified. *)
From Verif Require Import Base BaseLemmas Utf8 Utf8Lemmas Client Cli SpecCli Startup.

Definition val_of (g : given) : ascii * optval :=
  match g with
  | GFlag c => (c, Given)
  | GConfig None => ("c"%char, Given)
  | GConfig (Some f) => ("c"%char, WithValue f)
  end.

(** * Words *)

Lemma plain_not_option w : plain w <-> is_option_like w = false.
Proof.
  unfold plain, is_option_like. split.
  - intros [->|N]; [reflexivity|]. destruct w as [|c [|d r]]; try reflexivity.
    destruct (Ascii.eqb_spec c "-"%char) as [->|]; [|reflexivity]. exfalso. exact (N _ eq_refl).
  - destruct w as [|c [|d r]].
    + intros _. right. discriminate.
    + intros _. destruct (ascii_dec c "-"%char) as [->|NE]; [left; reflexivity|]. right. intros r [= X _]. contradiction.
    + destruct (Ascii.eqb_spec c "-"%char) as [->|NE]; [discriminate|]. intros _. right. intros r' [= X _]. contradiction.
Qed.

Lemma option_not_plain w : is_option_like w = true <-> ~ plain w.
Proof.
  rewrite plain_not_option. destruct (is_option_like w); split; intros X; try reflexivity; try discriminate.
  exfalso. apply X. reflexivity.
Qed.

Lemma option_like_two c r : is_option_like ("-"%char :: c :: r) = true.
Proof. reflexivity. Qed.

(** * Option tables *)

Record table (cmd : str) (opts : list optdef) : Prop := mkTable {
  tb_letter : forall c o, find_letter opts c = Some o ->
    op_letter o = c /\ ((op_arg o = TakesNone /\ flag cmd c) \/ (o = opt_c /\ has_config cmd));
  tb_flag : forall c, flag cmd c -> exists o, find_letter opts c = Some o /\ op_arg o = TakesNone;
  tb_config : has_config cmd -> find_letter opts "c"%char = Some opt_c;
  tb_long : forall a b r o, find_name opts (a :: b :: r) = Some o ->
    (a :: b :: r = $"help" /\ o = opt_h) \/ (a :: b :: r = $"verbose" /\ o = opt_v)
    \/ (a :: b :: r = $"config" /\ o = opt_c /\ has_config cmd);
  tb_help : find_name opts $"help" = Some opt_h;
  tb_verbose : find_name opts $"verbose" = Some opt_v;
  tb_long_config : has_config cmd -> find_name opts $"config" = Some opt_c;
}.

Definition options_of (cmd : str) : list optdef :=
  if str_eqb cmd $"info" then base_opts ++ [opt_c; opt_j]
  else if str_eqb cmd $"server" then base_opts ++ [opt_c; opt_d]
  else if str_eqb cmd $"show" || str_eqb cmd $"refresh" then base_opts ++ [opt_u]
  else base_opts.

Lemma find_letter_cons o opts c :
  find_letter (o :: opts) c = if Ascii.eqb (op_letter o) c then Some o else find_letter opts c.
Proof. reflexivity. Qed.

Lemma find_long_cons o opts a b r :
  find_name (o :: opts) (a :: b :: r) = if str_eqb (op_long o) (a :: b :: r) then Some o else find_name opts (a :: b :: r).
Proof. reflexivity. Qed.

Ltac letters_of F :=
  first
    [ discriminate F
    | rewrite find_letter_cons in F;
      match type of F with
      | (if Ascii.eqb (op_letter ?o) ?c then _ else _) = _ =>
          destruct (Ascii.eqb_spec (op_letter o) c) as [<-|_]; [injection F as <-|letters_of F]
      end ].

Ltac longs_of F :=
  first
    [ discriminate F
    | rewrite find_long_cons in F;
      match type of F with
      | (if str_eqb (op_long ?o) ?s then _ else _) = _ =>
          let E := fresh in destruct (str_eqb (op_long o) s) eqn:E;
          [injection F as <-; first [discriminate E | apply str_eqb_eq in E; rewrite <- E; auto]
          |clear E; longs_of F]
      end ].

Lemma options_table cmd : table cmd (options_of cmd).
Proof.
  unfold options_of.
  destruct (str_eqb cmd $"info") eqn:EI; [|destruct (str_eqb cmd $"server") eqn:ES;
    [|destruct (str_eqb cmd $"show" || str_eqb cmd $"refresh") eqn:EU]].
  - apply str_eqb_eq in EI. unfold base_opts. cbn [app].
    assert (has_config cmd) as HC by (left; exact EI).
    assert (cmd <> $"server") as N1 by (rewrite EI; discriminate).
    constructor.
    + intros c o F. letters_of F; (split; [reflexivity|]); try (right; split; [reflexivity|exact HC]); left;
        (split; [reflexivity|]); constructor; assumption.
    + intros c FL. destruct FL as [| |X|X|X]; try (eexists; split; reflexivity).
      * rewrite EI in X. destruct X; discriminate.
      * contradiction.
    + reflexivity.
    + intros a b r o F. longs_of F.
    + reflexivity.
    + reflexivity.
    + reflexivity.
  - apply str_eqb_eq in ES. unfold base_opts. cbn [app].
    assert (has_config cmd) as HC by (right; exact ES).
    assert (cmd <> $"info") as N1 by (rewrite ES; discriminate).
    constructor.
    + intros c o F. letters_of F; (split; [reflexivity|]); try (right; split; [reflexivity|exact HC]); left;
        (split; [reflexivity|]); constructor; assumption.
    + intros c FL. destruct FL as [| |X|X|X]; try (eexists; split; reflexivity).
      * rewrite ES in X. destruct X; discriminate.
      * contradiction.
    + reflexivity.
    + intros a b r o F. longs_of F.
    + reflexivity.
    + reflexivity.
    + reflexivity.
  - apply str_eqb_neq in EI, ES. apply orb_true_iff in EU. rewrite !str_eqb_eq in EU. unfold base_opts. cbn [app].
    assert (~ has_config cmd) as HC by (intros [X|X]; contradiction).
    constructor.
    + intros c o F. letters_of F; (split; [reflexivity|]); left; (split; [reflexivity|]); constructor; assumption.
    + intros c FL. destruct FL as [| |X|X|X]; try (eexists; split; reflexivity); contradiction.
    + contradiction.
    + intros a b r o F. longs_of F.
    + reflexivity.
    + reflexivity.
    + contradiction.
  - apply str_eqb_neq in EI, ES. apply orb_false_iff in EU. rewrite !str_eqb_neq in EU. unfold base_opts.
    assert (~ has_config cmd) as HC by (intros [X|X]; contradiction).
    constructor.
    + intros c o F. letters_of F; (split; [reflexivity|]); left; (split; [reflexivity|]); constructor; assumption.
    + intros c FL. destruct FL as [| |X|X|X]; try (eexists; split; reflexivity); try contradiction.
      destruct EU as [U1 U2]. destruct X; contradiction.
    + contradiction.
    + intros a b r o F. longs_of F.
    + reflexivity.
    + reflexivity.
    + contradiction.
Qed.

Section Words.
Variables (cmd : str) (opts : list optdef).
Hypothesis T : table cmd opts.

Lemma flag_not_c c : flag cmd c -> c <> "c"%char.
Proof. intros [| |?|?|?]; discriminate. Qed.

Lemma flag_not_dash c : flag cmd c -> c <> "-"%char.
Proof. intros [| |?|?|?]; discriminate. Qed.

Lemma letters_sound cs : forall vs last,
  letters opts cs = Some (vs, last) ->
  exists fl, Forall (flag cmd) fl /\ vs = map val_of (map GFlag fl)
    /\ match last with
       | None => cs = fl
       | Some (o, v) => o = opt_c /\ has_config cmd /\ cs = fl ++ "c"%char :: v
       end.
Proof.
  induction cs as [|c cs IH]; intros vs last H; cbn [letters] in H.
  - injection H as <- <-. exists []. repeat split; constructor.
  - destruct (find_letter opts c) as [o|] eqn:F; [|discriminate H].
    destruct (tb_letter _ _ T _ _ F) as [<- [[AN FL]|[-> HC]]].
    + rewrite AN in H. destruct (letters opts cs) as [[ws l]|]; [|discriminate H].
      injection H as <- <-. destruct (IH _ _ eq_refl) as (fl & FA & -> & EQ).
      exists (op_letter o :: fl). split; [constructor; assumption|]. split; [reflexivity|].
      destruct l as [[o' v]|].
      * destruct EQ as (E1 & E2 & ->). split; [exact E1|]. split; [exact E2|]. reflexivity.
      * rewrite EQ. reflexivity.
    + cbn [op_arg opt_c] in H. injection H as <- <-. exists []. split; [constructor|]. split; [reflexivity|].
      split; [reflexivity|]. split; [exact HC|]. reflexivity.
Qed.

Lemma letters_flags fl : Forall (flag cmd) fl -> letters opts fl = Some (map val_of (map GFlag fl), None).
Proof.
  induction 1 as [|c fl FC FA IH]; [reflexivity|]. cbn [letters map].
  destruct (tb_flag _ _ T _ FC) as (o & -> & ->). rewrite IH. reflexivity.
Qed.

Lemma letters_config fl v :
  has_config cmd -> Forall (flag cmd) fl ->
  letters opts (fl ++ "c"%char :: v) = Some (map val_of (map GFlag fl), Some (opt_c, v)).
Proof.
  intros HC. induction 1 as [|c fl FC FA IH].
  - cbn [app letters map]. rewrite (tb_config _ _ T HC). reflexivity.
  - cbn [app letters map]. destruct (tb_flag _ _ T _ FC) as (o & -> & ->). rewrite IH. reflexivity.
Qed.

Lemma parse_free w ws : plain w -> parse_words opts (w :: ws) = cons_free w (parse_words opts ws).
Proof. intros P. apply plain_not_option in P. cbn [parse_words]. rewrite P. reflexivity. Qed.

(** A word with one dash. *)
Lemma parse_short c r ws :
  c <> "-"%char ->
  parse_words opts (("-"%char :: c :: r) :: ws)
  = match letters opts (c :: r) with
    | None => None
    | Some (vs, None) => cons_vals vs (parse_words opts ws)
    | Some (vs, Some (o, (_ :: _) as v)) => cons_vals (vs ++ [(op_letter o, WithValue v)]) (parse_words opts ws)
    | Some (vs, Some (o, [])) =>
        match ws with
        | next :: ws' =>
            if is_option_like next
            then cons_vals (vs ++ [(op_letter o, Given)]) (parse_words opts ws)
            else cons_vals (vs ++ [(op_letter o, WithValue next)]) (parse_words opts ws')
        | [] => Some (vs ++ [(op_letter o, Given)], [])
        end
    end.
Proof.
  intros N. cbn [parse_words]. rewrite option_like_two. cbn [negb].
  assert (str_eqb ("-"%char :: c :: r) $"--" = false) as ->.
  { apply str_eqb_neq. intros [= X _]. contradiction. }
  destruct (Ascii.eqb_spec c "-"%char) as [X|_]; [contradiction|]. reflexivity.
Qed.

(** A word with two dashes. *)
Lemma parse_long n ws :
  n <> [] ->
  parse_words opts (($"--" ++ n) :: ws)
  = let (nm, v) := split_long n in
    match find_name opts nm with
    | None => None
    | Some o =>
        match op_arg o, v with
        | TakesNone, Some _ => None
        | _, Some x => cons_vals [(op_letter o, WithValue x)] (parse_words opts ws)
        | _, None => cons_vals [(op_letter o, Given)] (parse_words opts ws)
        end
    end.
Proof.
  intros N. change ($"--" ++ n) with ("-"%char :: "-"%char :: n). cbn [parse_words]. rewrite option_like_two. cbn [negb].
  assert (str_eqb ("-"%char :: "-"%char :: n) $"--" = false) as ->.
  { apply str_eqb_neq. intros [= X]. contradiction. }
  reflexivity.
Qed.

Lemma split_long_plain n : ~ In "="%char n -> split_long n = (n, None).
Proof.
  intros N. unfold split_long. assert (split_first "="%char n = None) as ->; [|reflexivity].
  induction n as [|c n IH]; [reflexivity|]. cbn [split_first].
  destruct (Ascii.eqb_spec c "="%char) as [->|_]; [exfalso; apply N; left; reflexivity|].
  rewrite IH; [reflexivity|]. intros I. apply N. right. exact I.
Qed.

Lemma split_long_sound n nm v :
  split_long n = (nm, v) -> n = match v with Some x => nm ++ $"=" ++ x | None => nm end.
Proof.
  unfold split_long. destruct (split_first "="%char n) as [[a b]|] eqn:E.
  - intros [= <- <-]. revert a b E. induction n as [|c n IH]; intros a b E; cbn [split_first] in E; [discriminate E|].
    destruct (Ascii.eqb_spec c "="%char) as [->|_]; [injection E as <- <-; reflexivity|].
    destruct (split_first "="%char n) as [[a' b']|]; [|discriminate E]. injection E as <- <-.
    cbn [app]. f_equal. exact (IH _ _ eq_refl).
  - intros [= <- <-]. reflexivity.
Qed.

Lemma says_parse ws gs fs : says cmd ws gs fs -> parse_words opts ws = Some (map val_of gs, fs).
Proof.
  induction 1 as [|ws|w ws gs fs P SA IH|cs ws gs fs NE FA SA IH|n c ws gs fs LF FL SA IH
                  |cs file ws gs fs HC FA NE SA IH|cs file ws gs fs HC FA P SA IH|n file ws gs fs HC NN SA IH
                  |cs ws gs fs HC FA MS SA IH|n ws gs fs HC NN SA IH].
  - reflexivity.
  - reflexivity.
  - rewrite (parse_free _ _ P), IH. reflexivity.
  - destruct cs as [|c r]; [contradiction|]. rewrite parse_short by (apply flag_not_dash; inversion FA; assumption).
    rewrite (letters_flags _ FA), IH. cbn [cons_vals]. rewrite map_app. reflexivity.
  - destruct LF as [| |c].
    + rewrite parse_long by discriminate. rewrite split_long_plain by (vm_compute; intuition discriminate).
      rewrite (tb_help _ _ T), IH. reflexivity.
    + rewrite parse_long by discriminate. rewrite split_long_plain by (vm_compute; intuition discriminate).
      rewrite (tb_verbose _ _ T), IH. reflexivity.
    + rewrite parse_long by discriminate. rewrite split_long_plain.
      * cbn [find_name]. destruct (tb_flag _ _ T _ FL) as (o & FO & AN). rewrite FO, AN.
        destruct (tb_letter _ _ T _ _ FO) as [-> _]. rewrite IH. reflexivity.
      * intros [->|[]]. inversion FL.
  - assert (exists c r, cs ++ "c"%char :: file = c :: r /\ c <> "-"%char) as (c & r & EQ & ND).
    { destruct cs as [|c cs]; [do 2 eexists; split; [reflexivity|discriminate]|].
      do 2 eexists. split; [reflexivity|]. apply flag_not_dash. inversion FA; assumption. }
    rewrite EQ, (parse_short _ _ _ ND), <- EQ, (letters_config _ _ HC FA), IH.
    destruct file as [|f file]; [contradiction|]. cbn [cons_vals]. rewrite map_app, <- app_assoc. reflexivity.
  - assert (exists c r, cs ++ $"c" = c :: r /\ c <> "-"%char) as (c & r & EQ & ND).
    { destruct cs as [|c cs]; [do 2 eexists; split; [reflexivity|discriminate]|].
      do 2 eexists. split; [reflexivity|]. apply flag_not_dash. inversion FA; assumption. }
    apply plain_not_option in P. rewrite EQ, (parse_short _ _ _ ND), <- EQ.
    change $"c" with ["c"%char]. rewrite (letters_config _ _ HC FA), P, IH.
    cbn [cons_vals]. rewrite map_app, <- app_assoc. reflexivity.
  - assert (split_long (n ++ $"=" ++ file) = (n, Some file)) as SL.
    { unfold split_long. destruct NN as [-> | ->]; reflexivity. }
    rewrite parse_long by (destruct NN as [-> | ->]; discriminate). rewrite SL.
    assert (find_name opts n = Some opt_c) as ->.
    { destruct NN as [-> | ->]; [exact (tb_long_config _ _ T HC)|exact (tb_config _ _ T HC)]. }
    rewrite IH. reflexivity.
  - assert (exists c r, cs ++ $"c" = c :: r /\ c <> "-"%char) as (c & r & EQ & ND).
    { destruct cs as [|c cs]; [do 2 eexists; split; [reflexivity|discriminate]|].
      do 2 eexists. split; [reflexivity|]. apply flag_not_dash. inversion FA; assumption. }
    rewrite EQ, (parse_short _ _ _ ND), <- EQ. change $"c" with ["c"%char]. rewrite (letters_config _ _ HC FA).
    destruct ws as [|w ws'].
    + rewrite map_app. cbn [map]. injection IH as <- <-. reflexivity.
    + specialize (MS _ _ eq_refl). apply option_not_plain in MS. rewrite MS, IH.
      cbn [cons_vals]. rewrite map_app, <- app_assoc. reflexivity.
  - rewrite parse_long by (destruct NN as [-> | ->]; discriminate).
    rewrite split_long_plain by (destruct NN as [-> | ->]; vm_compute; intuition discriminate).
    assert (find_name opts n = Some opt_c) as ->.
    { destruct NN as [-> | ->]; [exact (tb_long_config _ _ T HC)|exact (tb_config _ _ T HC)]. }
    rewrite IH. reflexivity.
Qed.

Lemma parse_says_aux k : forall ws vs fs, List.length ws <= k ->
  parse_words opts ws = Some (vs, fs) -> exists gs, says cmd ws gs fs /\ vs = map val_of gs.
Proof.
  induction k as [|k IHk]; intros ws vs fs LE H.
  - destruct ws as [|w ws]; [|cbn in LE; lia]. injection H as <- <-. exists []. split; [constructor|reflexivity].
  - destruct ws as [|w ws]; [injection H as <- <-; exists []; split; [constructor|reflexivity]|].
    cbn [List.length] in LE.
    assert (forall vs0 fs0, parse_words opts ws = Some (vs0, fs0) ->
              exists gs, says cmd ws gs fs0 /\ vs0 = map val_of gs) as IH.
    { intros vs0 fs0. apply IHk. lia. }
    destruct (is_option_like w) eqn:OL.
    2:{ rewrite parse_free in H by (apply plain_not_option; exact OL).
        destruct (parse_words opts ws) as [[vs0 fs0]|]; [|discriminate H]. injection H as <- <-.
        destruct (IH _ _ eq_refl) as (gs & SA & ->). exists gs. split; [|reflexivity].
        constructor; [apply plain_not_option; exact OL|exact SA]. }
    destruct w as [|d [|c r]]; try discriminate OL. cbn [is_option_like] in OL. apply Ascii.eqb_eq in OL. subst d.
    destruct (ascii_dec c "-"%char) as [->|ND].
    + destruct r as [|a r].
      { injection H as <- <-. exists []. split; [apply says_rest|reflexivity]. }
      change ("-"%char :: "-"%char :: a :: r) with ($"--" ++ a :: r) in H |- *.
      rewrite parse_long in H by discriminate.
      destruct (split_long (a :: r)) as [nm v] eqn:SL. apply split_long_sound in SL. rewrite SL.
      destruct (find_name opts nm) as [o|] eqn:FN; [|discriminate H].
      assert ((exists c, long_flag nm c /\ flag cmd c /\ op_letter o = c /\ op_arg o = TakesNone)
              \/ (o = opt_c /\ has_config cmd /\ (nm = $"config" \/ nm = $"c"))) as CA.
      { destruct nm as [|x [|y nm]]; cbn [find_name] in FN; [discriminate FN| |].
        - destruct (tb_letter _ _ T _ _ FN) as [EL [[AN FL]|[-> HC]]].
          + left. exists x. repeat split; auto. constructor.
          + right. cbn in EL. subst x. auto.
        - change (find_name opts (x :: y :: nm) = Some o) in FN.
          destruct (tb_long _ _ T _ _ _ _ FN) as [[-> ->]|[[-> ->]|(-> & -> & HC)]].
          + left. exists "h"%char. repeat split; constructor.
          + left. exists "v"%char. repeat split; constructor.
          + right. auto. }
      destruct CA as [(x & LF & FL & EL & AN)|(-> & HC & NN)].
      * rewrite AN in H. destruct v as [v|]; [discriminate H|].
        destruct (parse_words opts ws) as [[vs0 fs0]|]; [|discriminate H]. injection H as <- <-.
        destruct (IH _ _ eq_refl) as (gs & SA & ->). exists (GFlag x :: gs). split; [|rewrite EL; reflexivity].
        apply says_long; assumption.
      * cbn [op_arg opt_c op_letter] in H. destruct v as [v|];
          (destruct (parse_words opts ws) as [[vs0 fs0]|]; [|discriminate H]); injection H as <- <-;
          destruct (IH _ _ eq_refl) as (gs & SA & ->).
        -- exists (GConfig (Some v) :: gs). split; [|reflexivity]. apply says_config_long; assumption.
        -- exists (GConfig None :: gs). split; [|reflexivity]. apply says_config_long_missing; assumption.
    + rewrite (parse_short _ _ _ ND) in H.
      destruct (letters opts (c :: r)) as [[vs1 last]|] eqn:LT; [|discriminate H].
      apply letters_sound in LT. destruct LT as (fl & FA & -> & EQ).
      destruct last as [[o v]|].
      * destruct EQ as (-> & HC & EQ). rewrite EQ. destruct v as [|v0 v].
        -- destruct ws as [|next ws'].
           ++ injection H as <- <-. exists (map GFlag fl ++ [GConfig None]). split; [|rewrite map_app; reflexivity].
              apply says_config_missing; [assumption..|discriminate|constructor].
           ++ destruct (is_option_like next) eqn:ON.
              ** destruct (parse_words opts (next :: ws')) as [[vs0 fs0]|]; [|discriminate H]. injection H as <- <-.
                 destruct (IH _ _ eq_refl) as (gs & SA & ->).
                 exists (map GFlag fl ++ GConfig None :: gs). split; [|rewrite map_app, <- app_assoc; reflexivity].
                 apply says_config_missing; [assumption..| |exact SA].
                 intros w0 ws0 [= <- _]. apply option_not_plain. exact ON.
              ** destruct (parse_words opts ws') as [[vs0 fs0]|] eqn:PW; [|discriminate H]. injection H as <- <-.
                 cbn [List.length] in LE. destruct (IHk ws' vs0 fs0) as (gs & SA & ->); [lia|exact PW|].
                 exists (map GFlag fl ++ GConfig (Some next) :: gs). split; [|rewrite map_app, <- app_assoc; reflexivity].
                 apply says_config_next; [assumption..| |exact SA]. apply plain_not_option. exact ON.
        -- destruct (parse_words opts ws) as [[vs0 fs0]|]; [|discriminate H]. injection H as <- <-.
           destruct (IH _ _ eq_refl) as (gs & SA & ->).
           exists (map GFlag fl ++ GConfig (Some (v0 :: v)) :: gs). split; [|rewrite map_app, <- app_assoc; reflexivity].
           apply says_config_here; [assumption..|discriminate|exact SA].
      * rewrite EQ in *. destruct (parse_words opts ws) as [[vs0 fs0]|]; [|discriminate H]. injection H as <- <-.
        destruct (IH _ _ eq_refl) as (gs & SA & ->). exists (map GFlag fl ++ gs). split; [|rewrite map_app; reflexivity].
        apply says_flags; [rewrite <- EQ; discriminate|exact FA|exact SA].
Qed.

Lemma parse_says ws vs fs :
  parse_words opts ws = Some (vs, fs) -> exists gs, says cmd ws gs fs /\ vs = map val_of gs.
Proof. apply (parse_says_aux (List.length ws)). lia. Qed.

(** Every option that is given is one the sub-command knows. *)
Definition known (g : given) : Prop :=
  match g with GFlag c => flag cmd c | GConfig _ => has_config cmd end.

Lemma says_known ws gs fs : says cmd ws gs fs -> Forall known gs.
Proof.
  assert (forall cs, Forall (flag cmd) cs -> Forall known (map GFlag cs)) as FM.
  { induction 1; constructor; assumption. }
  induction 1 as [|ws|w ws gs fs P SA IH|cs ws gs fs NE FA SA IH|n c ws gs fs LF FL SA IH
                  |cs file ws gs fs HC FA NE SA IH|cs file ws gs fs HC FA P SA IH|n file ws gs fs HC NN SA IH
                  |cs ws gs fs HC FA MS SA IH|n ws gs fs HC NN SA IH].
  - constructor.
  - constructor.
  - exact IH.
  - apply Forall_app. split; [apply FM; exact FA|exact IH].
  - constructor; [exact FL|exact IH].
  - apply Forall_app. split; [apply FM; exact FA|]. constructor; [exact HC|exact IH].
  - apply Forall_app. split; [apply FM; exact FA|]. constructor; [exact HC|exact IH].
  - constructor; [exact HC|exact IH].
  - apply Forall_app. split; [apply FM; exact FA|]. constructor; [exact HC|exact IH].
  - constructor; [exact HC|exact IH].
Qed.

End Words.

(** * Options counted *)

Lemma count_flag c gs : c <> "c"%char -> opt_count c (map val_of gs) = List.length (filter (is_flag c) gs).
Proof.
  intros N. unfold opt_count. induction gs as [|g gs IH]; [reflexivity|]. cbn [map filter].
  destruct g as [d|[f|]]; cbn [val_of fst is_flag].
  - destruct (Ascii.eqb_spec d c) as [->|ND].
    + destruct (ascii_dec c c) as [_|X]; [|contradiction]. cbn [List.length]. rewrite IH. reflexivity.
    + destruct (ascii_dec c d) as [->|_]; [contradiction|]. exact IH.
  - destruct (Ascii.eqb_spec "c"%char c) as [<-|_]; [contradiction|]. exact IH.
  - destruct (Ascii.eqb_spec "c"%char c) as [<-|_]; [contradiction|]. exact IH.
Qed.

Lemma count_config cmd gs :
  Forall (known cmd) gs -> opt_count "c"%char (map val_of gs) = List.length (filter is_config gs).
Proof.
  unfold opt_count. induction 1 as [|g gs K KS IH]; [reflexivity|]. cbn [map filter].
  destruct g as [d|[f|]]; cbn [val_of fst is_config].
  - destruct (Ascii.eqb_spec d "c"%char) as [->|ND]; [inversion K|]. exact IH.
  - rewrite Ascii.eqb_refl. cbn [List.length]. rewrite IH. reflexivity.
  - rewrite Ascii.eqb_refl. cbn [List.length]. rewrite IH. reflexivity.
Qed.

Lemma filter_none {A} (f : A -> bool) l : (forall x, In x l -> f x = false) -> filter f l = [].
Proof.
  induction l as [|x l IH]; intros N; [reflexivity|]. cbn [filter]. rewrite (N x (or_introl eq_refl)).
  apply IH. intros y I. apply N. right. exact I.
Qed.

Lemma is_flag_in c gs : In (GFlag c) gs <-> List.length (filter (is_flag c) gs) <> 0.
Proof.
  split.
  - intros I L. apply length_zero_iff_nil in L.
    assert (In (GFlag c) (filter (is_flag c) gs)) as X.
    { apply filter_In. split; [exact I|]. cbn [is_flag]. destruct (ascii_dec c c); [reflexivity|contradiction]. }
    rewrite L in X. destruct X.
  - intros L. destruct (filter (is_flag c) gs) as [|g l] eqn:E; [exfalso; apply L; reflexivity|].
    assert (In g (filter (is_flag c) gs)) as X by (rewrite E; left; reflexivity).
    apply filter_In in X. destruct X as [I F]. destruct g as [d|f]; [|discriminate F].
    cbn [is_flag] in F. destruct (ascii_dec c d) as [->|_]; [exact I|discriminate F].
Qed.

Lemma present_flag c gs : c <> "c"%char -> has_flag c gs (opt_present c (map val_of gs)).
Proof.
  intros N. unfold has_flag, opt_present. rewrite (count_flag _ _ N), is_flag_in.
  destruct (Nat.eqb_spec (List.length (filter (is_flag c) gs)) 0) as [->|L]; cbn [negb]; split; try discriminate; auto.
Qed.

Lemma has_flag_unique c gs b1 b2 : has_flag c gs b1 -> has_flag c gs b2 -> b1 = b2.
Proof.
  unfold has_flag. destruct b1, b2; intros [A1 B1] [A2 B2]; try reflexivity.
  - exact (eq_sym (B2 (A1 eq_refl))).
  - exact (B1 (A2 eq_refl)).
Qed.

Lemma config_named cmd gs :
  Forall (known cmd) gs -> List.length (filter is_config gs) <= 1 ->
  names_config gs (opt_str "c"%char (map val_of gs)).
Proof.
  unfold opt_str. induction 1 as [|g gs K KS IH]; intros L.
  - intros f [].
  - cbn [map find]. destruct g as [d|o].
    + cbn [val_of fst]. destruct (Ascii.eqb_spec d "c"%char) as [->|ND]; [inversion K|].
      specialize (IH L). destruct (find (fun v => Ascii.eqb (fst v) "c"%char) (map val_of gs)) as [[x [|f]]|].
      * intros f' [X|X]; [discriminate X|]. exact (IH f' X).
      * right. exact IH.
      * intros f' [X|X]; [discriminate X|]. exact (IH f' X).
    + cbn [filter is_config List.length] in L.
      assert (forall o', ~ In (GConfig o') gs) as NC.
      { intros o' I. assert (In (GConfig o') (filter is_config gs)) as X by (apply filter_In; split; [exact I|reflexivity]).
        destruct (filter is_config gs) as [|y l]; [exact X|]. cbn [List.length] in L. lia. }
      destruct o as [f|]; cbn [val_of fst]; rewrite Ascii.eqb_refl; cbn [names_config].
      * left. reflexivity.
      * intros f [X|X]; [discriminate X|]. exact (NC _ X).
Qed.

Lemma names_unique gs f1 f2 :
  List.length (filter is_config gs) <= 1 -> names_config gs f1 -> names_config gs f2 -> f1 = f2.
Proof.
  intros L N1 N2. destruct f1 as [f1|], f2 as [f2|]; cbn [names_config] in *.
  - apply in_split in N1. destruct N1 as (l1 & l2 & ->).
    rewrite filter_app in L. cbn [filter is_config] in L. rewrite app_length in L. cbn [List.length] in L.
    apply in_app_or in N2. cbn [In] in N2.
    destruct N2 as [X|[X|X]]; [| injection X as <-; reflexivity |].
    + assert (In (GConfig (Some f2)) (filter is_config l1)) as Y by (apply filter_In; split; [exact X|reflexivity]).
      destruct (filter is_config l1); [destruct Y|]. cbn [List.length] in L. lia.
    + assert (In (GConfig (Some f2)) (filter is_config l2)) as Y by (apply filter_In; split; [exact X|reflexivity]).
      destruct (filter is_config l2); [destruct Y|]. cbn [List.length] in L. lia.
  - exfalso. exact (N2 _ N1).
  - exfalso. exact (N1 _ N2).
  - reflexivity.
Qed.

Lemma options_once cmd o : In o (options_of cmd) -> (op_occurs o = AnyTimes <-> op_letter o = "v"%char).
Proof.
  unfold options_of. destruct (str_eqb cmd $"info"); [|destruct (str_eqb cmd $"server");
    [|destruct (str_eqb cmd $"show" || str_eqb cmd $"refresh")]];
    intros I; cbn [In app base_opts] in I;
    repeat (destruct I as [<-|I]; [split; (reflexivity || discriminate)|]); destruct I.
Qed.

Lemma find_letter_in opts c o : find_letter opts c = Some o -> In o opts.
Proof. intros F. apply find_some in F. apply F. Qed.

Lemma repeats_checked cmd gs :
  Forall (known cmd) gs ->
  forallb (fun o => match op_occurs o with
                    | AnyTimes => true
                    | AtMostOnce => Nat.leb (opt_count (op_letter o) (map val_of gs)) 1
                    end) (options_of cmd) = true
  <-> no_repeats gs.
Proof.
  intros K. rewrite forallb_forall. split.
  - intros H. split.
    + intros c NV. destruct (Nat.eq_dec (List.length (filter (is_flag c) gs)) 0) as [Z|NZ]; [rewrite Z; lia|].
      assert (flag cmd c) as FL.
      { apply is_flag_in in NZ. rewrite Forall_forall in K. exact (K _ NZ). }
      destruct (tb_flag _ _ (options_table cmd) _ FL) as (o & FO & AN).
      destruct (tb_letter _ _ (options_table cmd) _ _ FO) as [EL _].
      specialize (H _ (find_letter_in _ _ _ FO)).
      destruct (op_occurs o) eqn:OC; [|apply (options_once cmd o (find_letter_in _ _ _ FO)) in OC; congruence].
      apply Nat.leb_le in H. rewrite EL, count_flag in H; [exact H|]. exact (flag_not_c _ _ FL).
    + destruct (filter is_config gs) as [|g l] eqn:E; [cbn; lia|].
      assert (In g gs /\ is_config g = true) as [I IC] by (apply filter_In; rewrite E; left; reflexivity).
      assert (has_config cmd) as HC.
      { rewrite Forall_forall in K. specialize (K _ I). destruct g; [discriminate IC|exact K]. }
      pose proof (tb_config _ _ (options_table cmd) HC) as FO.
      specialize (H _ (find_letter_in _ _ _ FO)). cbn [op_occurs opt_c op_letter] in H.
      apply Nat.leb_le in H. rewrite (count_config _ _ K), E in H. exact H.
  - intros [N1 N2] o I. destruct (op_occurs o) eqn:OC; [|reflexivity]. apply Nat.leb_le.
    destruct (ascii_dec (op_letter o) "c"%char) as [->|NC].
    + rewrite (count_config _ _ K). exact N2.
    + rewrite (count_flag _ _ NC). apply N1. intros X. apply (options_once _ _ I) in X. congruence.
Qed.

(** * Whole command lines *)

Lemma parse_opts_iff cmd ws vs fs :
  parse_opts (options_of cmd) ws = Some (vs, fs)
  <-> exists gs, says cmd ws gs fs /\ no_repeats gs /\ vs = map val_of gs.
Proof.
  unfold parse_opts. split.
  - destruct (parse_words (options_of cmd) ws) as [[vs0 fs0]|] eqn:PW; [|discriminate].
    destruct (parse_says _ _ (options_table cmd) _ _ _ PW) as (gs & SA & ->).
    match goal with |- context [forallb ?f ?l] => destruct (forallb f l) eqn:FB end; [|discriminate].
    intros [= <- <-]. exists gs. split; [exact SA|]. split; [|reflexivity].
    apply (repeats_checked cmd _ (says_known _ _ _ _ SA)). exact FB.
  - intros (gs & SA & NR & ->). rewrite (says_parse _ _ (options_table cmd) _ _ _ SA).
    rewrite (proj2 (repeats_checked cmd gs (says_known _ _ _ _ SA)) NR). reflexivity.
Qed.

Lemma h_absent gs : opt_present "h"%char (map val_of gs) = false <-> ~ In (GFlag "h"%char) gs.
Proof.
  pose proof (present_flag "h"%char gs ltac:(discriminate)) as [A B].
  destruct (opt_present "h"%char (map val_of gs)); split; try discriminate; try reflexivity.
  - intros X. exfalso. apply X. apply A. reflexivity.
  - intros _ I. discriminate (B I).
Qed.

Lemma no_args_iff cmd ws k i :
  i <> IUsage -> (forall vs, k vs <> IUsage) ->
  (no_args (options_of cmd) ws k = i
   <-> exists gs, says cmd ws gs [] /\ no_repeats gs /\ ~ In (GFlag "h"%char) gs /\ i = k (map val_of gs)).
Proof.
  intros NU NK. unfold no_args. split.
  - destruct (parse_opts (options_of cmd) ws) as [[vs fs]|] eqn:PO; [|congruence].
    apply parse_opts_iff in PO. destruct PO as (gs & SA & NR & ->).
    destruct (opt_present "h"%char (map val_of gs)) eqn:PH; [congruence|].
    destruct fs as [|f fs]; [|congruence]. intros <-. exists gs. apply h_absent in PH. auto.
  - intros (gs & SA & NR & NH & ->).
    rewrite (proj2 (parse_opts_iff cmd ws _ _) (ex_intro _ gs (conj SA (conj NR eq_refl)))).
    apply h_absent in NH. rewrite NH. reflexivity.
Qed.

Lemma one_arg_iff cmd ws k i :
  i <> IUsage -> (forall vs a, k vs a <> IUsage) ->
  (one_arg (options_of cmd) ws k = i
   <-> exists gs a, says cmd ws gs [a] /\ no_repeats gs /\ ~ In (GFlag "h"%char) gs /\ i = k (map val_of gs) a).
Proof.
  intros NU NK. unfold one_arg. split.
  - destruct (parse_opts (options_of cmd) ws) as [[vs fs]|] eqn:PO; [|congruence].
    apply parse_opts_iff in PO. destruct PO as (gs & SA & NR & ->).
    destruct (opt_present "h"%char (map val_of gs)) eqn:PH; [congruence|].
    destruct fs as [|f [|f' fs]]; [congruence| |congruence]. intros <-. exists gs, f. apply h_absent in PH. auto.
  - intros (gs & a & SA & NR & NH & ->).
    rewrite (proj2 (parse_opts_iff cmd ws _ _) (ex_intro _ gs (conj SA (conj NR eq_refl)))).
    apply h_absent in NH. rewrite NH. reflexivity.
Qed.

Lemma verbosity_count gs : opt_count "v"%char (map val_of gs) = verbosity gs.
Proof. apply count_flag. discriminate. Qed.

Lemma simple_dispatch stdin cmd c ws :
  simple stdin cmd c -> dispatch stdin cmd ws = no_args (options_of cmd) ws (fun vs => IClient (opt_count "v"%char vs) c).
Proof. intros [| | | |]; reflexivity. Qed.

Lemma dispatch_iff stdin cmd ws i :
  i <> IUsage -> (dispatch stdin cmd ws = i <-> asks_for stdin cmd ws i).
Proof.
  intros NU. unfold dispatch. split.
  - destruct (str_eqb_spec cmd $"dump") as [->|N1].
    { intros D. apply (no_args_iff $"dump" ws) in D; [|exact NU|discriminate].
      destruct D as (gs & SA & NR & NH & ->). rewrite verbosity_count. eapply asks_simple; [constructor|eassumption..]. }
    destruct (str_eqb_spec cmd $"info") as [->|N2].
    { intros D. apply (no_args_iff $"info" ws) in D; [|exact NU|discriminate].
      destruct D as (gs & SA & NR & NH & ->). eapply asks_info; [reflexivity|exact SA|exact NR|exact NH| |].
      - apply present_flag. discriminate.
      - eapply config_named; [exact (says_known _ _ _ _ SA)|apply NR]. }
    destruct (str_eqb_spec cmd $"refresh") as [->|N3].
    { intros D. apply (one_arg_iff $"refresh" ws) in D; [|exact NU|discriminate].
      destruct D as (gs & a & SA & NR & NH & ->). rewrite verbosity_count.
      eapply asks_refresh; [reflexivity|exact SA|exact NR|exact NH|]. apply present_flag. discriminate. }
    destruct (str_eqb_spec cmd $"reload") as [->|N4].
    { intros D. apply (no_args_iff $"reload" ws) in D; [|exact NU|discriminate].
      destruct D as (gs & SA & NR & NH & ->). rewrite verbosity_count. eapply asks_simple; [constructor|eassumption..]. }
    destruct (str_eqb_spec cmd $"restore") as [->|N5].
    { intros D. apply (no_args_iff $"restore" ws) in D; [|exact NU|discriminate].
      destruct D as (gs & SA & NR & NH & ->). rewrite verbosity_count. eapply asks_simple; [constructor|eassumption..]. }
    destruct (str_eqb_spec cmd $"revoke") as [->|N6].
    { intros D. apply (one_arg_iff $"revoke" ws) in D; [|exact NU|discriminate].
      destruct D as (gs & a & SA & NR & NH & ->). rewrite verbosity_count.
      eapply asks_revoke; [reflexivity|exact SA|exact NR|exact NH]. }
    destruct (str_eqb_spec cmd $"server") as [->|N7].
    { intros D. apply (no_args_iff $"server" ws) in D; [|exact NU|discriminate].
      destruct D as (gs & SA & NR & NH & ->). rewrite verbosity_count.
      eapply asks_server; [reflexivity|exact SA|exact NR|exact NH| |].
      - rewrite negb_involutive. apply present_flag. discriminate.
      - eapply config_named; [exact (says_known _ _ _ _ SA)|apply NR]. }
    destruct (str_eqb_spec cmd $"show") as [->|N8].
    { intros D. apply (one_arg_iff $"show" ws) in D; [|exact NU|discriminate].
      destruct D as (gs & a & SA & NR & NH & ->). rewrite verbosity_count.
      eapply asks_show; [reflexivity|exact SA|exact NR|exact NH|]. apply present_flag. discriminate. }
    destruct (str_eqb_spec cmd $"shutdown") as [->|N9].
    { intros D. apply (no_args_iff $"shutdown" ws) in D; [|exact NU|discriminate].
      destruct D as (gs & SA & NR & NH & ->). rewrite verbosity_count. eapply asks_simple; [constructor|eassumption..]. }
    destruct (str_eqb_spec cmd $"status") as [->|N10].
    { intros D. apply (no_args_iff $"status" ws) in D; [|exact NU|discriminate].
      destruct D as (gs & SA & NR & NH & ->). rewrite verbosity_count. eapply asks_simple; [constructor|eassumption..]. }
    congruence.
  - intros A. destruct A as [gs c SI SA NR NH|gs a EC SA NR NH|gs a u EC SA NR NH HU|gs a u EC SA NR NH HU
                             |gs f j EC SA NR NH HJ NC|gs f d EC SA NR NH HD NC].
    + change (dispatch stdin cmd ws = IClient (verbosity gs) c). rewrite (simple_dispatch _ _ _ _ SI), <- verbosity_count.
      refine (proj2 (no_args_iff cmd ws (fun vs => IClient (opt_count "v"%char vs) c) _ _ _) _); [discriminate|discriminate|].
      exists gs. auto.
    + subst cmd. rewrite <- verbosity_count.
      refine (proj2 (one_arg_iff $"revoke" ws (fun vs a => IClient (opt_count "v"%char vs) (CRevoke a)) _ _ _) _); [discriminate|discriminate|].
      exists gs, a. auto.
    + subst cmd. rewrite (has_flag_unique _ _ _ _ HU (present_flag "u"%char gs ltac:(discriminate))), <- verbosity_count.
      refine (proj2 (one_arg_iff $"show" ws
        (fun vs a => IClient (opt_count "v"%char vs) (CShow (opt_present "u"%char vs) a)) _ _ _) _); [discriminate|discriminate|].
      exists gs, a. auto.
    + subst cmd. rewrite (has_flag_unique _ _ _ _ HU (present_flag "u"%char gs ltac:(discriminate))), <- verbosity_count.
      refine (proj2 (one_arg_iff $"refresh" ws
        (fun vs a => IClient (opt_count "v"%char vs) (CRefresh (opt_present "u"%char vs) a)) _ _ _) _); [discriminate|discriminate|].
      exists gs, a. auto.
    + subst cmd. rewrite (has_flag_unique _ _ _ _ HJ (present_flag "j"%char gs ltac:(discriminate))).
      rewrite (names_unique gs _ _ (proj2 NR) NC (config_named _ _ (says_known _ _ _ _ SA) (proj2 NR))).
      refine (proj2 (no_args_iff $"info" ws
        (fun vs => IInfo (opt_str "c"%char vs) (opt_present "j"%char vs)) _ _ _) _); [discriminate|discriminate|].
      exists gs. auto.
    + subst cmd.
      assert (d = negb (opt_present "d"%char (map val_of gs))) as ->.
      { rewrite <- (has_flag_unique _ _ _ _ HD (present_flag "d"%char gs ltac:(discriminate))).
        symmetry. apply negb_involutive. }
      rewrite (names_unique gs _ _ (proj2 NR) NC (config_named _ _ (says_known _ _ _ _ SA) (proj2 NR))), <- verbosity_count.
      refine (proj2 (no_args_iff $"server" ws
        (fun vs => IServer (opt_str "c"%char vs) (negb (opt_present "d"%char vs)) (opt_count "v"%char vs)) _ _ _) _); [discriminate|discriminate|].
      exists gs. auto.
Qed.

Lemma line_means stdin prog cmd ws i :
  forallb utf8_valid (prog :: cmd :: ws) = true -> i <> IUsage ->
  (main_args stdin (prog :: cmd :: ws) = Val i <-> asks_for stdin cmd ws i).
Proof.
  intros U NU. unfold main_args. rewrite U. rewrite <- (dispatch_iff stdin cmd ws i NU).
  split; [intros [= <-]; reflexivity|intros ->; reflexivity].
Qed.

Lemma asks_not_usage stdin cmd ws i : asks_for stdin cmd ws i -> i <> IUsage.
Proof. intros []; discriminate. Qed.

Lemma asks_unambiguous stdin cmd ws i j :
  asks_for stdin cmd ws i -> asks_for stdin cmd ws j -> i = j.
Proof.
  intros A B. pose proof (asks_not_usage _ _ _ _ A) as NA. pose proof (asks_not_usage _ _ _ _ B) as NB.
  apply (dispatch_iff _ _ _ _ NA) in A. apply (dispatch_iff _ _ _ _ NB) in B. congruence.
Qed.

Lemma line_usage stdin prog ws :
  forallb utf8_valid (prog :: ws) = true ->
  (main_args stdin (prog :: ws) = Val IUsage
   <-> forall cmd args i, ws = cmd :: args -> i <> IUsage -> ~ asks_for stdin cmd args i).
Proof.
  intros U. split.
  - intros M cmd args i -> NU A. apply (line_means stdin prog cmd args i U NU) in A. congruence.
  - intros H. destruct ws as [|cmd args]; [unfold main_args; rewrite U; reflexivity|].
    unfold main_args. rewrite U. f_equal. destruct (dispatch stdin cmd args) eqn:D; [reflexivity|..]; exfalso;
      (eapply (H cmd args); [reflexivity| |apply dispatch_iff; [|exact D]]); discriminate.
Qed.

Lemma every_account stdin prog a :
  forallb utf8_valid [prog; a] = true ->
  main_args stdin [prog; $"show"; $"--"; a] = Val (IClient 0 (CShow false a))
  /\ main_args stdin [prog; $"show"; $"-u"; $"--"; a] = Val (IClient 0 (CShow true a))
  /\ main_args stdin [prog; $"refresh"; $"--"; a] = Val (IClient 0 (CRefresh false a))
  /\ main_args stdin [prog; $"revoke"; $"--"; a] = Val (IClient 0 (CRevoke a)).
Proof.
  cbn [forallb]. rewrite !andb_true_iff. intros (U1 & U2 & _).
  repeat split; unfold main_args; cbn [forallb]; rewrite U1, U2; reflexivity.
Qed.

Lemma plain_account stdin prog a :
  forallb utf8_valid [prog; a] = true -> plain a ->
  main_args stdin [prog; $"show"; a] = Val (IClient 0 (CShow false a))
  /\ main_args stdin [prog; $"show"; $"-u"; a] = Val (IClient 0 (CShow true a))
  /\ main_args stdin [prog; $"show"; a; $"-u"] = Val (IClient 0 (CShow true a))
  /\ main_args stdin [prog; $"refresh"; $"-u"; a] = Val (IClient 0 (CRefresh true a))
  /\ main_args stdin [prog; $"revoke"; a] = Val (IClient 0 (CRevoke a)).
Proof.
  cbn [forallb]. rewrite !andb_true_iff. intros (U1 & U2 & _) P. apply plain_not_option in P.
  assert (forall opts ws, parse_words opts (a :: ws) = cons_free a (parse_words opts ws)) as PF.
  { intros opts ws. cbn [parse_words]. rewrite P. reflexivity. }
  repeat split; unfold main_args; cbn [forallb]; rewrite U1, U2.
  - change (Val (one_arg (base_opts ++ [opt_u]) [a] (fun vs a => IClient (opt_count "v"%char vs) (CShow (opt_present "u"%char vs) a)))
            = Val (IClient 0 (CShow false a))).
    unfold one_arg, parse_opts. rewrite PF. reflexivity.
  - change (Val (one_arg (base_opts ++ [opt_u]) [$"-u"; a] (fun vs a => IClient (opt_count "v"%char vs) (CShow (opt_present "u"%char vs) a)))
            = Val (IClient 0 (CShow true a))).
    unfold one_arg, parse_opts.
    change (parse_words (base_opts ++ [opt_u]) [$"-u"; a]) with (cons_vals [("u"%char, Given)] (parse_words (base_opts ++ [opt_u]) [a])).
    rewrite PF. reflexivity.
  - change (Val (one_arg (base_opts ++ [opt_u]) [a; $"-u"] (fun vs a => IClient (opt_count "v"%char vs) (CShow (opt_present "u"%char vs) a)))
            = Val (IClient 0 (CShow true a))).
    unfold one_arg, parse_opts. rewrite PF. reflexivity.
  - change (Val (one_arg (base_opts ++ [opt_u]) [$"-u"; a] (fun vs a => IClient (opt_count "v"%char vs) (CRefresh (opt_present "u"%char vs) a)))
            = Val (IClient 0 (CRefresh true a))).
    unfold one_arg, parse_opts.
    change (parse_words (base_opts ++ [opt_u]) [$"-u"; a]) with (cons_vals [("u"%char, Given)] (parse_words (base_opts ++ [opt_u]) [a])).
    rewrite PF. reflexivity.
  - change (Val (one_arg base_opts [a] (fun vs a => IClient (opt_count "v"%char vs) (CRevoke a)))
            = Val (IClient 0 (CRevoke a))).
    unfold one_arg, parse_opts. rewrite PF. reflexivity.
Qed.

Lemma named_file stdin prog v is_file f :
  forallb utf8_valid [prog; f] = true -> plain f ->
  main_args stdin [prog; $"server"; $"-c"; f] = Val (IServer (Some f) true 0)
  /\ main_args stdin [prog; $"server"; $"--config=" ++ f] = Val (IServer (Some f) true 0)
  /\ conf_path v is_file (Some f) = Some f.
Proof.
  cbn [forallb]. rewrite !andb_true_iff. intros (U1 & U2 & _) P. apply plain_not_option in P.
  assert (utf8_valid ($"--config=" ++ f) = true) as U3 by (apply utf8_app; [reflexivity|exact U2]).
  split; [|split; [|reflexivity]]; unfold main_args; cbn [forallb]; rewrite U1, ?U2, ?U3.
  - change (Val (no_args (base_opts ++ [opt_c; opt_d]) [$"-c"; f]
       (fun vs => IServer (opt_str "c"%char vs) (negb (opt_present "d"%char vs)) (opt_count "v"%char vs)))
       = Val (IServer (Some f) true 0)).
    unfold no_args, parse_opts. cbn [parse_words]. rewrite P. reflexivity.
  - change (Val (no_args (base_opts ++ [opt_c; opt_d]) [$"--config=" ++ f]
       (fun vs => IServer (opt_str "c"%char vs) (negb (opt_present "d"%char vs)) (opt_count "v"%char vs)))
       = Val (IServer (Some f) true 0)).
    reflexivity.
Qed.
