(** Reading in pieces is reading the whole; the server behind its sockets is
    the server of Server.v. *)
From Verif Require Import Base Utf8 Url Oracles Config Located Http State Server Wire.
From Verif Require Import BaseLemmas SpecHttp HttpLemmas SpecWire.
From Coq Require Import Lia Permutation.

Lemma read_to_end_is ps f : forall buf,
  read_to_end buf ps f
  = match f with Open => Waits | Ended => Got (buf ++ List.concat ps) | Broken => Bad end.
Proof.
  induction ps as [|p ps IH]; intros buf; cbn.
  - rewrite app_nil_r. reflexivity.
  - rewrite IH, <- app_assoc. reflexivity.
Qed.

(** * The same on the whole input *)

Definition w_line (f : fin) (s : str) : got (str * str) :=
  match split_first nl s with
  | Some (a, b) => if utf8_valid (a ++ [nl]) then Got (a ++ [nl], b) else Bad
  | None =>
      match f with
      | Open => Waits
      | Ended => if utf8_valid s then Got (s, []) else Bad
      | Broken => Bad
      end
  end.

Fixpoint w_headers (fuel : nat) (f : fin) (s : str) (size : N) (req : list str) : got (list str) :=
  match fuel with
  | O => Bad
  | S fuel' =>
      if (max_http_request_size <=? size)%N then Bad
      else
        match w_line f s with
        | Waits => Waits
        | Bad => Bad
        | Got (line, s') =>
            match trim_end line with
            | [] => Got (rev req)
            | _ =>
                let size' := (size + N.of_nat (List.length line))%N in
                match line with
                | c :: _ =>
                    if is_sp_tab c then
                      match req with
                      | x :: req' => w_headers fuel' f s' size' ((x ++ trim_end line) :: req')
                      | [] => Bad
                      end
                    else w_headers fuel' f s' size' (trim_end line :: req)
                | [] => Bad
                end
            end
        end
  end.

Definition w_get (O : oracles) (https : bool) (f : fin) (s : str) : got url :=
  match w_line f s with
  | Waits => Waits
  | Bad => Bad
  | Got (req_line, s') =>
      match split_all " "%char req_line with
      | [m; path; _] =>
          if str_eqb m $"GET" then
            match w_headers (S (List.length s)) f s' (N.of_nat (List.length req_line)) [] with
            | Waits => Waits
            | Bad => Bad
            | Got req =>
                match find_host None req with
                | Some (Some h) =>
                    match o_url_parse O ((if https then $"https" else $"http") ++ $"://" ++ h ++ path) with
                    | Some u => Got u
                    | None => Bad
                    end
                | _ => Bad
                end
            end
          else Bad
      | _ => Bad
      end
  end.

Lemma next_line_whole f ps : forall line buf, ~ In nl line ->
  match split_first nl (line ++ buf ++ List.concat ps) with
  | Some (a, b) => exists buf' ps', next_line line buf ps f = Got (a ++ [nl], buf', ps') /\ buf' ++ List.concat ps' = b
  | None =>
      next_line line buf ps f
      = match f with Open => Waits | Ended => Got (line ++ buf ++ List.concat ps, [], []) | Broken => Bad end
  end.
Proof.
  induction ps as [|p ps IH]; intros line buf NL; cbn [next_line List.concat].
  - destruct (split_first nl buf) as [[a b]|] eqn:S.
    + apply split_first_some in S. destruct S as [-> NA]. rewrite app_nil_r.
      replace (line ++ a ++ nl :: b) with ((line ++ a) ++ nl :: b) by (rewrite <- app_assoc; reflexivity).
      rewrite split_first_app by (intros H; apply in_app_or in H; tauto).
      exists b, []. cbn. rewrite app_nil_r, <- app_assoc. split; reflexivity.
    + apply split_first_none in S.
      assert (split_first nl (line ++ buf ++ []) = None) as ->.
      { apply split_first_none. rewrite app_nil_r. intros H. apply in_app_or in H. tauto. }
      rewrite app_nil_r. reflexivity.
  - destruct (split_first nl buf) as [[a b]|] eqn:S.
    + apply split_first_some in S. destruct S as [-> NA].
      replace (line ++ (a ++ nl :: b) ++ p ++ List.concat ps)
        with ((line ++ a) ++ nl :: (b ++ p ++ List.concat ps))
        by (rewrite <- !app_assoc; reflexivity).
      rewrite split_first_app by (intros H; apply in_app_or in H; tauto).
      exists b, (p :: ps). cbn. rewrite <- app_assoc. split; reflexivity.
    + apply split_first_none in S.
      specialize (IH (line ++ buf) p). rewrite <- app_assoc in IH. apply IH.
      intros H. apply in_app_or in H. tauto.
Qed.

Lemma line_in_whole f buf ps :
  match w_line f (buf ++ List.concat ps) with
  | Got (l, r) => exists buf' ps', line_in buf ps f = Got (l, buf', ps') /\ buf' ++ List.concat ps' = r
  | Bad => line_in buf ps f = Bad
  | Waits => line_in buf ps f = Waits
  end.
Proof.
  unfold w_line, line_in. pose proof (next_line_whole f ps [] buf (fun H => H)) as N. cbn [app] in N.
  destruct (split_first nl (buf ++ List.concat ps)) as [[a b]|] eqn:S.
  - destruct N as (buf' & ps' & -> & E). destruct (utf8_valid (a ++ [nl])); [|reflexivity].
    exists buf', ps'. split; [reflexivity|exact E].
  - rewrite N. destruct f; try reflexivity.
    destruct (utf8_valid (buf ++ List.concat ps)); [|reflexivity].
    exists [], []. split; reflexivity.
Qed.

Lemma headers_in_whole f fuel : forall buf ps size req,
  headers_in fuel buf ps f size req = w_headers fuel f (buf ++ List.concat ps) size req.
Proof.
  induction fuel as [|fuel IH]; intros buf ps size req; cbn [headers_in w_headers]; [reflexivity|].
  destruct (max_http_request_size <=? size)%N; [reflexivity|].
  pose proof (line_in_whole f buf ps) as L.
  destruct (w_line f (buf ++ List.concat ps)) as [[l r]| |]; [|rewrite L; reflexivity|rewrite L; reflexivity].
  destruct L as (buf' & ps' & -> & <-).
  destruct (trim_end l); [reflexivity|].
  destruct l as [|c l]; [reflexivity|].
  destruct (is_sp_tab c); [destruct req as [|x req]; [reflexivity|]|]; apply IH.
Qed.

Lemma get_in_whole O https ps f : get_in O https ps f = w_get O https f (List.concat ps).
Proof.
  unfold get_in, w_get. pose proof (line_in_whole f [] ps) as L. cbn [app] in L.
  destruct (w_line f (List.concat ps)) as [[l r]| |]; [|rewrite L; reflexivity|rewrite L; reflexivity].
  destruct L as (buf' & ps' & -> & <-).
  destruct (split_all " "%char l) as [|m [|path [|v [|]]]]; try reflexivity.
  destruct (str_eqb m $"GET"); [|reflexivity].
  rewrite headers_in_whole. reflexivity.
Qed.

Lemma pieces_irrelevant O https ps ps' f :
  List.concat ps = List.concat ps' -> get_in O https ps f = get_in O https ps' f.
Proof. intros E. rewrite !get_in_whole, E. reflexivity. Qed.

(** * A connection that has ended *)

Lemma w_line_ended s : w_line Ended s = match read_line s with Some x => Got x | None => Bad end.
Proof.
  unfold w_line, read_line.
  destruct (split_first nl s) as [[a b]|] eqn:S.
  - apply split_first_some in S. destruct S as [-> NA].
    assert (read_raw_line (a ++ nl :: b) = (a ++ [nl], b)) as ->.
    { clear -NA. induction a as [|c a IH]; cbn [read_raw_line app]; [reflexivity|].
      destruct (Ascii.eqb c nl) eqn:E; [apply Ascii.eqb_eq in E; subst c; exfalso; apply NA; left; reflexivity|].
      rewrite IH by (intros H; apply NA; right; exact H). reflexivity. }
    destruct (utf8_valid (a ++ [nl])); reflexivity.
  - apply split_first_none in S.
    assert (read_raw_line s = (s, [])) as ->.
    { clear -S. induction s as [|c s IH]; cbn [read_raw_line]; [reflexivity|].
      destruct (Ascii.eqb c nl) eqn:E; [apply Ascii.eqb_eq in E; subst c; exfalso; apply S; left; reflexivity|].
      rewrite IH by (intros H; apply S; right; exact H). reflexivity. }
    destruct (utf8_valid s); reflexivity.
Qed.

Lemma w_headers_ended fuel : forall s size req,
  w_headers fuel Ended s size req
  = match read_headers fuel s size req with Some x => Got x | None => Bad end.
Proof.
  induction fuel as [|fuel IH]; intros s size req; cbn [w_headers read_headers]; [reflexivity|].
  destruct (max_http_request_size <=? size)%N; [reflexivity|].
  rewrite w_line_ended. destruct (read_line s) as [[l r]|]; [|reflexivity].
  destruct (trim_end l); [reflexivity|].
  destruct l as [|c l]; [reflexivity|].
  destruct (is_sp_tab c); [destruct req as [|x req]; [reflexivity|]|]; apply IH.
Qed.

Lemma w_get_ended O https s :
  w_get O https Ended s = match parse_get O https s with Some u => Got u | None => Bad end.
Proof.
  unfold w_get, parse_get. rewrite w_line_ended. destruct (read_line s) as [[l r]|]; [|reflexivity].
  destruct (split_all " "%char l) as [|m [|path [|v [|]]]]; try reflexivity.
  destruct (str_eqb m $"GET"); [|reflexivity].
  rewrite w_headers_ended. destruct (read_headers _ r _ []) as [req|]; [|reflexivity].
  destruct (find_host None req) as [[h|]|]; reflexivity.
Qed.

Lemma ended_iff O https ps u :
  get_in O https ps Ended = Got u <-> get_request O https (List.concat ps) u.
Proof.
  rewrite get_in_whole, w_get_ended, <- parse_get_iff.
  destruct (parse_get O https (List.concat ps)); split; intros H; inversion H; reflexivity.
Qed.

Lemma ended_answered O https ps : get_in O https ps Ended <> Waits.
Proof. rewrite get_in_whole, w_get_ended. destruct (parse_get _ _ _); discriminate. Qed.

(** * What has been decided stays decided *)

Lemma w_line_more f s more :
  match w_line Open s with
  | Got (l, r) => w_line f (s ++ more) = Got (l, r ++ more)
                  /\ List.length r < List.length s
  | Bad => w_line f (s ++ more) = Bad
  | Waits => True
  end.
Proof.
  unfold w_line. destruct (split_first nl s) as [[a b]|] eqn:S; [|exact I].
  apply split_first_some in S. destruct S as [-> NA].
  rewrite <- app_assoc. cbn [app]. rewrite split_first_app by exact NA.
  destruct (utf8_valid (a ++ [nl])); [|reflexivity].
  split; [reflexivity|]. rewrite app_length. cbn. lia.
Qed.

Lemma w_headers_more f more fuel : forall s fuel' size req,
  List.length s < fuel -> List.length s < fuel' ->
  w_headers fuel Open s size req <> Waits ->
  w_headers fuel' f (s ++ more) size req = w_headers fuel Open s size req.
Proof.
  induction fuel as [|fuel IH]; intros s fuel' size req L L' D; [lia|].
  destruct fuel' as [|fuel']; [lia|].
  cbn [w_headers] in D |- *.
  destruct (max_http_request_size <=? size)%N; [reflexivity|].
  pose proof (w_line_more f s more) as M.
  destruct (w_line Open s) as [[l r]| |]; [|rewrite M; reflexivity|congruence].
  destruct M as [-> LR].
  destruct (trim_end l); [reflexivity|].
  destruct l as [|c l]; [reflexivity|].
  destruct (is_sp_tab c); [destruct req as [|x req]; [reflexivity|]|]; apply IH; try lia; exact D.
Qed.

Lemma w_get_more O https f s more :
  w_get O https Open s <> Waits -> w_get O https f (s ++ more) = w_get O https Open s.
Proof.
  intros D. unfold w_get in D |- *. pose proof (w_line_more f s more) as M.
  destruct (w_line Open s) as [[l r]| |]; [|rewrite M; reflexivity|congruence].
  destruct M as [-> LR].
  destruct (split_all " "%char l) as [|m [|path [|v [|]]]]; try reflexivity.
  destruct (str_eqb m $"GET"); [|reflexivity].
  rewrite (w_headers_more f more (S (List.length s))).
  - reflexivity.
  - lia.
  - rewrite app_length. lia.
  - intros E. rewrite E in D. apply D. reflexivity.
Qed.

Lemma settled O https ps more f :
  get_in O https ps Open <> Waits -> get_in O https (ps ++ more) f = get_in O https ps Open.
Proof.
  rewrite !get_in_whole, concat_app. apply w_get_more.
Qed.

Lemma settled_fin O https ps f :
  get_in O https ps Open <> Waits -> get_in O https ps f = get_in O https ps Open.
Proof. intros D. rewrite <- (app_nil_r ps) at 1. apply settled, D. Qed.

(** * A connection that breaks off *)

Lemma w_line_broken s :
  w_line Broken s = match w_line Open s with Waits => Bad | r => r end.
Proof.
  unfold w_line. destruct (split_first nl s) as [[a b]|]; [|reflexivity].
  destruct (utf8_valid (a ++ [nl])); reflexivity.
Qed.

Lemma w_headers_broken fuel : forall s size req,
  w_headers fuel Broken s size req
  = match w_headers fuel Open s size req with Waits => Bad | r => r end.
Proof.
  induction fuel as [|fuel IH]; intros s size req; cbn [w_headers]; [reflexivity|].
  destruct (max_http_request_size <=? size)%N; [reflexivity|].
  rewrite w_line_broken. destruct (w_line Open s) as [[l r]| |]; [|reflexivity|reflexivity].
  destruct (trim_end l); [reflexivity|].
  destruct l as [|c l]; [reflexivity|].
  destruct (is_sp_tab c); [destruct req as [|x req]; [reflexivity|]|]; apply IH.
Qed.

Lemma broken O https ps :
  get_in O https ps Broken = match get_in O https ps Open with Waits => Bad | r => r end.
Proof.
  rewrite !get_in_whole. unfold w_get. rewrite w_line_broken.
  destruct (w_line Open (List.concat ps)) as [[l r]| |]; [|reflexivity|reflexivity].
  destruct (split_all " "%char l) as [|m [|path [|v [|]]]]; try reflexivity.
  destruct (str_eqb m $"GET"); [|reflexivity].
  rewrite w_headers_broken. destruct (w_headers _ Open r _ []) as [req| |]; [|reflexivity|reflexivity].
  destruct (find_host None req) as [[h|]|]; try reflexivity.
  destruct (o_url_parse O _); reflexivity.
Qed.

(** * When the server has to wait *)

Lemma w_line_open s l r : w_line Open s = Got (l, r) <-> s = l ++ r /\ whole_line l.
Proof.
  unfold w_line, whole_line. split.
  - destruct (split_first nl s) as [[a b]|] eqn:S; [|discriminate].
    destruct (utf8_valid (a ++ [nl])) eqn:U; [|discriminate].
    intros E. inversion E. subst l r. apply split_first_some in S. destruct S as [-> NA].
    rewrite <- app_assoc. split; [reflexivity|]. split; [exact U|]. exists a. split; [reflexivity|exact NA].
  - intros (-> & U & l' & -> & N). rewrite <- app_assoc. cbn [app]. rewrite split_first_app by exact N.
    rewrite U. reflexivity.
Qed.

Lemma w_line_waits s : w_line Open s = Waits <-> ~ In nl s.
Proof.
  unfold w_line. split.
  - destruct (split_first nl s) as [[a b]|] eqn:S.
    + destruct (utf8_valid (a ++ [nl])); discriminate.
    + intros _. apply split_first_none, S.
  - intros N. apply split_first_none in N. rewrite N. reflexivity.
Qed.

Lemma whole_line_nonempty l : whole_line l -> exists c l0, l = c :: l0.
Proof. intros (_ & l' & -> & _). destruct l' as [|c l']; cbn; eauto. Qed.

Lemma whole_head l l2 r r2 : whole_line l -> whole_line l2 -> l ++ r = l2 ++ r2 -> l = l2 /\ r = r2.
Proof.
  intros W W2 E. assert (w_line Open (l ++ r) = Got (l, r)) as A by (apply w_line_open; auto).
  assert (w_line Open (l ++ r) = Got (l2, r2)) as B by (apply w_line_open; auto).
  rewrite A in B. inversion B. auto.
Qed.

Lemma total_cons l ls : total (l :: ls) = List.length l + total ls.
Proof. unfold total. cbn. rewrite app_length. reflexivity. Qed.

Lemma headers_wait fuel : forall s size req, List.length s < fuel ->
  w_headers fuel Open s size req = Waits <->
  exists ls rest, s = List.concat ls ++ rest /\ ~ In nl rest /\ Forall whole_line ls
    /\ Forall (fun l => ~ all_white l) ls
    /\ (req = [] -> match ls with l :: _ => ~ continues l | [] => True end)
    /\ (size + N.of_nat (total ls) < max_http_request_size)%N.
Proof.
  induction fuel as [|fuel IH]; intros s size req L; [lia|]. cbn [w_headers].
  destruct (max_http_request_size <=? size)%N eqn:SZ.
  { apply N.leb_le in SZ. split; [discriminate|]. intros (ls & rest & _ & _ & _ & _ & _ & B). lia. }
  apply N.leb_gt in SZ.
  destruct (w_line Open s) as [[l r]| |] eqn:WL.
  - apply w_line_open in WL. destruct WL as [-> W].
    destruct (whole_line_nonempty l W) as (c & l0 & EL).
    destruct (trim_end l) as [|t0 t] eqn:T.
    { split; [discriminate|]. intros (ls & rest & E & NR & FW & FB & _). apply blank_iff in T.
      destruct ls as [|l2 ls].
      - exfalso. cbn [List.concat app] in E. apply NR. rewrite <- E. destruct W as (_ & l' & -> & _).
        apply in_or_app. left. apply in_or_app. right. left. reflexivity.
      - cbn [List.concat] in E. rewrite <- app_assoc in E. inversion FW as [|? ? W2 ?]. subst.
        destruct (whole_head _ _ _ _ W W2 E) as [<- _]. inversion FB. tauto. }
    assert (NB : ~ all_white l) by (intros B; apply blank_iff in B; congruence).
    rewrite app_length in L. assert (LL : 0 < List.length l) by (rewrite EL; cbn; lia).
    (* the recursive call stands for the rest *)
    assert (R : forall req',
      w_headers fuel Open r (size + N.of_nat (List.length l)) req' = Waits ->
      req' <> [] -> (req = [] -> ~ continues l) ->
      exists ls rest, l ++ r = List.concat ls ++ rest /\ ~ In nl rest /\ Forall whole_line ls
        /\ Forall (fun l => ~ all_white l) ls
        /\ (req = [] -> match ls with l :: _ => ~ continues l | [] => True end)
        /\ (size + N.of_nat (total ls) < max_http_request_size)%N).
    { intros req' H NE C. apply IH in H; [|lia]. destruct H as (ls & rest & -> & NR & FW & FB & _ & B).
      exists (l :: ls), rest. cbn [List.concat]. rewrite <- app_assoc. repeat (split; [try assumption; auto|]).
      rewrite total_cons. lia. }
    assert (R' : forall req',
      req' <> [] ->
      (exists ls rest, l ++ r = List.concat ls ++ rest /\ ~ In nl rest /\ Forall whole_line ls
        /\ Forall (fun l => ~ all_white l) ls
        /\ (req = [] -> match ls with l :: _ => ~ continues l | [] => True end)
        /\ (size + N.of_nat (total ls) < max_http_request_size)%N) ->
      w_headers fuel Open r (size + N.of_nat (List.length l)) req' = Waits /\ (req = [] -> ~ continues l)).
    { intros req' NE (ls & rest & E & NR & FW & FB & C & B).
      destruct ls as [|l2 ls].
      - exfalso. cbn [List.concat app] in E. apply NR. rewrite <- E. destruct W as (_ & l' & -> & _).
        apply in_or_app. left. apply in_or_app. right. left. reflexivity.
      - cbn [List.concat] in E. rewrite <- app_assoc in E. inversion FW as [|? ? W2 FW2]. subst.
        inversion FB as [|? ? B2 FB2]. subst.
        destruct (whole_head _ _ _ _ W W2 E) as [<- ->]. split; [|exact C].
        apply IH; [lia|]. exists ls, rest. repeat (split; [try assumption; auto|]); [intros ->; congruence|].
        rewrite total_cons in B. lia. }
    rewrite EL. rewrite EL in R, R'. destruct (is_sp_tab c) eqn:SP.
    + rewrite (continues_iff c l0) in SP. destruct req as [|x req].
      * split; [discriminate|]. intros H. apply (R' [[]]) in H; [|discriminate]. destruct H as [_ H].
        exfalso. apply H; [reflexivity|exact SP].
      * split; [intros H; apply (R _ H); discriminate|]. intros H.
        apply (R' ((x ++ trim_end (c :: l0)) :: req)) in H; [|discriminate]. rewrite <- EL in H |- *. rewrite T in H. apply H.
    + assert (NC : ~ continues (c :: l0)) by (intros H; apply continues_iff in H; congruence).
      split; [intros H; apply (R _ H); [discriminate|intros _; exact NC]|].
      intros H. apply (R' (trim_end (c :: l0) :: req)) in H; [|discriminate]. rewrite <- EL in H |- *. rewrite T in H. apply H.
  - split; [discriminate|]. intros (ls & rest & -> & NR & FW & _). exfalso.
    destruct ls as [|l ls].
    + cbn [List.concat app] in WL. apply w_line_waits in NR. congruence.
    + cbn [List.concat] in WL. rewrite <- app_assoc in WL. inversion FW as [|? ? W2 ?]. subst.
      assert (w_line Open (l ++ List.concat ls ++ rest) = Got (l, List.concat ls ++ rest)) as A
        by (apply w_line_open; auto). congruence.
  - apply w_line_waits in WL. split; [|reflexivity]. intros _. exists [], s. cbn.
    repeat (split; [try assumption; auto|]). lia.
Qed.

Lemma waits_iff O https ps : get_in O https ps Open = Waits <-> unfinished (List.concat ps).
Proof.
  rewrite get_in_whole. unfold unfinished. set (s := List.concat ps). clearbody s. unfold w_get.
  destruct (w_line Open s) as [[l r]| |] eqn:WL.
  - apply w_line_open in WL. destruct WL as [-> W].
    assert (NN : In nl (l ++ r)).
    { destruct W as (_ & l' & -> & _). apply in_or_app. left. apply in_or_app. right. left. reflexivity. }
    assert (LL : List.length r < S (List.length (l ++ r))) by (rewrite app_length; lia).
    split.
    + intros H. right. destruct (split_all " "%char l) as [|m [|path [|v [|]]]] eqn:SA; try discriminate H.
      destruct (str_eqb m $"GET") eqn:M; [|discriminate H]. apply str_eqb_eq in M. subst m.
      apply split_three in SA. destruct SA as (E & _ & NP & NV).
      destruct (w_headers _ Open r _ []) as [req| |] eqn:WH; [|discriminate|].
      { destruct (find_host None req) as [[h|]|]; try discriminate H. destruct (o_url_parse O _); discriminate H. }
      apply headers_wait in WH; [|exact LL].
      destruct WH as (ls & rest & -> & NR & FW & FB & C & B).
      exists path, v, ls, rest. cbv zeta.
      assert (l = $"GET " ++ path ++ $" " ++ v) as EL by (rewrite E; reflexivity).
      rewrite <- EL. cbn [List.concat]. rewrite <- app_assoc.
      specialize (C eq_refl). repeat (split; [try assumption; auto|]).
      rewrite total_cons. unfold max_size. change max_http_request_size with (Z.to_N (2 ^ 14)) in B. lia.
    + intros [N|(path & v & ls & rest & E & NR & FW & NP & NV & FB & C & B)]; [contradiction|].
      cbv zeta in E, FW, B. pose proof (Forall_inv FW) as W2. pose proof (Forall_inv_tail FW) as FW2.
      cbn [List.concat] in E. rewrite <- app_assoc in E.
      destruct (whole_head _ _ _ _ W W2 E) as [-> ->].
      assert (split_all " "%char ($"GET " ++ path ++ $" " ++ v) = [$"GET"; path; v]) as ->.
      { apply split_three. split; [reflexivity|]. split; [|auto]. cbn. intros [X|[X|[X|[]]]]; discriminate X. }
      cbn [str_eqb Ascii.eqb Bool.eqb andb].
      assert (w_headers (S (List.length (($"GET " ++ path ++ $" " ++ v) ++ List.concat ls ++ rest))) Open (List.concat ls ++ rest)
                (N.of_nat (List.length ($"GET " ++ path ++ $" " ++ v))) [] = Waits) as ->.
      { apply headers_wait; [exact LL|]. exists ls, rest. repeat (split; [try assumption; auto|]).
        rewrite total_cons in B. unfold max_size in B. change max_http_request_size with (Z.to_N (2 ^ 14)). lia. }
      reflexivity.
  - split; [discriminate|]. intros [N|(path & v & ls & rest & E & NR & FW & _)].
    + apply w_line_waits in N. congruence.
    + exfalso. cbv zeta in E, FW. pose proof (Forall_inv FW) as W2. subst s.
      cbn [List.concat] in WL. rewrite <- app_assoc in WL.
      match type of WL with w_line _ (?l ++ ?r) = _ => assert (w_line Open (l ++ r) = Got (l, r)) as A by (apply w_line_open; auto) end.
      congruence.
  - apply w_line_waits in WL. split; [intros _; left; exact WL|reflexivity].
Qed.

(** Whole lines count. *)
Lemma lines_bounded s a b : unfinished s -> s = a ++ nl :: b -> List.length a + 1 < max_size.
Proof.
  intros [N|(path & v & ls & rest & E & NR & FW & _ & _ & _ & _ & B)] E2.
  - exfalso. apply N. rewrite E2. apply in_or_app. right. left. reflexivity.
  - cbv zeta in E, B. set (first := $"GET " ++ path ++ $" " ++ v) in *. clearbody first.
    rewrite E in E2. unfold total in B.
    set (c := List.concat (first :: ls)) in *. clearbody c. clear -E2 NR B.
    assert (List.length a + 1 <= List.length c); [|lia].
    destruct (Nat.le_gt_cases (List.length a + 1) (List.length c)) as [|G]; [assumption|exfalso].
    apply NR. apply (f_equal (skipn (List.length c))) in E2.
    rewrite skipn_app, skipn_all, Nat.sub_diag in E2. cbn [skipn app] in E2. rewrite E2.
    rewrite skipn_app. apply in_or_app. right.
    replace (List.length c - List.length a) with 0 by lia. left. reflexivity.
Qed.
