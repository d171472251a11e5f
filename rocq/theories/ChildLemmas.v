(** Commands that take long: proofs. *)
From Verif Require Import Base BaseLemmas Time Url Json Oracles Config State Http Timers Server SpecServer SpecTimers
  SpecSessions SpecFair SpecTimed TimedEvents Startup Log Command SpecCommand CommandLemmas Child SpecChild.
Local Open Scope Z_scope.

Local Arguments Nat.ltb : simpl never.
Local Arguments Nat.eqb : simpl never.
Local Arguments output_open : simpl never.

Lemma jrun_app j l1 l2 : jrun j (l1 ++ l2) = match jrun j l1 with Some j1 => jrun j1 l2 | None => None end.
Proof.
  revert j. induction l1 as [|l r IH]; intros j; cbn; [reflexivity|]. destruct (jstep j l); [apply IH|reflexivity].
Qed.

Lemma jrun_snoc j ls l j' : jrun j (ls ++ [l]) = Some j' -> exists j1, jrun j ls = Some j1 /\ jstep j1 l = Some j'.
Proof.
  rewrite jrun_app. destruct (jrun j ls) as [j1|]; [|discriminate]. cbn. destruct (jstep j1 l) eqn:E; [|discriminate].
  intros H. injection H as <-. eauto.
Qed.

(** Invariants of a finite run that may speak of its labels. *)
Lemma jrun_inv (I : list jlabel -> job -> Prop) j0 :
  I [] j0 -> (forall ls j l j', I ls j -> jstep j l = Some j' -> I (ls ++ [l]) j') ->
  forall ls j, jrun j0 ls = Some j -> I ls j.
Proof.
  intros I0 IS ls. induction ls as [|l r IH] using rev_ind; intros j R; cbn in R.
  - injection R as <-. exact I0.
  - apply jrun_snoc in R. destruct R as (j1 & R & E). exact (IS _ _ _ _ (IH _ R) E).
Qed.

Lemma writes_snoc ls l : writes (ls ++ [l]) = writes ls ++ match l with JWrite s => s | _ => [] end.
Proof.
  unfold writes. rewrite flat_map_app, concat_app. f_equal. destruct l; cbn; rewrite ?app_nil_r; reflexivity.
Qed.

(** * What is true of every command *)

Definition jinv (limit : option Z) (t : Z) (ls : list jlabel) (j : job) : Prop :=
  j_limit j = limit /\ j_start j = t /\ t <= j_now j /\ j_out j = writes ls
  /\ ((exists w, In (JKill w) ls) -> j_pc j = WReap \/ j_pc j = WOver CTimeout)
  /\ (forall code, j_shell j = ShEnded code -> In (JShellExit code) ls)
  /\ (j_shell j = ShKilled -> In (JKill true) ls)
  /\ match j_pc j with
     | WWait => j_shell j = ShAlive \/ exists code, j_shell j = ShEnded code
     | WKill => (exists m, limit = Some m /\ t + m <= j_now j) /\ (j_shell j = ShAlive \/ exists code, j_shell j = ShEnded code)
     | WReap => (exists m, limit = Some m /\ t + m <= j_now j) /\ j_shell j <> ShReaped
     | WOver (CExit code out) =>
         j_shell j = ShReaped /\ In (JShellExit code) ls /\ (forall w, ~ In (JKill w) ls)
         /\ match limit with
            | Some _ => out = []
            | None => out = writes ls /\ ~ In true (j_kids j)
            end
     | WOver CTimeout =>
         (exists m, limit = Some m /\ t + m <= j_now j) /\ j_shell j = ShReaped /\ exists code, In (JShellExit code) ls
     | WOver (CWaitFailed _) => forall w, ~ In (JKill w) ls
     | WOver _ => False
     end.

Lemma in_snoc {A} (x : A) l y : In x (l ++ [y]) <-> In x l \/ x = y.
Proof. rewrite in_app_iff. cbn. intuition. Qed.

Lemma in_drop i l x : In x (drop_nth i l) -> In x l.
Proof. revert l. induction i as [|i IH]; intros [|y l]; cbn; auto. intros [->|H]; auto. Qed.

Lemma not_kill_snoc ls l : (forall w, l <> JKill w) -> (forall w, ~ In (JKill w) ls) -> forall w, ~ In (JKill w) (ls ++ [l]).
Proof. intros N H w I. apply in_snoc in I. destruct I as [I|I]; [exact (H w I)|exact (N w (eq_sym I))]. Qed.

Lemma kill_snoc ls l : (forall w, l <> JKill w) -> (exists w, In (JKill w) (ls ++ [l])) -> exists w, In (JKill w) ls.
Proof. intros N [w I]. apply in_snoc in I. destruct I as [I|I]; [eauto|]. exfalso. exact (N w (eq_sym I)). Qed.

Lemma no_true l : existsb (fun b => b) l = false -> ~ In true l.
Proof. induction l as [|b l IH]; cbn; [auto|]. destruct b; cbn; [discriminate|]. intros H [E|I]; [discriminate|exact (IH H I)]. Qed.

Lemma with_true l : ~ In true l -> existsb (fun b => b) l = false.
Proof. induction l as [|b l IH]; cbn; [auto|]. destruct b; cbn; [intros H; exfalso; auto|]. intros H. apply IH. auto. Qed.

Lemma jinv_step limit t ls j l j' : jinv limit t ls j -> jstep j l = Some j' -> jinv limit t (ls ++ [l]) j'.
Proof.
  intros (L & St & T & Out & K & E & Kd & P) S.
  destruct j as [lim st now sh kids out p]; cbn in *; subst lim st out.
  assert (forall x, In x ls -> In x (ls ++ [l])) as Mono by (intros x I; apply in_or_app; left; exact I).
  assert (forall c, In (JShellExit c) ls -> In (JShellExit c) (ls ++ [l])) as MonoE by auto.
  unfold jinv. rewrite writes_snoc.
  assert ((forall w, l <> JKill w) -> (exists w, In (JKill w) (ls ++ [l])) -> p = WReap \/ p = WOver CTimeout) as KK
    by (intros N X; apply K; exact (kill_snoc ls l N X)).
  assert ((forall w, l <> JKill w) -> (forall w, ~ In (JKill w) ls) -> forall w, ~ In (JKill w) (ls ++ [l])) as NN
    by (apply not_kill_snoc).
  destruct l; cbn in S;
    try (specialize (KK ltac:(intros ? X; discriminate X)); specialize (NN ltac:(intros ? X; discriminate X))).
  - (* JTime *)
    destruct (now <=? t0) eqn:Le in S; [|discriminate]. injection S as <-. apply Z.leb_le in Le. cbn.
    rewrite app_nil_r. split; [reflexivity|]. split; [reflexivity|]. split; [lia|]. split; [reflexivity|].
    split; [exact KK|]. split; [auto|]. split; [auto|].
    destruct p as [| | |[]]; try exact P; try (destruct P as [(m & M & B) Q]; split; [exists m; split; [exact M|lia]|exact Q]).
    + destruct P as (A & B & C & D). auto.
    + destruct P as ((m & M & B) & A & c & Ic). split; [exists m; split; [exact M|lia]|]. split; [exact A|]. exists c. auto.
    + apply NN. exact P.
  - (* JShellExit *)
    destruct (shell_runs sh) eqn:Ru in S; [|discriminate]. injection S as <-. cbn. rewrite app_nil_r.
    split; [reflexivity|]. split; [reflexivity|]. split; [exact T|]. split; [reflexivity|].
    split; [exact KK|]. split; [intros c X; injection X as <-; apply in_snoc; auto|]. split; [intros X; discriminate X|].
    destruct p as [| | |[]]; eauto.
    + destruct P as [P _]. eauto.
    + destruct P as [P _]. split; [exact P|discriminate].
    + destruct P as (A & _). rewrite A in Ru. discriminate Ru.
    + destruct P as (_ & A & _). rewrite A in Ru. discriminate Ru.
  - (* JFork *)
    destruct (if holds then _ else _) eqn:Ru in S; [|discriminate]. injection S as <-. cbn. rewrite app_nil_r.
    split; [reflexivity|]. split; [reflexivity|]. split; [exact T|]. split; [reflexivity|].
    split; [exact KK|]. split; [auto|]. split; [auto|].
    destruct p as [| | |[]]; eauto; [|destruct P as (P1 & P2 & c & P3); split; [exact P1|]; split; [exact P2|]; exists c; auto].
    destruct P as (A & B & C & D). split; [exact A|]. split; [auto|]. split; [auto|].
    destruct limit; [exact D|]. destruct D as [D1 D2]. split; [exact D1|]. rewrite in_snoc. intros [X|X]; [auto|].
    subst holds. unfold output_open in Ru. cbn in Ru. rewrite A in Ru. cbn in Ru. rewrite with_true in Ru by exact D2.
    discriminate Ru.
  - (* JKidExit *)
    match type of S with (if ?b then _ else _) = _ => destruct b; [|discriminate] end. injection S as <-. cbn. rewrite app_nil_r.
    split; [reflexivity|]. split; [reflexivity|]. split; [exact T|]. split; [reflexivity|].
    split; [exact KK|]. split; [auto|]. split; [auto|].
    destruct p as [| | |[]]; eauto; [|destruct P as (P1 & P2 & c & P3); split; [exact P1|]; split; [exact P2|]; exists c; auto].
    destruct P as (A & B & C & D). split; [exact A|]. split; [auto|]. split; [auto|].
    destruct limit; [exact D|]. destruct D as [D1 D2]. split; [exact D1|]. intros X. apply D2. exact (in_drop _ _ _ X).
  - (* JWrite *)
    destruct (output_open _) eqn:Ru in S; [|discriminate]. injection S as <-. cbn.
    split; [reflexivity|]. split; [reflexivity|]. split; [exact T|]. split; [reflexivity|].
    split; [exact KK|]. split; [auto|]. split; [auto|].
    destruct p as [| | |[]]; eauto; [|destruct P as (P1 & P2 & c & P3); split; [exact P1|]; split; [exact P2|]; exists c; auto].
    destruct P as (A & B & C & D). split; [exact A|]. split; [auto|]. split; [auto|].
    destruct limit; [exact D|]. destruct D as [D1 D2]. exfalso. unfold output_open in Ru. cbn in Ru. rewrite A in Ru.
    cbn in Ru. rewrite with_true in Ru by exact D2. discriminate Ru.
  - (* JSeen *)
    destruct p; try discriminate S. destruct sh as [| |code|]; try discriminate S.
    assert (forall w, ~ In (JKill w) ls) as NK.
    { intros w I. destruct (K (ex_intro _ w I)) as [X|X]; discriminate X. }
    destruct limit as [m|].
    + injection S as <-. cbn. rewrite app_nil_r.
      split; [reflexivity|]. split; [reflexivity|]. split; [exact T|]. split; [reflexivity|].
      split; [intros [w I]; exfalso; exact (NN NK w I)|]. split; [intros c X; discriminate X|].
      split; [intros X; discriminate X|]. split; [reflexivity|]. split; [apply MonoE, E; reflexivity|].
      split; [exact (NN NK)|reflexivity].
    + destruct (output_open _) eqn:Ru in S; [discriminate|]. injection S as <-. cbn. rewrite app_nil_r.
      split; [reflexivity|]. split; [reflexivity|]. split; [exact T|]. split; [reflexivity|].
      split; [intros [w I]; exfalso; exact (NN NK w I)|]. split; [intros c X; discriminate X|].
      split; [intros X; discriminate X|]. split; [reflexivity|]. split; [apply MonoE, E; reflexivity|].
      split; [exact (NN NK)|]. split; [reflexivity|]. unfold output_open in Ru. cbn in Ru. apply no_true. exact Ru.
  - (* JGiveUp *)
    destruct p; try discriminate S. destruct limit as [m|]; [|discriminate S].
    destruct (t + m <=? now) eqn:Le in S; [|discriminate]. apply Z.leb_le in Le. injection S as <-. cbn. rewrite app_nil_r.
    split; [reflexivity|]. split; [reflexivity|]. split; [exact T|]. split; [reflexivity|].
    split; [intros X; destruct (KK X) as [Y|Y]; discriminate Y|]. split; [auto|]. split; [auto|].
    split; [exists m; auto|exact P].
  - (* JWaitFails *)
    destruct p; try discriminate S. injection S as <-. cbn. rewrite app_nil_r.
    assert (forall w, ~ In (JKill w) ls) as NK.
    { intros w I. destruct (K (ex_intro _ w I)) as [X|X]; discriminate X. }
    split; [reflexivity|]. split; [reflexivity|]. split; [exact T|]. split; [reflexivity|].
    split; [intros [w I]; exfalso; exact (NN NK w I)|]. split; [auto|]. split; [auto|]. exact (NN NK).
  - (* JKill *)
    destruct p; try discriminate S. destruct P as [P Q]. destruct sh as [| |code|].
    + injection S as <-. destruct works; cbn; rewrite app_nil_r.
      * split; [reflexivity|]. split; [reflexivity|]. split; [exact T|]. split; [reflexivity|].
        split; [auto|]. split; [intros c X; discriminate X|]. split; [intros _; apply in_snoc; auto|].
        split; [exact P|discriminate].
      * split; [reflexivity|]. split; [reflexivity|]. split; [exact T|]. split; [reflexivity|].
        split; [auto|]. split; [intros c X; discriminate X|]. split; [intros X; discriminate X|].
        split; [exact P|discriminate].
    + injection S as <-. cbn. rewrite app_nil_r.
      split; [reflexivity|]. split; [reflexivity|]. split; [exact T|]. split; [reflexivity|].
      split; [auto|]. split; [auto|]. split; [auto|]. split; [exact P|discriminate].
    + injection S as <-. cbn. rewrite app_nil_r.
      split; [reflexivity|]. split; [reflexivity|]. split; [exact T|]. split; [reflexivity|].
      split; [auto|]. split; [auto|]. split; [auto|]. split; [exact P|discriminate].
    + exfalso. destruct Q as [Q|[c Q]]; discriminate Q.
  - (* JReap *)
    destruct p; try discriminate S. destruct sh as [| |code|]; try discriminate S. injection S as <-. cbn. rewrite app_nil_r.
    split; [reflexivity|]. split; [reflexivity|]. split; [exact T|]. split; [reflexivity|].
    split; [auto|]. split; [intros c X; discriminate X|]. split; [intros X; discriminate X|].
    destruct P as [P _]. split; [exact P|]. split; [reflexivity|]. exists code. apply MonoE, E. reflexivity.
Qed.

Lemma jinv_run limit t ls j : jrun (job_start limit t) ls = Some j -> jinv limit t ls j.
Proof.
  apply (jrun_inv (jinv limit t)); [|apply jinv_step].
  unfold jinv. cbn. split; [reflexivity|]. split; [reflexivity|]. split; [lia|]. split; [reflexivity|].
  split; [intros [w []]|]. split; [intros c X; discriminate X|]. split; [intros X; discriminate X|]. auto.
Qed.

(** A verdict on the command is its own. *)
Lemma exit_verdict limit t ls j code out :
  jrun (job_start limit t) ls = Some j -> j_pc j = WOver (CExit code out) ->
  In (JShellExit code) ls /\ (forall w, ~ In (JKill w) ls).
Proof. intros R P. apply jinv_run in R. destruct R as (_ & _ & _ & _ & _ & _ & _ & Q). rewrite P in Q. tauto. Qed.

Lemma approved limit t ls j cmd x :
  jrun (job_start limit t) ls = Some j -> j_pc j = WOver x -> cmd_ok cmd x = true ->
  In (JShellExit (Some 0%N)) ls /\ (forall w, ~ In (JKill w) ls).
Proof.
  intros R P A. apply (proj1 (answer_ok cmd x)) in A. destruct A as [out ->]. exact (exit_verdict _ _ _ _ _ _ R P).
Qed.

(** Nobody is killed before the time is up. *)
Lemma killed_late limit t ls j w l1 l2 :
  jrun (job_start limit t) ls = Some j -> ls = l1 ++ JKill w :: l2 ->
  exists m j1, limit = Some m /\ jrun (job_start limit t) l1 = Some j1 /\ t + m <= j_now j1.
Proof.
  intros R ->. rewrite jrun_app in R. destruct (jrun (job_start limit t) l1) as [j1|] eqn:R1; [|discriminate].
  cbn [jrun] in R. destruct (jstep j1 (JKill w)) eqn:S1; [|discriminate].
  pose proof (jinv_run _ _ _ _ R1) as (_ & _ & _ & _ & _ & _ & _ & Q).
  cbn in S1. destruct (j_pc j1); try discriminate S1. destruct Q as [(m & M & B) _]. exists m, j1. auto.
Qed.

(** "exceeded timeout" is said only if it has been, and only of commands with a limit. *)
Lemma timeout_true limit t ls j :
  jrun (job_start limit t) ls = Some j -> j_pc j = WOver CTimeout -> exists m, limit = Some m /\ t + m <= j_now j.
Proof. intros R P. apply jinv_run in R. destruct R as (_ & _ & _ & _ & _ & _ & _ & Q). rewrite P in Q. tauto. Qed.

(** When the thread goes on the shell is gone, unless it could not be waited for. *)
Lemma shell_gone limit t ls j x :
  jrun (job_start limit t) ls = Some j -> j_pc j = WOver x -> (forall m, x <> CWaitFailed m) ->
  j_shell j = ShReaped /\ exists code, In (JShellExit code) ls.
Proof.
  intros R P N. apply jinv_run in R. destruct R as (_ & _ & _ & _ & _ & _ & _ & Q). rewrite P in Q.
  destruct x; try tauto; [|exfalso; exact (N m eq_refl)]. destruct Q as (A & B & _). eauto.
Qed.

(** Without a limit nothing is killed; the output is read to its end. *)
Lemma no_limit t ls j :
  jrun (job_start None t) ls = Some j ->
  (forall w, ~ In (JKill w) ls)
  /\ (forall x, j_pc j = WOver x -> (exists m, x = CWaitFailed m)
        \/ exists code, x = CExit code (writes ls) /\ output_open j = false).
Proof.
  intros R. pose proof (jinv_run _ _ _ _ R) as (_ & _ & _ & _ & K & _ & _ & Q). split.
  - intros w I. destruct (K (ex_intro _ w I)) as [P|P]; rewrite P in Q; destruct Q as [(m & M & _) _]; discriminate M.
  - intros x P. rewrite P in Q. destruct x; try contradiction.
    + right. exists code. destruct Q as (A & _ & _ & O' & B). subst out. split; [reflexivity|].
      unfold output_open. rewrite A. cbn. exact (with_true _ B).
    + destruct Q as [(m & M & _) _]. discriminate M.
    + left. exists m. reflexivity.
Qed.

(** * In time *)

Lemma runs_prefix js ls limit t n : job_runs js ls limit t -> exists l, jrun (job_start limit t) l = Some (js n) /\
  forall x, In x l -> exists k, ls k = Some x.
Proof.
  intros [S0 St]. induction n as [|n (l & R & I)].
  - exists []. rewrite S0. cbn. split; [reflexivity|intros x []].
  - specialize (St n). destruct (ls n) as [x|] eqn:E.
    + exists (l ++ [x]). rewrite jrun_app, R. cbn. rewrite St. split; [reflexivity|].
      intros y Y. apply in_snoc in Y. destruct Y as [Y| ->]; eauto.
    + exists l. rewrite St. auto.
Qed.

Lemma runs_inv js ls limit t n : job_runs js ls limit t -> exists l, jinv limit t l (js n) /\
  forall x, In x l -> exists k, ls k = Some x.
Proof. intros R. destruct (runs_prefix js ls limit t n R) as (l & E & I). exists l. split; [exact (jinv_run _ _ _ _ E)|exact I]. Qed.

Lemma clock_forward js ls limit t k : job_runs js ls limit t -> clock js k <= clock js (S k).
Proof.
  intros [_ St]. specialize (St k). unfold clock. destruct (ls k) as [l|]; [|rewrite St; lia].
  destruct (js k) as [lim st now sh kids out p]; destruct l; cbn in St; try discriminate St;
    repeat match type of St with
      | (match ?x with _ => _ end) = Some _ => destruct x eqn:?; cbn in St; try discriminate St
      end; injection St as <-; cbn; try (destruct works; cbn); try lia.
Qed.

(** A while that goes on. *)
Lemma stretch (Q : nat -> Prop) m n : (m <= n)%nat -> (forall i, (m <= i)%nat -> (i <= n)%nat -> Q i) -> Q (S n) ->
  forall i, (m <= i)%nat -> (i <= S n)%nat -> Q i.
Proof. intros L H X i A B. destruct (Nat.eq_dec i (S n)) as [->|N]; [exact X|]. apply H; lia. Qed.

Definition since (Q : nat -> Prop) (n : nat) (at_most : nat -> Prop) : Prop :=
  exists m, (m <= n)%nat /\ (forall i, (m <= i)%nat -> (i <= n)%nat -> Q i) /\ at_most m.

Lemma since_now (Q : nat -> Prop) n (b : nat -> Prop) : Q n -> b n -> since Q n b.
Proof. intros X B. exists n. split; [lia|]. split; [|exact B]. intros i A C. replace i with n by lia. exact X. Qed.

Lemma since_on (Q : nat -> Prop) n (b : nat -> Prop) : since Q n b -> Q (S n) -> since Q (S n) b.
Proof. intros (m & L & H & B) X. exists m. split; [lia|]. split; [exact (stretch Q m n L H X)|exact B]. Qed.

Definition is_ended (j : job) : Prop := exists code, j_shell j = ShEnded code.

(** The four whiles one after the other. *)
Definition phase js (m t d g : Z) (n : nat) : Prop :=
  match j_pc (js n) with
  | WWait => forall i, (i <= n)%nat -> j_pc (js i) = WWait
  | WKill => since (fun i => j_pc (js i) = WKill) n (fun i => clock js i <= t + m + d)
  | WReap =>
      since (fun i => j_pc (js i) = WReap /\ j_shell (js i) = ShKilled) n (fun i => clock js i <= t + m + 2 * d)
      \/ since (fun i => j_pc (js i) = WReap /\ is_ended (js i)) n (fun i => clock js i <= t + m + 2 * d + g)
  | WOver _ => True
  end.

Lemma phases js ls m t d g :
  job_runs js ls (Some m) t -> job_prompt js m t d g -> can_be_killed ls -> 0 <= m -> 0 <= d -> 0 <= g ->
  forall n, phase js m t d g n.
Proof.
  intros R P C M D G. destruct R as [S0 St] eqn:ER; clear ER. assert (job_runs js ls (Some m) t) as R' by (split; assumption).
  destruct P as [Pa Pe Pk Pd Pr].
  induction n as [|n IH].
  - unfold phase. rewrite S0. cbn. intros i L. replace i with O by lia. rewrite S0. reflexivity.
  - destruct (runs_inv js ls (Some m) t n R') as (l & I & _). destruct I as (IL & IS & IT & _ & _ & _ & _ & IP).
    pose proof (St n) as E. unfold phase in *.
    destruct (j_pc (js n)) as [| | |x] eqn:Q.
    + assert (clock js (S n) <= t + m + d) as B.
      { pose proof (Pa O n ltac:(lia) (fun i _ L => IH i L)) as X. unfold clock at 2 in X. rewrite S0 in X. cbn in X. lia. }
      assert (j_pc (js (S n)) = WWait \/ j_pc (js (S n)) = WKill \/ exists x, j_pc (js (S n)) = WOver x) as Z0.
      { destruct (ls n) as [x|]; [|rewrite E, Q; auto].
        destruct (js n) as [lim st now sh kids out p]; cbn in Q; subst p; destruct x; cbn in E; try discriminate E;
          repeat match type of E with
            | (match ?x with _ => _ end) = Some _ => destruct x eqn:?; cbn in E; try discriminate E
            end; injection E as <-; cbn; eauto. }
      destruct Z0 as [X|[X|[x X]]]; rewrite X; [|apply since_now; [exact X|exact B]|exact Logic.I].
      intros i L. destruct (Nat.eq_dec i (S n)) as [->|N]; [exact X|apply IH; lia].
    + assert (clock js (S n) <= t + m + 2 * d) as B.
      { destruct IH as (k & L & H & X). pose proof (Pk k n L H). lia. }
      assert (j_pc (js (S n)) = WKill \/ (j_pc (js (S n)) = WReap /\ (j_shell (js (S n)) = ShKilled \/ is_ended (js (S n)))))
        as Z0.
      { destruct (ls n) as [x|] eqn:Lb; [|rewrite E, Q; auto]. destruct IP as [_ IP].
        destruct (js n) as [lim st now sh kids out p]; cbn in Q, IP; subst p; destruct x; cbn in E; try discriminate E;
          repeat match type of E with
            | (match ?x with _ => _ end) = Some _ => destruct x eqn:?; cbn in E; try discriminate E
            end; injection E as <-; cbn; auto.
        - destruct works; cbn; [auto|]. exfalso. exact (C n Lb).
        - unfold is_ended. cbn. eauto.
        - exfalso. destruct IP as [IP|[c IP]]; discriminate IP. }
      destruct Z0 as [X|[X [Y|Y]]]; rewrite X.
      * apply since_on; [exact IH|exact X].
      * left. apply since_now; [auto|exact B].
      * right. apply since_now; [auto|lia].
    + assert (j_pc (js (S n)) = WReap /\ (j_shell (js (S n)) = j_shell (js n) \/ is_ended (js (S n)))
              \/ exists x, j_pc (js (S n)) = WOver x) as Z0.
      { destruct (ls n) as [x|] eqn:Lb; [|rewrite E, Q; auto].
        destruct (js n) as [lim st now sh kids out p]; cbn in Q; subst p; destruct x; cbn in E; try discriminate E;
          repeat match type of E with
            | (match ?x with _ => _ end) = Some _ => destruct x eqn:?; cbn in E; try discriminate E
            end; injection E as <-; cbn; eauto.
        left. unfold is_ended. cbn. eauto. }
      destruct Z0 as [[X Y]|[x X]]; rewrite X; [|exact Logic.I].
      destruct IH as [IH|IH].
      * assert (clock js (S n) <= t + m + 2 * d + g) as B.
        { destruct IH as (k & L & H & W). pose proof (Pd k n L H). lia. }
        destruct Y as [Y|Y].
        -- left. apply since_on; [exact IH|]. split; [exact X|]. rewrite Y. destruct IH as (k & L & H & _). apply (H n); lia.
        -- right. apply since_now; [auto|exact B].
      * right. apply since_on; [exact IH|]. split; [exact X|]. destruct Y as [Y|Y]; [|exact Y].
        unfold is_ended. rewrite Y. destruct IH as (k & L & H & _). destruct (H n L (Nat.le_refl n)) as [_ [c Hc]]. eauto.
    + destruct (ls n) as [y|]; [|rewrite E, Q; exact Logic.I].
      destruct (js n) as [lim st now sh kids out p]; cbn in Q; subst p; destruct y; cbn in E; try discriminate E;
        repeat match type of E with
          | (match ?x with _ => _ end) = Some _ => destruct x eqn:?; cbn in E; try discriminate E
          end; injection E as <-; cbn; exact Logic.I.
Qed.

(** However the command behaves, waiting for it is over in time. *)
Lemma over_in_time js ls m t d g :
  job_runs js ls (Some m) t -> job_prompt js m t d g -> can_be_killed ls -> 0 <= m -> 0 <= d -> 0 <= g ->
  forall n, t + m + 3 * d + g < clock js n -> job_over (js n).
Proof.
  intros R P C M D G n L. pose proof (phases js ls m t d g R P C M D G n) as H.
  pose proof (clock_forward js ls (Some m) t n R) as F. unfold phase in H. destruct P as [Pa Pe Pk Pd Pr].
  destruct (j_pc (js n)) as [| | |x] eqn:Q.
  - exfalso. pose proof (Pa O n ltac:(lia) (fun i _ B => H i B)) as X. unfold clock at 2 in X. destruct R as [S0 _].
    rewrite S0 in X. cbn in X. lia.
  - exfalso. destruct H as (k & A & B & W). pose proof (Pk k n A B). lia.
  - exfalso. destruct H as [(k & A & B & W)|(k & A & B & W)].
    + pose proof (Pd k n A B). lia.
    + pose proof (Pr k n A B). lia.
  - exists x. exact Q.
Qed.

(** A command that ends in time is taken at its word. *)
Lemma in_time_counts js ls m t d g x code :
  job_runs js ls (Some m) t -> job_prompt js m t d g ->
  j_pc (js x) = WWait -> j_shell (js x) = ShEnded code -> clock js x + d < t + m ->
  forall n, (x <= n)%nat -> forall y, j_pc (js n) = WOver y -> y = CExit code [] \/ exists e, y = CWaitFailed e.
Proof.
  intros R P W E L.
  assert (forall n, (x <= n)%nat ->
            (forall i, (x <= i)%nat -> (i <= n)%nat -> j_pc (js i) = WWait /\ j_shell (js i) = ShEnded code)
            \/ j_pc (js n) = WOver (CExit code []) \/ exists e, j_pc (js n) = WOver (CWaitFailed e)) as H.
  { intros n Ln. induction n as [|n IH].
    { left. intros i A B. replace i with x by lia. auto. }
    destruct (Nat.eq_dec x (S n)) as [->|N].
    { left. intros i A B. replace i with (S n) by lia. auto. }
    specialize (IH ltac:(lia)). pose proof (proj2 R n) as S.
    destruct (runs_inv js ls (Some m) t n R) as (l & I & _). destruct I as (IL & IS & _).
    destruct IH as [IH|IH].
    - assert (clock js n < t + m) as B.
      { pose proof (jp_end _ _ _ _ _ P x n ltac:(lia)
          (fun i A C => conj (proj1 (IH i A C)) (ex_intro _ code (proj2 (IH i A C))))) as X.
        pose proof (clock_forward js ls (Some m) t n R). lia. }
      destruct (IH n ltac:(lia) (Nat.le_refl n)) as [Q Q'].
      assert (j_pc (js (Datatypes.S n)) = WWait /\ j_shell (js (Datatypes.S n)) = ShEnded code
              \/ j_pc (js (Datatypes.S n)) = WOver (CExit code [])
              \/ exists e, j_pc (js (Datatypes.S n)) = WOver (CWaitFailed e)) as [X|X]; [| |right; exact X].
      { destruct (ls n) as [y|]; [|rewrite S; auto]. unfold clock in B.
        destruct (js n) as [lim st now sh kids out p]; cbn in Q, Q', IL, IS, B; subst p sh lim st; destruct y; cbn in S; try discriminate S;
          repeat match type of S with
            | (match ?x with _ => _ end) = Some _ => destruct x eqn:?; cbn in S; try discriminate S
            end; try (injection S as <-; cbn; eauto; fail).
        exfalso. match goal with H : (_ <=? _) = true |- _ => apply Z.leb_le in H; lia end. }
      left. exact (stretch (fun i => j_pc (js i) = WWait /\ j_shell (js i) = ShEnded code) x n ltac:(lia) IH X).
    - right. assert (j_pc (js (Datatypes.S n)) = j_pc (js n)) as ->; [|exact IH].
      destruct (ls n) as [y|]; [|rewrite S; auto].
      destruct (js n) as [lim st now sh kids out p]; cbn in IH.
      destruct IH as [->|[e ->]]; destruct y; cbn in S; try discriminate S;
        repeat match type of S with
          | (match ?x with _ => _ end) = Some _ => destruct x eqn:?; cbn in S; try discriminate S
          end; injection S as <-; reflexivity. }
  intros n Ln y Y. destruct (H n Ln) as [X|[X|[e X]]].
  - destruct (X n Ln (Nat.le_refl n)) as [Q _]. rewrite Q in Y. discriminate Y.
  - rewrite X in Y. injection Y as <-. auto.
  - rewrite X in Y. injection Y as <-. eauto.
Qed.

(** What [job_prompt] asks of the thread it can do. *)
Lemma can_go_on m t ls j :
  jrun (job_start (Some m) t) ls = Some j -> ~ job_over j ->
  t + m <= j_now j \/ (exists code, j_shell j = ShEnded code) -> (j_pc j = WReap -> exists code, j_shell j = ShEnded code) ->
  exists l j', own_step l /\ jstep j l = Some j' /\ (steps_left j' < steps_left j)%nat
    /\ (j_pc j = WKill -> j_shell j = ShAlive -> j_shell j' = ShKilled).
Proof.
  intros R N A B. pose proof (jinv_run _ _ _ _ R) as (L & S0 & _ & _ & _ & _ & _ & Q).
  destruct j as [lim st now sh kids out p]; cbn in *; subst lim st. destruct p.
  - destruct Q as [->|[c ->]].
    + destruct A as [A|[c A]]; [|discriminate A]. exists JGiveUp. eexists. split; [unfold own_step; cbn; auto|].
      cbn. apply Z.leb_le in A. rewrite A. split; [reflexivity|]. split; [cbn; lia|discriminate].
    + exists JSeen. eexists. split; [unfold own_step; cbn; auto|]. cbn. split; [reflexivity|]. split; [cbn; lia|discriminate].
  - destruct Q as [_ [->|[c ->]]]; exists (JKill true); eexists; (split; [unfold own_step; cbn; auto|]); cbn;
      (split; [reflexivity|]); (split; [cbn; lia|]); intros _ X; [reflexivity|discriminate X].
  - destruct (B eq_refl) as [c ->]. exists JReap. eexists. split; [unfold own_step; cbn; auto|]. cbn.
    split; [reflexivity|]. split; [cbn; lia|discriminate].
  - exfalso. apply N. exists x. reflexivity.
Qed.

(** If it has not been killed it is waited for until it ends. *)
Lemma stuck_until j ls j' :
  j_pc j = WReap -> j_shell j = ShAlive -> jrun j ls = Some j' -> job_over j' -> exists code, In (JShellExit code) ls.
Proof.
  intros P Q R V.
  assert ((exists code, In (JShellExit code) ls) \/ (j_pc j' = WReap /\ j_shell j' = ShAlive)) as [H|[H _]]; [|exact H|].
  - refine (jrun_inv (fun ls j => (exists code, In (JShellExit code) ls) \/ (j_pc j = WReap /\ j_shell j = ShAlive))
              j _ _ ls j' R); [auto|].
    clear. intros ls j l j' I S. destruct I as [[c I]|[P Q]].
    { left. exists c. apply in_or_app. auto. }
    destruct j as [lim st now sh kids out p]; cbn in P, Q; subst p sh; destruct l; cbn in S; try discriminate S;
      try (left; exists code; apply in_snoc; auto; fail); right;
      repeat match type of S with
        | (match ?x with _ => _ end) = Some _ => destruct x eqn:?; cbn in S; try discriminate S
        end; injection S as <-; auto.
  - destruct V as [x V]. rewrite V in H. discriminate H.
Qed.

(** * With the thread that reports events *)

Lemma waited_brief tau Q m d g :
  waited tau Q m d g -> 0 <= m -> 0 <= d -> 0 <= g -> brief tau Q (m + 4 * d + g).
Proof.
  intros W M D G k j A B. destruct (W k j A B) as (js & jls & t & n & R1 & R2 & R3 & R4 & R5 & R6).
  destruct (Z_lt_le_dec (t + m + 3 * d + g) (clock js n)) as [X|X]; [|lia].
  exfalso. apply R5. exact (over_in_time js jls m t d g R1 R2 R3 M D G n X).
Qed.

Lemma serving_reports O ws ls tau d g :
  serving_events O ws ls tau d g -> 0 <= d -> 0 <= g -> reporting O ws ls tau d (event_limit + 4 * d + g).
Proof.
  intros [E F P R Si N] D G. split; [exact E|exact F| |exact Si|exact N].
  assert (forall r q b, eventer_limit d r q = Some b ->
            (q = PEvRunning /\ b = r) \/ (q <> PEvRunning /\ eventer_limit d d q = Some d /\ b = d)) as C.
  { intros r q b L. destruct q; try discriminate L; injection L as <-; [right|right|right|right|left];
      repeat split; discriminate. }
  intros q b L. destruct (C _ q b L) as [[-> ->]|(X & Y & ->)]; [|exact (P q X Y)].
  apply waited_brief; [exact R|vm_compute; discriminate|exact D|exact G].
Qed.

Lemma events_in_time O ws ls tau d g k j :
  serving_events O ws ls tau d g -> 0 <= d -> 0 <= g -> (forall i, events_wanted (w_trace (ws i))) -> (k <= j)%nat ->
  tau k + backlog (ws k) * (secs 30 + 7 * d + g) + 3 * d < tau (S j) ->
  exists rest, delivered (w_trace (ws j)) = queued (w_trace (ws k)) ++ rest.
Proof.
  intros Se D G W L T.
  apply (delivered_soon O ws ls tau d (event_limit + 4 * d + g) (serving_reports O ws ls tau d g Se D G) D); [|exact W|exact L|].
  - assert (0 <= event_limit) by (vm_compute; discriminate). lia.
  - replace (event_limit + 4 * d + g + 3 * d) with (secs 30 + 7 * d + g) by (change (secs 30) with event_limit; lia). exact T.
Qed.
