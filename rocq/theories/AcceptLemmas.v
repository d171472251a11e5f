(** The loops that take connections: proofs. *)
From Verif Require Import Base BaseLemmas Accept SpecAccept.

Lemma drun_app s l1 l2 : drun s (l1 ++ l2) = match drun s l1 with Some s1 => drun s1 l2 | None => None end.
Proof. revert s. induction l1 as [|l r IH]; intros s; cbn; [reflexivity|]. destruct (dstep s l); [apply IH|reflexivity]. Qed.

Lemma without_refl {A} (P : A -> Prop) l : without_some P l l.
Proof. induction l; constructor; assumption. Qed.

Lemma without_app {A} (P : A -> Prop) l1 m1 l2 m2 :
  without_some P l1 m1 -> without_some P l2 m2 -> without_some P (l1 ++ l2) (m1 ++ m2).
Proof. intros H1 H2. induction H1; cbn; [exact H2| |]; constructor; assumption. Qed.

Lemma without_mono {A} (P Q : A -> Prop) l m : (forall x, P x -> Q x) -> without_some P l m -> without_some Q l m.
Proof. intros I H. induction H; constructor; auto. Qed.

(** One that is dropped may be dropped from the shorter list. *)
Lemma without_less {A} (P : A -> Prop) a x b m : P x -> without_some P (a ++ x :: b) m -> without_some P (a ++ b) m.
Proof.
  intros Px H. remember (a ++ x :: b) as l eqn:E. revert a E. induction H as [|y l m H IH|y l m Py H IH]; intros a E.
  - destruct a; discriminate E.
  - destruct a as [|z a]; cbn in E; injection E as -> ->.
    + cbn. apply ws_drop; [exact Px|exact H].
    + cbn. apply ws_keep. apply IH. reflexivity.
  - apply ws_drop; [exact Py|]. apply IH. exact E.
Qed.

Definition gone (ls : list dlabel) (id : nat) : Prop := In (DGone id) ls.

Definition dinv (ls : list dlabel) (s : door) : Prop :=
  without_some (gone ls) (dr_taken s ++ map fst (dr_waiting s)) (arrivals ls)
  /\ (forall id, In (id, true) (dr_waiting s) -> gone ls id).

Lemma arrivals_snoc ls l : arrivals (ls ++ [l]) = arrivals ls ++ match l with DConn id => [id] | _ => [] end.
Proof. unfold arrivals. rewrite flat_map_app. cbn. rewrite app_nil_r. reflexivity. Qed.

Lemma dinv_step ls s l s' : dinv ls s -> dstep s l = Some s' -> dinv (ls ++ [l]) s'.
Proof.
  intros [W G] S0. assert (forall id, gone ls id -> gone (ls ++ [l]) id) as M by (intros id I; apply in_or_app; auto).
  apply (without_mono _ _ _ _ M) in W. unfold dinv. rewrite arrivals_snoc.
  destruct s as [wt fr tk ca]; cbn in *. destruct l; cbn in S0.
  - injection S0 as <-. cbn. split.
    + rewrite map_app, app_assoc. apply without_app; [exact W|apply without_refl].
    + intros i I. apply in_app_iff in I. destruct I as [I|[I|[]]]; [auto|discriminate I].
  - injection S0 as <-. cbn. rewrite app_nil_r. split.
    + rewrite map_map. rewrite (map_ext _ fst); [exact W|]. intros [i b]. cbn. destruct (Nat.eqb i id); reflexivity.
    + intros i I. apply in_map_iff in I. destruct I as ([i' b] & E & I). cbn in E.
      destruct (Nat.eqb i' id) eqn:Q.
      * injection E as <-. apply Nat.eqb_eq in Q. subst i'. apply in_or_app. right. left. reflexivity.
      * injection E as -> ->. auto.
  - destruct fr; [discriminate|]. injection S0 as <-. cbn. rewrite app_nil_r. auto.
  - injection S0 as <-. cbn. rewrite app_nil_r. auto.
  - rewrite app_nil_r. destruct fr as [|fr].
    + injection S0 as <-. cbn. auto.
    + destruct wt as [|[i b] wt]; [discriminate|]. destruct b; injection S0 as <-; cbn in *.
      * split; [|intros j J; auto]. apply (without_less _ _ i); [auto|exact W].
      * split; [|intros j J; auto]. rewrite <- app_assoc. exact W.
Qed.

Lemma dinv_run free ls s : drun (new_door free) ls = Some s -> dinv ls s.
Proof.
  revert s. induction ls as [|l r IH] using rev_ind; intros s R.
  - injection R as <-. split; [apply ws_nil|intros id []].
  - rewrite drun_app in R. destruct (drun (new_door free) r) as [s1|] eqn:E; [|discriminate]. cbn in R.
    destruct (dstep s1 l) eqn:S1; [|discriminate]. injection R as <-. exact (dinv_step _ _ _ _ (IH _ eq_refl) S1).
Qed.

(** Everybody is taken, once and in order, or waits, or has gone. *)
Lemma in_order free ls s :
  drun (new_door free) ls = Some s ->
  without_some (fun id => In (DGone id) ls) (dr_taken s ++ map fst (dr_waiting s)) (arrivals ls).
Proof. intros R. exact (proj1 (dinv_run free ls s R)). Qed.

(** The loop waits only for somebody to come. *)
Lemma loop_waits s : dstep s DAccept = None <-> dr_waiting s = [] /\ dr_free s <> O.
Proof.
  destruct s as [wt fr tk ca]; cbn. destruct fr as [|fr].
  - split; [discriminate|]. intros [_ H]. destruct (H eq_refl).
  - destruct wt as [|[i []] wt]; split; try discriminate; try (intros [H _]; discriminate H); auto.
Qed.

Lemma fewer {A} (f : A -> bool) l : (List.length (filter f l) <= List.length l)%nat.
Proof. induction l as [|x l IH]; cbn; [lia|]. destruct (f x); cbn; lia. Qed.

(** With descriptors for all who are still there, as many calls take them all. *)
Lemma all_taken wt : forall fr tk ca,
  (List.length (filter (fun p => negb (snd p)) wt) < fr)%nat ->
  exists s, drun (mkDoor wt fr tk ca) (repeat DAccept (List.length wt)) = Some s
    /\ dr_waiting s = [] /\ dr_taken s = tk ++ map fst (filter (fun p => negb (snd p)) wt)
    /\ (dr_free s + List.length (filter (fun p => negb (snd p)) wt) = fr)%nat.
Proof.
  induction wt as [|[i b] wt IH]; intros fr tk ca L.
  - exists (mkDoor [] fr tk ca). cbn. rewrite app_nil_r. auto.
  - destruct fr as [|fr]; [lia|]. destruct b; cbn in L |- *.
    + apply IH. lia.
    + destruct (IH fr (tk ++ [i]) (S ca) ltac:(lia)) as (s & R & W & T & F). exists s. split; [exact R|]. split; [exact W|].
      rewrite T, <- app_assoc. split; [reflexivity|lia].
Qed.

(** Without descriptors the calls change nothing. *)
Lemma calls_fail wt tk n : forall ca,
  drun (mkDoor wt 0 tk ca) (repeat DAccept n) = Some (mkDoor wt 0 tk (n + ca)).
Proof.
  induction n as [|n IH]; intros ca; cbn; [reflexivity|]. rewrite IH. f_equal. f_equal. lia.
Qed.

Lemma closes s n : drun s (repeat DClose n) = Some (mkDoor (dr_waiting s) (n + dr_free s) (dr_taken s) (dr_calls s)).
Proof.
  revert s. induction n as [|n IH]; intros s; cbn; [destruct s; reflexivity|]. rewrite IH. cbn. f_equal. f_equal. lia.
Qed.

(** However often it fails for want of descriptors: when there are some again, all
    who wait are taken. *)
Lemma taken_after_all s n :
  dr_free s = O ->
  exists s', drun s (repeat DAccept n ++ repeat DClose (S (List.length (dr_waiting s)))
                     ++ repeat DAccept (List.length (dr_waiting s))) = Some s'
    /\ dr_waiting s' = [] /\ dr_taken s' = dr_taken s ++ map fst (filter (fun p => negb (snd p)) (dr_waiting s)).
Proof.
  destruct s as [wt fr tk ca]; cbn [dr_free dr_waiting dr_taken]. intros ->.
  destruct (all_taken wt (S (List.length wt) + 0) tk (n + ca)) as (s' & R & W & T & _).
  { pose proof (fewer (fun p : nat * bool => negb (snd p)) wt). lia. }
  exists s'. split; [|split; [exact W|exact T]].
  rewrite drun_app, calls_fail, drun_app, closes. cbn [dr_free dr_waiting dr_taken dr_calls]. exact R.
Qed.
