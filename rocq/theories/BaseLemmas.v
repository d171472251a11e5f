(** Lemmas about Base.v. *)
From Verif Require Import Base.

Lemma ascii_eqb_refl c : Ascii.eqb c c = true.
Proof. apply Ascii.eqb_refl. Qed.

Lemma str_eqb_eq a b : str_eqb a b = true <-> a = b.
Proof.
  revert b; induction a as [|x a IH]; intros [|y b]; simpl; split; intro H;
    try reflexivity; try discriminate.
  - apply andb_true_iff in H as [H1 H2].
    apply Ascii.eqb_eq in H1. apply IH in H2. congruence.
  - injection H as -> ->. rewrite Ascii.eqb_refl. simpl. apply IH. reflexivity.
Qed.

Lemma str_eqb_refl a : str_eqb a a = true.
Proof. apply str_eqb_eq. reflexivity. Qed.

Lemma str_eqb_neq a b : str_eqb a b = false <-> a <> b.
Proof.
  split.
  - intros H E. subst. rewrite str_eqb_refl in H. discriminate.
  - intros H. destruct (str_eqb a b) eqn:E; [|reflexivity].
    apply str_eqb_eq in E. contradiction.
Qed.

Lemma str_eqb_sym a b : str_eqb a b = str_eqb b a.
Proof.
  destruct (str_eqb b a) eqn:E.
  - apply str_eqb_eq in E. subst. apply str_eqb_refl.
  - apply str_eqb_neq in E. apply str_eqb_neq. congruence.
Qed.

Lemma str_eqb_spec a b : reflect (a = b) (str_eqb a b).
Proof.
  destruct (str_eqb a b) eqn:E; constructor.
  - apply str_eqb_eq. exact E.
  - apply str_eqb_neq. exact E.
Qed.

Definition str_eq_dec (a b : str) : {a = b} + {a <> b}.
Proof. apply list_eq_dec. apply ascii_dec. Defined.

Lemma starts_with_app p s : starts_with p (p ++ s) = true.
Proof. induction p as [|x p IH]; simpl; [reflexivity|]. rewrite Ascii.eqb_refl. exact IH. Qed.

Lemma starts_with_iff p s : starts_with p s = true <-> exists t, s = p ++ t.
Proof.
  split.
  - revert s; induction p as [|x p IH]; intros s H; simpl in *.
    + exists s. reflexivity.
    + destruct s as [|y s]; [discriminate|].
      apply andb_true_iff in H as [H1 H2]. apply Ascii.eqb_eq in H1. subst y.
      destruct (IH s H2) as [t ->]. exists t. reflexivity.
  - intros [t ->]. apply starts_with_app.
Qed.

Lemma split_first_none c s : split_first c s = None <-> ~ In c s.
Proof.
  induction s as [|x s IH]; simpl.
  - split; [tauto|reflexivity].
  - destruct (Ascii.eqb x c) eqn:E.
    + apply Ascii.eqb_eq in E. subst. split; [discriminate|]. intros H. exfalso. apply H. left. reflexivity.
    + apply Ascii.eqb_neq in E. destruct (split_first c s) as [[a b]|] eqn:F.
      * split; [discriminate|]. intros H. exfalso. apply H. right.
        destruct (in_dec ascii_dec c s) as [i|n]; [exact i|].
        apply IH in n. discriminate.
      * split; [|reflexivity]. intros _ [H|H]; [contradiction|].
        apply IH in H; [exact H|reflexivity].
Qed.

Lemma split_first_some c s a b :
  split_first c s = Some (a, b) <-> s = a ++ c :: b /\ ~ In c a.
Proof.
  revert a b; induction s as [|x s IH]; intros a b; simpl.
  - split; [discriminate|]. intros [H _]. destruct a; discriminate.
  - destruct (Ascii.eqb x c) eqn:E.
    + apply Ascii.eqb_eq in E. subst x. split.
      * intros H. injection H as <- <-. split; [reflexivity|intros []].
      * intros [H N]. destruct a as [|y a]; simpl in H.
        -- injection H as ->. reflexivity.
        -- injection H as -> H. exfalso. apply N. left. reflexivity.
    + apply Ascii.eqb_neq in E.
      destruct (split_first c s) as [[a' b']|] eqn:F.
      * destruct (proj1 (IH a' b') eq_refl) as [H N]. split.
        -- intros G. injection G as <- <-. subst s. split; [reflexivity|].
           intros [G|G]; contradiction.
        -- intros [G M]. destruct a as [|y a]; simpl in G.
           ++ injection G as G1 G2. contradiction.
           ++ injection G as -> G.
              assert (Some (a', b') = Some (a, b)) as Q.
              { apply IH. split; [exact G|]. intros I. apply M. right. exact I. }
              injection Q as -> ->. reflexivity.
      * split; [discriminate|]. intros [G M]. exfalso.
        destruct a as [|y a]; simpl in G; injection G as G1 G2.
        -- contradiction.
        -- assert (None = Some (a, b)) as Q; [|discriminate].
           apply IH. split; [exact G2|]. intros I. apply M. right. exact I.
Qed.

Lemma split_first_app c a b : ~ In c a -> split_first c (a ++ c :: b) = Some (a, b).
Proof. intros H. apply split_first_some. split; [reflexivity|exact H]. Qed.

Lemma lookup_in {A} k (v : A) m : lookup k m = Some v -> In (k, v) m.
Proof.
  induction m as [|[k' v'] m IH]; simpl; [discriminate|].
  destruct (str_eqb_spec k k') as [->|N].
  - intros H. injection H as ->. left. reflexivity.
  - intros H. right. apply IH. exact H.
Qed.

Lemma lookup_in_keys {A} k (v : A) m : lookup k m = Some v -> In k (keys m).
Proof. intros H. apply lookup_in in H. apply (in_map fst) in H. exact H. Qed.

Lemma lookup_none_iff {A} k (m : list (str * A)) : lookup k m = None <-> ~ In k (keys m).
Proof.
  induction m as [|[k' v'] m IH]; simpl; [tauto|].
  destruct (str_eqb_spec k k') as [->|N].
  - split; [discriminate|]. intros H. exfalso. apply H. left. reflexivity.
  - rewrite IH. split; [|tauto]. intros H [G|G]; [congruence|contradiction].
Qed.

Lemma lookup_some_iff_keys {A} k (m : list (str * A)) :
  (exists v, lookup k m = Some v) <-> In k (keys m).
Proof.
  split.
  - intros [v H]. eapply lookup_in_keys; exact H.
  - intros H. destruct (lookup k m) as [v|] eqn:E; [exists v; reflexivity|].
    apply lookup_none_iff in E. contradiction.
Qed.

Lemma in_lookup {A} k (v : A) m : NoDup (keys m) -> In (k, v) m -> lookup k m = Some v.
Proof.
  induction m as [|[k' v'] m IH]; simpl; [intros _ []|].
  intros ND. inversion ND as [|? ? H1 H2]; subst.
  intros [E|I].
  - injection E as -> ->. rewrite str_eqb_refl. reflexivity.
  - destruct (str_eqb_spec k k') as [->|N].
    + exfalso. apply H1. apply (in_map fst) in I. exact I.
    + apply IH; assumption.
Qed.

Lemma lookup_map_insert {A} k k' (v : A) m :
  lookup k (map_insert k' v m) = if str_eqb k k' then Some v else lookup k m.
Proof.
  induction m as [|[k2 v2] m IH]; simpl.
  - reflexivity.
  - destruct (str_eqb_spec k' k2) as [->|N]; simpl.
    + destruct (str_eqb_spec k k2); reflexivity.
    + rewrite IH. destruct (str_eqb_spec k k2) as [->|N2]; [|reflexivity].
      destruct (str_eqb_spec k2 k'); [congruence|reflexivity].
Qed.

Lemma keys_map_insert_in {A} k x (v : A) m :
  In x (keys (map_insert k v m)) <-> x = k \/ In x (keys m).
Proof.
  induction m as [|[k2 v2] m IH]; simpl.
  - intuition.
  - destruct (str_eqb_spec k k2) as [->|N]; simpl; [intuition|]. rewrite IH. intuition.
Qed.

Lemma keys_map_insert_nodup {A} k (v : A) m :
  NoDup (keys m) -> NoDup (keys (map_insert k v m)).
Proof.
  induction m as [|[k2 v2] m IH]; simpl; intros H.
  - constructor; [intros []|constructor].
  - inversion H as [|? ? H1 H2]; subst.
    destruct (str_eqb_spec k k2) as [->|N]; simpl; [assumption|].
    constructor; [|apply IH; assumption].
    intros I. apply keys_map_insert_in in I as [->|I]; [congruence|contradiction].
Qed.

Lemma hinsert_perm {A} (h : A -> N) x l : Permutation (hinsert h x l) (x :: l).
Proof.
  induction l as [|y l IH]; simpl; [reflexivity|].
  destruct (h x <=? h y)%N; [reflexivity|].
  rewrite IH. apply perm_swap.
Qed.

Lemma hsort_perm {A} (h : A -> N) l : Permutation (hsort h l) l.
Proof.
  induction l as [|x l IH]; simpl; [reflexivity|].
  rewrite hinsert_perm. constructor. exact IH.
Qed.

Lemma hsort_in {A} (h : A -> N) x l : In x (hsort h l) <-> In x l.
Proof.
  split; intro H; eapply Permutation_in; try exact H;
    [|symmetry]; apply hsort_perm.
Qed.

(** Any ordering of distinct keys arises from a hash function. *)
Fixpoint index_of (k : str) (l : list str) : N :=
  match l with
  | [] => 0%N
  | x :: l' => if str_eqb k x then 0%N else (1 + index_of k l')%N
  end.

Lemma perm_lookup {A} k (m m' : list (str * A)) :
  NoDup (keys m) -> Permutation m m' -> lookup k m = lookup k m'.
Proof.
  intros ND P.
  assert (NoDup (keys m')) as ND'.
  { eapply Permutation_NoDup; [|exact ND]. apply Permutation_map. exact P. }
  destruct (lookup k m) as [v|] eqn:E.
  - apply lookup_in in E. symmetry. apply in_lookup; [assumption|].
    eapply Permutation_in; eassumption.
  - destruct (lookup k m') as [v|] eqn:F; [|reflexivity].
    apply lookup_in in F.
    assert (In (k, v) m) as G by (eapply Permutation_in; [symmetry; exact P|exact F]).
    apply in_lookup in G; [congruence|assumption].
Qed.

Lemma hsort_keys_perm {A} (h : str * A -> N) m : Permutation (keys (hsort h m)) (keys m).
Proof. apply Permutation_map. apply hsort_perm. Qed.

Lemma hsort_lookup {A} (h : str * A -> N) k m :
  NoDup (keys m) -> lookup k (hsort h m) = lookup k m.
Proof.
  intros H. symmetry. apply perm_lookup; [assumption|]. symmetry. apply hsort_perm.
Qed.

Lemma opt_eqb_eq {A} (eqb : A -> A -> bool) :
  (forall a b, eqb a b = true <-> a = b) ->
  forall a b, opt_eqb eqb a b = true <-> a = b.
Proof.
  intros H [a|] [b|]; simpl; split; intro E; try reflexivity; try discriminate.
  - apply H in E. congruence.
  - injection E as ->. apply H. reflexivity.
Qed.

Lemma list_eqb_eq {A} (eqb : A -> A -> bool) :
  (forall a b, eqb a b = true <-> a = b) ->
  forall a b, list_eqb eqb a b = true <-> a = b.
Proof.
  intros H a; induction a as [|x a IH]; intros [|y b]; simpl; split; intro E;
    try reflexivity; try discriminate.
  - apply andb_true_iff in E as [E1 E2]. apply H in E1. apply IH in E2. congruence.
  - injection E as -> ->. apply andb_true_iff. split; [apply H|apply IH]; reflexivity.
Qed.

Lemma pair_eqb_eq {A B} (ea : A -> A -> bool) (eb : B -> B -> bool) :
  (forall a b, ea a b = true <-> a = b) ->
  (forall a b, eb a b = true <-> a = b) ->
  forall a b, pair_eqb ea eb a b = true <-> a = b.
Proof.
  intros Ha Hb [a1 b1] [a2 b2]. unfold pair_eqb. simpl.
  rewrite andb_true_iff, Ha, Hb. split; [intros [-> ->]; reflexivity|].
  intros E. injection E as -> ->. auto.
Qed.

Lemma take_drop_while {A} (f : A -> bool) s : take_while f s ++ drop_while f s = s.
Proof. induction s as [|x s IH]; simpl; [reflexivity|]. destruct (f x); simpl; congruence. Qed.

Lemma take_while_forall {A} (f : A -> bool) s : forallb f (take_while f s) = true.
Proof. induction s as [|x s IH]; simpl; [reflexivity|]. destruct (f x) eqn:E; simpl; [rewrite E; exact IH|reflexivity]. Qed.

Lemma take_while_app {A} (f : A -> bool) a b :
  forallb f a = true -> take_while f (a ++ b) = a ++ take_while f b.
Proof.
  induction a as [|x a IH]; simpl; [reflexivity|].
  intros H. apply andb_true_iff in H as [H1 H2]. rewrite H1. f_equal. apply IH. exact H2.
Qed.

Lemma drop_while_app {A} (f : A -> bool) a b :
  forallb f a = true -> drop_while f (a ++ b) = drop_while f b.
Proof.
  induction a as [|x a IH]; simpl; [reflexivity|].
  intros H. apply andb_true_iff in H as [H1 H2]. rewrite H1. apply IH. exact H2.
Qed.

Lemma list_set_length {A} i (x : A) l : List.length (list_set i x l) = List.length l.
Proof. revert i; induction l as [|y l IH]; intros [|i]; simpl; auto. Qed.

Lemma nth_error_list_set_eq {A} i (x : A) l :
  i < List.length l -> nth_error (list_set i x l) i = Some x.
Proof. revert i; induction l as [|y l IH]; intros [|i]; simpl; intros H; try lia; auto. apply IH. lia. Qed.

Lemma nth_error_list_set_ne {A} i j (x : A) l :
  i <> j -> nth_error (list_set i x l) j = nth_error l j.
Proof.
  revert i j; induction l as [|y l IH]; intros [|i] [|j] H; simpl; auto; try congruence.
Qed.

Lemma in_list_set {A} i (x y : A) l : In y (list_set i x l) -> y = x \/ In y l.
Proof.
  revert i; induction l as [|z l IH]; intros [|i]; simpl; intros H; auto.
  - destruct H as [->|H]; auto.
  - destruct H as [->|H]; auto. destruct (IH i H); auto.
Qed.

Lemma bind_val {A B} (m : outcome A) (f : A -> outcome B) b :
  bind m f = Val b <-> exists a, m = Val a /\ f a = Val b.
Proof.
  destruct m; simpl; split.
  - intros H. exists a. auto.
  - intros [x [H1 H2]]. injection H1 as ->. exact H2.
  - discriminate.
  - intros [x [H1 _]]. discriminate.
  - discriminate.
  - intros [x [H1 _]]. discriminate.
Qed.

Lemma bind_panic {A B} (m : outcome A) (f : A -> outcome B) :
  bind m f = Panic <-> m = Panic \/ exists a, m = Val a /\ f a = Panic.
Proof.
  destruct m; simpl; split.
  - intros H. right. exists a. auto.
  - intros [H|[x [H1 H2]]]; [discriminate|]. injection H1 as ->. exact H2.
  - discriminate.
  - intros [H|[x [H1 _]]]; discriminate.
  - auto.
  - auto.
Qed.

Lemma Forall2_impl {A B} (P Q : A -> B -> Prop) l l' :
  (forall a b, P a b -> Q a b) -> Forall2 P l l' -> Forall2 Q l l'.
Proof. intros H F. induction F; constructor; auto. Qed.

Lemma Forall2_in_r {A B} (P : A -> B -> Prop) l l' b :
  Forall2 P l l' -> In b l' -> exists a, In a l /\ P a b.
Proof.
  intros F. induction F as [|x y l l' H F IH]; intros I; [destruct I|].
  destruct I as [->|I]; [exists x; split; [left; reflexivity|exact H]|].
  destruct (IH I) as [a [Ia Pa]]. exists a. split; [right; exact Ia|exact Pa].
Qed.

Lemma Forall2_in_l {A B} (P : A -> B -> Prop) l l' a :
  Forall2 P l l' -> In a l -> exists b, In b l' /\ P a b.
Proof.
  intros F. induction F as [|x y l l' H F IH]; intros I; [destruct I|].
  destruct I as [->|I]; [exists y; split; [left; reflexivity|exact H]|].
  destruct (IH I) as [b [Ib Pb]]. exists b. split; [right; exact Ib|exact Pb].
Qed.

Lemma firstn_exact {A} (a b : list A) n : n = List.length a -> firstn n (a ++ b) = a.
Proof. intros ->. rewrite firstn_app, Nat.sub_diag, firstn_all. simpl. apply app_nil_r. Qed.

Lemma skipn_exact {A} (a b : list A) n : n = List.length a -> skipn n (a ++ b) = b.
Proof. intros ->. rewrite skipn_app, Nat.sub_diag, skipn_all. reflexivity. Qed.
