(** What the provider's answer has to look like. *)
From Verif Require Import Base BaseLemmas Time Url Json Oracles Config State Http Timers Server SpecServer SpecAnswer.
Local Open Scope Z_scope.

Lemma lookup_none {A} k (m : list (str * A)) : lookup_last k m = None <-> ~ In k (map fst m).
Proof.
  induction m as [|[k' x] m IH]; cbn [lookup_last map fst In]; [tauto|].
  destruct (lookup_last k m) as [y|] eqn:E.
  - split; [discriminate|]. intros H. exfalso. apply H. right.
    destruct (in_dec (list_eq_dec ascii_dec) k (map fst m)) as [I|N]; [exact I|]. apply IH in N. discriminate N.
  - destruct (str_eqb_spec k k') as [->|NE].
    + split; [discriminate|]. intros H. destruct H. left. reflexivity.
    + split; [|reflexivity]. intros _ [H|H]; [congruence|]. apply IH in H; [exact H|reflexivity].
Qed.

Lemma lookup_some {A} k (m : list (str * A)) x :
  lookup_last k m = Some x <-> exists a b, m = a ++ (k, x) :: b /\ ~ In k (map fst b).
Proof.
  split.
  - induction m as [|[k' y] m IH]; cbn [lookup_last]; [discriminate|].
    destruct (lookup_last k m) as [z|] eqn:E.
    + intros [= ->]. destruct (IH eq_refl) as (a & b & -> & N). exists ((k', y) :: a), b. split; [reflexivity|exact N].
    + destruct (str_eqb_spec k k') as [->|NE]; [|discriminate]. intros [= ->]. exists [], m.
      split; [reflexivity|]. apply lookup_none. exact E.
  - intros (a & b & -> & N). induction a as [|[k' y] a IH]; cbn [app lookup_last].
    + apply lookup_none in N. rewrite N, str_eqb_refl. reflexivity.
    + rewrite IH. reflexivity.
Qed.

Lemma get_member k v x : json_get k v = Some x <-> member v k x.
Proof.
  unfold member. destruct v as [|b|n| |s|l|m]; cbn [json_get];
    try (split; [discriminate|intros (a & b' & E & _); discriminate E]).
  rewrite lookup_some. split; intros (a & b & E & N); exists a, b; split; try exact N; [rewrite E; reflexivity|].
  injection E as E. exact E.
Qed.

Lemma str_member k v s : json_str k v = Some s <-> member v k (JStr s).
Proof.
  rewrite <- get_member. unfold json_str. destruct (json_get k v) as [x|]; [|split; discriminate].
  destruct x; split; intros [= E]; try discriminate; subst; reflexivity.
Qed.

Lemma u64_member k v n : json_u64 k v = Some n <-> member v k (JNum n) /\ 0 <= n < 2 ^ 64.
Proof.
  rewrite <- get_member. unfold json_u64. change two64 with (2 ^ 64).
  destruct (json_get k v) as [x|]; [|split; [discriminate|intros [[=] _]]].
  destruct x as [|b|m| |s|l|o]; try (split; [discriminate|intros [[=] _]]).
  destruct (Z.leb_spec 0 m) as [L|L]; destruct (Z.ltb_spec m (2 ^ 64)) as [L'|L']; cbn [andb];
    split; try discriminate; try (intros [[= ->] ?]; first [reflexivity|lia]).
  intros [= ->]. split; [reflexivity|lia].
Qed.

Lemma grants_iff v tok exs : grants v tok exs <-> hands_over v tok exs.
Proof.
  unfold grants. rewrite !str_member, u64_member. split.
  - intros (E & T & B & X & R). split; try assumption. intros m M. apply str_member in M. congruence.
  - intros [E T B X R]. repeat split; try assumption; try apply R.
    destruct (json_str $"error" v) as [m|] eqn:J; [|reflexivity]. apply str_member in J. destruct (E m J).
Qed.
