(** Specification vocabulary for dumps. *)
From Verif Require Import Base Time Utf8 Config Dump.
Local Open Scope N_scope.

(** A [String] of the code: valid UTF-8 that fits into memory. *)
Definition text (s : str) : Prop := utf8_valid s = true /\ N.of_nat (List.length s) < 2 ^ 64.

Definition few {A} (l : list A) : Prop := N.of_nat (List.length l) < 2 ^ 64.

Definition opt_all {A} (P : A -> Prop) (o : option A) : Prop := forall x, o = Some x -> P x.

Definition text_account (d : account_dump) : Prop :=
  text (ad_auth_uri d) /\ Forall (fun kv => text (fst kv) /\ text (snd kv)) (ad_auth_uri_fields d)
  /\ few (ad_auth_uri_fields d) /\ text (ad_client_id d) /\ opt_all text (ad_client_secret d)
  /\ text (ad_redirect_uri d) /\ Forall text (ad_scopes d) /\ few (ad_scopes d) /\ text (ad_token_uri d).

(** A wall clock time serde can write: not before 1970 (nor beyond what a
    [SystemTime] can hold). *)
Definition writable (t : Z) : Prop := (0 <= t <= time_max)%Z.

Definition text_token (t : tokenstate_dump) : Prop :=
  match t with
  | DEmpty => True
  | DActive tok ob ex rt => text tok /\ (ob <= time_max)%Z /\ (ex <= time_max)%Z /\ opt_all text rt
  end.

(** Dumps as Rust values can be. *)
Record dump_ok (d : dump) : Prop := {
  do_version : d_version d < 2 ^ 64;
  do_few : few (d_accounts d);
  do_names : NoDup (map fst (d_accounts d));
  do_entries : Forall (fun p => text (fst p) /\ text_account (fst (snd p)) /\ text_token (snd (snd p))) (d_accounts d);
}.

(** A time in the dump from before 1970. *)
Definition before_epoch (d : dump) : Prop :=
  exists n ad tok ob ex rt, In (n, (ad, DActive tok ob ex rt)) (d_accounts d) /\ (ob < 0 \/ ex < 0)%Z.
