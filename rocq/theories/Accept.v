(** The loops that take connections (mod.rs:398-403, http_server.rs:390, 449):
    [for stream in listener.incoming().flatten()].  [incoming] calls [accept] again
    and again and never ends, [flatten] skips the calls that fail.

    A call fails at once if the process has no descriptor left (EMFILE: Linux
    reserves one before it looks whether anybody is waiting), or if whom it was about
    to take has gone already (ECONNABORTED).  Otherwise it waits for somebody.
    Not modelled: EINTR (the standard library repeats the call), a full backlog. *)
From Verif Require Import Base.

(** A listener: who is waiting at it, in order, and whether they have gone; how many
    descriptors the process has left; whom the loop has been given, in order; how
    often [accept] has been called (mod.rs:398, http_server.rs:390, 449). *)
Record door := mkDoor {
  dr_waiting : list (nat * bool);
  dr_free : nat;
  dr_taken : list nat;
  dr_calls : nat }.

(** A listener that has just been bound (mod.rs:397, http_server.rs:378, 424). *)
Definition new_door (free : nat) : door := mkDoor [] free [] 0.

(** What happens: somebody connects, goes away while waiting; another part of the
    process opens or closes a descriptor, a connection that was taken being closed
    included; the loop calls [accept] (mod.rs:398, http_server.rs:390, 449). *)
Inductive dlabel :=
| DConn (id : nat)
| DGone (id : nat)
| DOpen
| DClose
| DAccept.

(** One step; [None]: it cannot happen, for [DAccept]: the call waits
    (mod.rs:398, http_server.rs:390, 449). *)
Definition dstep (s : door) (l : dlabel) : option door :=
  match l with
  | DConn id => Some (mkDoor (dr_waiting s ++ [(id, false)]) (dr_free s) (dr_taken s) (dr_calls s))
  | DGone id =>
      Some (mkDoor (map (fun p => if Nat.eqb (fst p) id then (fst p, true) else p) (dr_waiting s))
              (dr_free s) (dr_taken s) (dr_calls s))
  | DOpen =>
      match dr_free s with
      | O => None
      | S n => Some (mkDoor (dr_waiting s) n (dr_taken s) (dr_calls s))
      end
  | DClose => Some (mkDoor (dr_waiting s) (S (dr_free s)) (dr_taken s) (dr_calls s))
  | DAccept =>
      match dr_free s, dr_waiting s with
      (* Err, skipped by [flatten] *)
      | O, _ => Some (mkDoor (dr_waiting s) O (dr_taken s) (S (dr_calls s)))
      | S n, (id, true) :: r => Some (mkDoor r (S n) (dr_taken s) (S (dr_calls s)))
      (* Ok: the body of the loop *)
      | S n, (id, false) :: r => Some (mkDoor r n (dr_taken s ++ [id]) (S (dr_calls s)))
      | S n, [] => None
      end
  end.

(** Any number of them (mod.rs:398, http_server.rs:390, 449). *)
Fixpoint drun (s : door) (ls : list dlabel) : option door :=
  match ls with
  | [] => Some s
  | l :: r => match dstep s l with Some s1 => drun s1 r | None => None end
  end.
