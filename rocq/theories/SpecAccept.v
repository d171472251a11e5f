(** What is expected of the loops that take connections. *)
From Verif Require Import Base Accept.

(** Who has connected, in order. *)
Definition arrivals (ls : list dlabel) : list nat :=
  flat_map (fun l => match l with DConn id => [id] | _ => [] end) ls.

(** [l] is [m] without some of its elements, which all satisfy [P]. *)
Inductive without_some {A} (P : A -> Prop) : list A -> list A -> Prop :=
| ws_nil : without_some P [] []
| ws_keep x l m : without_some P l m -> without_some P (x :: l) (x :: m)
| ws_drop x l m : P x -> without_some P l m -> without_some P l (x :: m).
