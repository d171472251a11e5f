(** [serde_json::Value] as far as pizauth looks at it
    (/repo/src/server/http_server.rs:208-220, refresher.rs:297-332). Objects
    hold each key at most once as far as [json_get] can tell: the last
    occurrence of a repeated key wins, as in [serde_json::Map]. *)
From Verif Require Import Base Time.

(** [serde_json::Value], http_server.rs:195, refresher.rs:295, user_sender.rs:36. *)
Inductive json :=
| JNull
| JBool (b : bool)
| JNum (n : Z)            (* an integer literal *)
| JFloat                  (* any other number: [as_u64] gives [None] *)
| JStr (s : str)
| JArr (l : list json)
| JObj (m : list (str * json)).

(** Look-up in [serde_json::Map] (http_server.rs:208-218, refresher.rs:297,
    323-328). *)
Fixpoint lookup_last {A} (k : str) (m : list (str * A)) : option A :=
  match m with
  | [] => None
  | (k', v) :: m' =>
      match lookup_last k m' with
      | Some x => Some x
      | None => if str_eqb k k' then Some v else None
      end
  end.

(** [v.get(k)]. (refresher.rs:328) *)
Definition json_get (k : str) (v : json) : option json :=
  match v with
  | JObj m => lookup_last k m
  | _ => None
  end.

(** [v[k].as_str()] ([v[k]] is [Null] when absent).
    (http_server.rs:208, 215, 217-218, refresher.rs:297, 323, 325) *)
Definition json_str (k : str) (v : json) : option str :=
  match json_get k v with
  | Some (JStr s) => Some s
  | _ => None
  end.

(** [v[k].as_u64()]. (http_server.rs:216, refresher.rs:324) *)
Definition json_u64 (k : str) (v : json) : option Z :=
  match json_get k v with
  | Some (JNum n) => if ((0 <=? n) && (n <? two64))%Z then Some n else None
  | _ => None
  end.
