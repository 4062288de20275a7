(* What C84 talks about. *)
From Verif Require Import Base StoreModel StoreSpec NetModel.

Definition prefix {A} (a b : list A) : Prop := exists c, b = a ++ c.

(* the payload a visitor sees at a path, if it sees one *)
Definition shown (st : nat -> table) (p : path) : option payload :=
  match map_match (st (ptype p)) p with Resolved NotInSet => None | Resolved v => Some v | _ => None end.

(* not_in_set as a payload cannot be told from no entry *)
Definition visible (o : option payload) : option payload := match o with Some NotInSet => None | _ => o end.

(* the payload at p after the messages h: the last create or update after the last deletion, or the first answer *)
Definition value_after (h : list msg) (p : path) : option payload :=
  visible (match entry_of p h with Present v => Some v | _ => None end).

(* the messages of one client among those pushed into the server's context *)
Definition by_client (i : nat) (l : list (option nat * msg)) : list msg :=
  flat_map (fun x => match fst x with Some j => if Nat.eqb i j then [snd x] else [] | None => [] end) l.

(* the requests of an application *)
Definition pushed_at {text} (i : nat) (ls : list (label text)) : list msg :=
  flat_map (fun l => match l with Ask _ j m => if Nat.eqb i j then [m] else [] | _ => [] end) ls.

(* nothing of client i is under way and both ends of its connection run *)
Definition at_rest {text} (c : client text) : Prop :=
  alive _ c = true /\ at_server _ c = Known /\ outbox _ c = [] /\ inbox _ c = [].

(* moves in which no application and nobody outside takes part *)
Definition internal {text} (l : label text) : Prop :=
  match l with Serve _ _ | Deliver _ _ => True | _ => False end.

(* the messages which a context hands to its producer: all upstream messages but reads of a known path *)
Definition goes_up (m : msg) : bool :=
  is_upstream m && match mkind m, path_of m with UpRead, Some _ => false | _, _ => true end.

(* the answer of an echo_producer to a request *)
Inductive reply : msg -> msg -> Prop :=
| reply_create ty t parent u v pr k :
    reply (make_upstream_create ty (PCreate t parent) u v pr) (make_downstream_create ty (PPath (mk_path t (parent ++ [k]))) u v None)
| reply_update ty q u v : reply (make_upstream_update ty (PPath q) u v) (make_downstream_update ty (PPath q) u v None)
| reply_delete ty q u : reply (make_upstream_delete ty (PPath q) u) (make_downstream_delete ty (PPath q) u None).
