(* What C87 talks about. *)
From Verif Require Import Base StoreModel CstModel.

(* what actor i was told as a consumer *)
Definition told (i : nat) (e : list (event cstore)) : list msg :=
  flat_map (fun x => match x with ToConsumer j m _ => if Nat.eqb j i then [m] else [] | _ => [] end) e.
(* the paths of type t of which actor k was notified *)
Definition noted (k t : nat) (e : list (event cstore)) : list path :=
  flat_map (fun x => match x with Notify j p _ => if Nat.eqb j k && Nat.eqb (ptype p) t then [p] else [] | _ => [] end) e.
(* the downstream updates of paths of type t: path and payload *)
Definition update_of (t : nat) (m : msg) : list (path * payload) :=
  match mkind m, path_of m with
  | DownUpdate, Some p => if Nat.eqb (ptype p) t then [(p, payload_of m)] else []
  | _, _ => []
  end.
Definition updates (t : nat) (ms : list msg) : list (path * payload) := flat_map (update_of t) ms.
(* carrying them out on a value *)
Definition carried (act : payload -> outcome -> outcome) (v : outcome) (us : list (path * payload)) : outcome :=
  fold_left (fun v u => act (snd u) v) us v.

Definition hears (sh : shape) (i : nat) : Prop := exists a, nth_error (actors sh) i = Some a /\ consumer a = true.
Definition watches (sh : shape) (k : nat) : Prop := exists a, nth_error (actors sh) k = Some a /\ state_consumer a = true.

(* what a store of a path type holds after updates *)
Definition holds (act : payload -> outcome -> outcome) (s : cstore) (us : list (path * payload)) : cstore :=
  match s with Null => Null | Held v => Held (carried act v us) end.
(* the updates of which state consumers have to know *)
Definition notable (s : cstore) (us : list (path * payload)) : list path := match s with Null => [] | Held _ => map fst us end.
