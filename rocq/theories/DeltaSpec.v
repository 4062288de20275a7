(* What C27-C31 talk about. *)
From Verif Require Import Base DeltaModel.

Section S.
Context {V : Type}.

(* member i of an entity / a delta *)
Definition member (e : list V) (i : nat) : option V := nth_error e i.
Definition written (d : list (option V)) (i : nat) : option V :=
  match nth_error d i with Some (Some v) => Some v | _ => None end.

(* e with the members written by d replaced: the meaning of a change *)
Definition overwrites (d : list (option V)) (e e' : list V) : Prop :=
  length e' = length e /\
  forall i, (i < length e)%nat -> member e' i = match written d i with Some v => Some v | None => member e i end.

(* e' is what a list of changes makes of e, one after the other *)
Inductive history : list (list (option V)) -> list V -> list V -> Prop :=
| history_nil e : history [] e e
| history_cons d ds e e1 e2 : overwrites d e e1 -> history ds e1 e2 -> history (d :: ds) e e2.

Definition confirmed_of (ops : list (op V)) : list (list (option V)) :=
  flat_map (fun o => match o with Confirmed _ d => [d] | _ => [] end) ops.

(* every local change is confirmed later on *)
Inductive settled : list (op V) -> Prop :=
| settled_nil : settled []
| settled_local u d ops : In (Confirmed u d) ops -> settled ops -> settled (Local u d :: ops)
| settled_confirmed u d ops : settled ops -> settled (Confirmed u d :: ops)
| settled_replace e ops : settled ops -> settled (Replace e :: ops).

(* the local change u was made and has not been confirmed since *)
Definition outstanding (u : N) (ops : list (op V)) : Prop :=
  exists a b d, ops = a ++ Local u d :: b /\ forall d', ~ In (Confirmed u d') b.

(* nothing happened yet, or the last thing was the confirmation of the only outstanding local changes *)
Definition at_rest (ops : list (op V)) : Prop :=
  ops = [] \/
  exists a u d, ops = a ++ [Confirmed u d] /\ outstanding u a /\ forall v, ~ outstanding v ops.

(* [at_rest] was last so before the last part of ops *)
Definition last_rest (before since : list (op V)) : Prop :=
  at_rest before /\ forall a b, since = a ++ b -> a <> [] -> ~ at_rest (before ++ a).

Definition changes_of (ops : list (op V)) : list (list (option V)) :=
  flat_map (fun o => match o with Local _ d | Confirmed _ d => [d] | Replace _ => [] end) ops.

(* after [past] the changes ds are shown at once: the own ones when they are made, not when they are confirmed *)
Inductive shows : list (op V) -> list (op V) -> list (list (option V)) -> Prop :=
| shows_nil past : shows past [] []
| shows_made past u d ops ds : shows (past ++ [Local u d]) ops ds -> shows past (Local u d :: ops) (d :: ds)
| shows_foreign past u d ops ds : ~ outstanding u past -> shows (past ++ [Confirmed u d]) ops ds -> shows past (Confirmed u d :: ops) (d :: ds)
| shows_own past u d ops ds : outstanding u past -> shows (past ++ [Confirmed u d]) ops ds -> shows past (Confirmed u d :: ops) ds.

Definition is_local (o : op V) : bool := match o with Local _ _ => true | _ => false end.

Definition is_replace (o : op V) : bool := match o with Replace _ => true | _ => false end.

(* all changes are deltas of entities with n members *)
Definition arity (n : nat) (ops : list (op V)) : Prop :=
  Forall (fun o => match o with Local _ d | Confirmed _ d => length d = n | Replace e => length e = n end) ops.
End S.
