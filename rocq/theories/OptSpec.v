(* What is said about replicas. *)
From Verif Require Import Base DeltaModel DeltaSpec OptModel.
Open Scope nat_scope.

Section S.
Context {V : Type}.

(* the changes that client i has made *)
Fixpoint made_by (i : nat) (ls : list (label V)) : list (change V) :=
  match ls with
  | [] => []
  | Change j u d :: r => if j =? i then (u, d) :: made_by i r else made_by i r
  | _ :: r => made_by i r
  end.
Definition uids (ls : list (label V)) : list N := flat_map (fun l => match l with Change _ u _ => [u] | _ => [] end) ls.

(* no change of client i is on its way *)
Definition Confirmed_all (ls : list (label V)) (s : net V) (i : nat) : Prop :=
  outbox (clients s i) = [] /\ forall m, In m (made_by i ls) -> ~ In m (inbox (clients s i)).

Definition At_rest (n : nat) (s : net V) : Prop := forall i, i < n -> outbox (clients s i) = [] /\ inbox (clients s i) = [].

(* the last value that was written to a member, if any *)
Definition last_written (x : nat) (v : option V) (ms : list (change V)) : option V :=
  fold_left (fun v m => match written (snd m) x with Some w => Some w | None => v end) ms v.

Definition Only_writer (i x : nat) (ls : list (label V)) : Prop := forall j u d, In (Change j u d) ls -> j <> i -> written d x = None.

Definition is_change (l : label V) : bool := match l with Change _ _ _ => true | _ => false end.

(* what client i sees: its own changes when they are made, and those of the root as they are delivered *)
Fixpoint story (i : nat) (o : list (change V)) (ls : list (label V)) : list (op V) :=
  match ls with
  | [] => []
  | Change j u d :: r => if j =? i then Local u d :: story i o r else story i o r
  | Serve _ :: r => story i o r
  | Deliver j :: r => if j =? i then match o with [] => [] | (u, d) :: o' => Confirmed u d :: story i o' r end else story i o r
  end.
End S.
