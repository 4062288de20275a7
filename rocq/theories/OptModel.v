(* Model of replicas which show their own changes at once: /repo/include/nbdl/local_version.hpp (DeltaModel.v) in several clients, and a
   root which decides on the order of the changes.
   The root holds the entity itself; it applies what it is sent in the order of arrival (apply_delta.hpp) and tells every client, the
   sender too, with to_downstream_confirmed (message.hpp:477-485).  Links deliver in order and lose nothing.  Clients begin with
   the entity as the root has it; there are only updates.  An update is applied when it is made (local_version.hpp:148-154) and sent. *)
From Verif Require Import Base DeltaModel.
Open Scope nat_scope.

Section Net.
Context {V : Type}.
Variable eqb : V -> V -> bool.

Definition change : Type := N * list (option V).

Record client := { shown : store V; outbox : list change; inbox : list change }.
(* [order] is a history variable: what the root has applied *)
Record net := { root : list V; order : list change; clients : nat -> client }.

Inductive label :=
| Change (i : nat) (u : N) (d : list (option V))   (* the user of client i changes something; u is the identifier of the message *)
| Serve (i : nat)                                  (* the root handles the oldest message of client i *)
| Deliver (i : nat).                               (* client i handles the oldest message of the root *)

Definition start (e : list V) : net := {| root := e; order := []; clients := fun _ => {| shown := make_store e; outbox := []; inbox := [] |} |}.

Definition set (f : nat -> client) (i : nat) (c : client) : nat -> client := fun j => if j =? i then c else f j.

Definition make_change (c : client) (u : N) (d : list (option V)) : client :=
  {| shown := fst (apply_local_delta eqb (shown c) u d); outbox := outbox c ++ [(u, d)]; inbox := inbox c |}.
Definition tell (m : change) (c : client) : client := {| shown := shown c; outbox := outbox c; inbox := inbox c ++ [m] |}.
Definition sent (c : client) : client := {| shown := shown c; outbox := tl (outbox c); inbox := inbox c |}.
Definition handle (c : client) (m : change) : client :=
  {| shown := fst (apply_confirmed_delta eqb (shown c) (fst m) (snd m)); outbox := outbox c; inbox := tl (inbox c) |}.

(* n clients; the type of a delta says how many members there are *)
Definition step (n : nat) (s : net) (l : label) : option net :=
  match l with
  | Change i u d =>
      if (i <? n) && (length d =? length (root s)) then Some {| root := root s; order := order s; clients := set (clients s) i (make_change (clients s i) u d) |} else None
  | Serve i =>
      match outbox (clients s i) with
      | [] => None
      | m :: _ => Some {| root := fst (apply_delta eqb (snd m) (root s)); order := order s ++ [m];
                          clients := fun j => tell m (set (clients s) i (sent (clients s i)) j) |}
      end
  | Deliver i =>
      match inbox (clients s i) with
      | [] => None
      | m :: _ => if i <? n then Some {| root := root s; order := order s; clients := set (clients s) i (handle (clients s i) m) |} else None
      end
  end.

Fixpoint exec (n : nat) (s : net) (ls : list label) : option net :=
  match ls with [] => Some s | l :: r => match step n s l with Some s' => exec n s' r | None => None end end.

Definition view (s : net) (i : nat) : list V := value (shown (clients s i)).
End Net.
Arguments net : clear implicits.
Arguments label : clear implicits.
Arguments client : clear implicits.
Arguments change : clear implicits.
