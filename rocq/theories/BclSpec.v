(* What a connection does, with no listeners and callbacks: it connects, reads one message at a time and ends. *)
From Verif Require Import Base BclModel.
Open Scope nat_scope.

Inductive phase := Connecting | Idle (n : nat) | Reading (n : nat) | Ended | Gone.

(* the endpoint starts a read when the one before has a message, and keeps the state while it connects or reads *)
Definition allowed (p : phase) (l : label) : bool :=
  match l, p with
  | Start, Idle _ => true
  | Start, _ => false
  | Destroy, (Idle _ | Ended) => true
  | Destroy, _ => false
  | _, _ => true
  end.
Definition after (p : phase) (l : label) : phase :=
  match p, l with
  | Connecting, Fire EOpen => Idle 0
  | Connecting, Fire (EError | EClose) => Ended
  | Idle n, Start => Reading n
  | Reading n, Fire (EMessage (Some _)) => Idle (S n)
  | Reading n, Fire (EError | EClose) => Ended
  | (Idle _ | Ended), Destroy => Gone
  | _, _ => p
  end.
(* which promise is told what *)
Definition tells (p : phase) (l : label) : list (owner * outcome) :=
  match p, l with
  | Connecting, Fire EOpen => [(Init, Ready)]
  | Connecting, Fire EError => [(Init, Failed EError)]
  | Connecting, Fire EClose => [(Init, Failed EClose)]
  | Reading n, Fire (EMessage (Some m)) => [(Read n, Got m)]
  | Reading n, Fire EError => [(Read n, Failed EError)]
  | Reading n, Fire EClose => [(Read n, Failed EClose)]
  | _, _ => []
  end.

Fixpoint phase_of (p : phase) (ls : list label) : phase := match ls with [] => p | l :: r => phase_of (after p l) r end.
Fixpoint told (p : phase) (ls : list label) : list (owner * outcome) := match ls with [] => [] | l :: r => tells p l ++ told (after p l) r end.
Fixpoint disciplined (p : phase) (ls : list label) : bool := match ls with [] => true | l :: r => allowed p l && disciplined (after p l) r end.

(* every event finds a read, until the connection ends *)
Fixpoint attentive (p : phase) (ls : list label) : Prop :=
  match ls with [] => True | l :: r => (match l, p with (Fire (EMessage _ | EError | EClose) | Destroy), Idle _ => False | _, _ => True end) /\ attentive (after p l) r end.
(* the messages that come until the connection ends *)
Fixpoint sent (ls : list label) : list N :=
  match ls with [] => [] | Fire (EMessage (Some m)) :: r => m :: sent r | Fire (EError | EClose) :: _ => [] | _ :: r => sent r end.
Definition messages (l : list (owner * outcome)) : list N := flat_map (fun x => match snd x with Got m => [m] | _ => [] end) l.

(* What any endpoint gets, also one that reads twice at a time or does not keep the state: the promises that wait, in the order in which they
   were started, and what they were told.  None: undefined behaviour. *)
Record view := { waiting : list owner; started : nat; gone : bool; heard : list (owner * outcome) }.
Definition owner_dec (a b : owner) : {a = b} + {a <> b}. Proof. decide equality. apply Nat.eq_dec. Defined.
Definition wants (e : event) (o : owner) : bool :=
  match e, o with EOpen, Init => true | (EError | EClose), _ => true | EMessage (Some _), Read _ => true | _, _ => false end.
Definition answer (e : event) : outcome := match e with EOpen => Ready | EMessage (Some m) => Got m | _ => Failed e end.
(* only the promise that was started last can be told, apart from the opening *)
Definition newest (v : view) : owner := match started v with O => Init | S n => Read n end.
Definition tellable (v : view) (e : event) (o : owner) : bool :=
  negb (gone v) && match e with EOpen => true | _ => if owner_dec o (newest v) then true else false end.
Definition judge1 (v : view) (l : label) : option view :=
  match l with
  | Tick => Some v
  | Start => if gone v then None else Some {| waiting := waiting v ++ [Read (started v)]; started := S (started v); gone := false; heard := heard v |}
  | Destroy => if gone v then None else Some {| waiting := waiting v; started := started v; gone := true; heard := heard v |}
  | Fire e =>
      match find (wants e) (waiting v) with
      | None => Some v
      | Some o => if tellable v e o then Some {| waiting := remove owner_dec o (waiting v); started := started v; gone := gone v; heard := heard v ++ [(o, answer e)] |} else None
      end
  end.
Fixpoint judge (v : view) (ls : list label) : option view :=
  match ls with [] => Some v | l :: r => match judge1 v l with Some v' => judge v' r | None => None end end.
Definition connecting : view := {| waiting := [Init]; started := 0; gone := false; heard := [] |}.
