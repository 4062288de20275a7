(* How events and listeners should behave. *)
From Verif Require Import Base EvModel.
Open Scope N_scope.

(* a program: listeners are created and destroyed and events happen *)
Definition starts (l : list effect) : config := Run init [Effects l].

(* a handler that only looks at its event *)
Definition quiet_use (u : use) : Prop := u = Look \/ u = Send [].
Definition quiet (h : N -> list use) : Prop := forall ev, Forall quiet_use (h ev).

(* a handler that looks at its event only before it has sent its one message; so do the handlers that are created then *)
Fixpoint looks_first_effect (e : effect) : Prop :=
  match e with
  | Listen _ _ h => forall ev, (fix uses (l : list use) : Prop :=
      match l with
      | [] => True
      | Look :: r => uses r
      | Send l' :: r => r = [] /\ (fix go l' := match l' with [] => True | e :: q => looks_first_effect e /\ go q end) l'
      end) (h ev)
  | _ => True
  end.
Fixpoint looks_first_uses (l : list use) : Prop :=
  match l with
  | [] => True
  | Look :: r => looks_first_uses r
  | Send l' :: r => r = [] /\ (fix go l' := match l' with [] => True | e :: q => looks_first_effect e /\ go q end) l'
  end.
Definition looks_first_all (l : list effect) : Prop := Forall looks_first_effect l.

(* the newest note comes first: whoever sees an event was called with it immediately before *)
Fixpoint sees_own_event (t : list note) : Prop :=
  match t with
  | [] => True
  | Called _ _ :: r => sees_own_event r
  | Saw f e :: r => match r with Called f' e' :: _ => f = f' /\ e = e' | Saw f' e' :: _ => f = f' /\ e = e' | [] => False end /\ sees_own_event r
  end.

(* what one listener notes of an event it only looks at *)
Definition looks (l : list use) : nat := length (filter (fun u => match u with Look => true | Send _ => false end) l).
Definition notes (ev : N) (o : listener) : list note := Called (l_fn o) ev :: repeat (Saw (l_fn o) ev) (looks (l_handler o ev)).
Definition listens (el name : N) (o : listener) : bool := (l_el o =? el) && (l_name o =? name).

(* what should be noted of a whole program whose handlers only look: each event reaches the listeners that are there then, in
   the order in which they were created *)
Fixpoint history (l : list effect) (n : N) (os : list listener) : list note :=
  match l with
  | [] => []
  | Listen el name h :: r => history r (n + 1) (os ++ [{| l_el := el; l_name := name; l_fn := n; l_handler := h |}])
  | Drop f :: r => history r n (filter (fun o => negb (l_fn o =? f)) os)
  | Fire el name ev :: r => flat_map (notes ev) (filter (listens el name) os) ++ history r n os
  end.
Definition quiet_effect (e : effect) : Prop := match e with Listen _ _ h => quiet h | _ => True end.

(* the event that a listener was called with last; the newest note comes first *)
Fixpoint last_called (f : N) (t : list note) : option N :=
  match t with
  | [] => None
  | Called g e :: r => if N.eqb g f then Some e else last_called f r
  | Saw _ _ :: r => last_called f r
  end.
Definition alive (f : N) (s : st) : Prop := exists o, In o (objects s) /\ l_fn o = f.
