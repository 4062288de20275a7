(* What C++ objects that hold JavaScript values should do: each is a variable of its own. *)
From Verif Require Import Base RegModel.
Open Scope N_scope.

Section Spec.
Context {V : Type} (undef : V).

(* the objects that are alive and their values *)
Definition cells := N -> option V.
Definition upd (c : cells) (a : N) (x : option V) : cells := fun b => if b =? a then x else c b.

(* one object is created, copied, moved, assigned or destroyed; None when the rules of C++ do not allow it: an object is
   created where none is, and used only while it is there *)
Definition means (o : op) (c : cells) : option cells :=
  match o with
  | Init => Some c
  | New a => match c a with None => Some (upd c a (Some undef)) | Some _ => None end
  | CopyNew a b => match c a, c b with None, Some v => Some (upd c a (Some v)) | _, _ => None end
  | MoveNew a b => match c a, c b with None, Some v => Some (upd (upd c a (Some v)) b (Some undef)) | _, _ => None end
  | Assign a b => match c a, c b with Some _, Some v => Some (upd c a (Some v)) | _, _ => None end
  | MoveAssign a b => match c a, c b with Some _, Some v => Some (upd (upd c a (Some v)) b (Some undef)) | _, _ => None end
  | Transform a f => match c a with Some v => Some (upd c a (Some (f v))) | None => None end
  | Destroy a => match c a with Some _ => Some (upd c a None) | None => None end
  end.
Fixpoint means_all (l : list op) (c : cells) : option cells :=
  match l with [] => Some c | o :: t => match means o c with Some c' => means_all t c' | None => None end end.

(* the registry holds the values of the live objects and nothing else *)
Definition holds (r : registry) (c : cells) : Prop :=
  (forall a v, c a = Some v -> js_get undef r a = v) /\ (forall a, In a (map fst r) -> c a <> None) /\ NoDup (map fst r).
End Spec.
