(* What the properties of held objects say, in terms of what happened. *)
From Verif Require Import Base HlModel.
Open Scope nat_scope.

(* one event comes before another *)
Definition Before (h : list event) (x y : event) : Prop := exists a b c, h = a ++ x :: b ++ y :: c.

(* another object was put in the place of this one *)
Definition Displaced (h : list event) (i o : nat) : Prop := exists o', Before h (Born i o) (Born i o').

Definition plan (s : stage) (h : list event) : list act := match s with Ord p | Lazy p => p h | Catch => [] end.

(* a stage which calls its resolver at most once *)
Definition Single (s : stage) : Prop := forall h, length (plan s h) <= 1.
(* a function for hold_lazy which leaves it to the object that it makes to call the resolver *)
Definition Patient (s : stage) : Prop := match s with Lazy p => forall h k, ~ In (Now k) (p h) | _ => True end.
(* a stage that is done when it returns, unless it makes an object *)
Definition Prompt (s : stage) : Prop := match s with Ord p => forall h k, ~ In (Later k) (p h) | _ => True end.

(* a call of a member function of the object has not returned yet *)
Definition Busy (c : cfg) (i o : nat) : Prop := In (Back i o) (stack c).

(* the functions of a pipeline in order; those that make objects are marked *)
Fixpoint functions {F} (p : pipe F) : list (bool * F) :=
  match p with One f => [(false, f)] | Held f => [(true, f)] | Pipe l => flat_map functions l end.
