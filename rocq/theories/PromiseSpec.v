(* What a pipeline should do, with no resolvers, callbacks or storage: the stages one after another. *)
From Verif Require Import Base PromiseModel.
Open Scope nat_scope.

Inductive result := Resolved (a : args) | Rejected (a : args) | Terminated
| Hung      (* a promise never used its resolver *)
| Died.     (* user code threw where nothing catches *)

(* the stages of a pipe from left to right *)
Fixpoint stages (p : pipe) : list stage := match p with Stage s => [s] | Pipe l => flat_map stages l end.

(* events and result of the remaining stages, given what happened so far and what reaches them *)
Fixpoint seq (l : list stage) (h : list event) (k : call) : list event * result :=
  match l, k with
  | _, Terminate => (h, Terminated)
  | [], Resolve a => (h, Resolved a)
  | [], Reject a => (h, Rejected a)
  | Fn n f :: r, Resolve a => match f h a with Ret b => seq r (h ++ [Ran n a]) (Resolve b) | Throw _ => (h ++ [Ran n a], Died) end
  | Try n f :: r, Resolve a => seq r (h ++ [Ran n a]) (match f h a with Ret b => Resolve b | Throw e => Reject e end)
  | Tap n f :: r, Resolve a => match f h a with Ret _ => seq r (h ++ [Ran n a]) (Resolve a) | Throw _ => (h ++ [Ran n a], Died) end
  | Prom n p :: r, Resolve a =>
      match p h a with
      | (Now k' | Later k') :: _ => seq r (h ++ [Ran n a]) k'
      | [] => (h ++ [Ran n a], Hung)
      end
  | Catch _ _ _ :: r, Resolve a => seq r h (Resolve a)
  | Catch n inv f :: r, Reject e =>
      if inv (types e) then match f h e with Ret _ => (h ++ [Caught n e], Terminated) | Throw _ => (h ++ [Caught n e], Died) end
      else seq r h (Reject e)
  | _ :: r, Reject e => seq r h (Reject e)
  end.

(* the contract of a promise: it uses its resolver at most once / exactly once *)
Definition uses_at_most (n : nat) (s : stage) : Prop :=
  match s with Prom _ p => forall h a, length (p h a) <= n | _ => True end.
Definition uses_at_least (n : nat) (s : stage) : Prop :=
  match s with Prom _ p => forall h a, n <= length (p h a) | _ => True end.

Definition sname (s : stage) : nat := match s with Fn n _ | Try n _ | Tap n _ | Prom n _ | Catch n _ _ => n end.
Definition is_catch (s : stage) : bool := match s with Catch _ _ _ => true | _ => false end.

(* the stages named in a list of events *)
Definition ename (e : event) : list nat := match e with Ran n _ | Caught n _ => [n] | _ => [] end.
Definition names (h : list event) : list nat := flat_map ename h.

(* [subseq a b]: a is b with some elements left out *)
Inductive subseq {A} : list A -> list A -> Prop :=
| sub_nil l : subseq [] l
| sub_take x a b : subseq a b -> subseq (x :: a) (x :: b)
| sub_drop x a b : subseq a b -> subseq a (x :: b).

(* the passes of a loop that ran to their end: what has happened and what the next pass is given *)
Inductive passes (l : list stage) (a : args) : nat -> list event -> args -> Prop :=
| pass_0 : passes l a 0 [] a
| pass_S k h b h' b' : passes l a k h b -> seq l h (Resolve b) = (h', Resolved b') -> passes l a (S k) (h' ++ [Restart b']) b'.

(* what a result looks like from the outside *)
Definition end_events (r : result) : list event :=
  match r with Resolved a => [EndResolve a] | Rejected a => [EndReject a] | Terminated => [EndTerminate] | Hung | Died => [] end.
Definition is_end (e : event) : bool := match e with EndResolve _ | EndReject _ | EndTerminate => true | _ => false end.
