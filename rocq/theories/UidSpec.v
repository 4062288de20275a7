(* What C92 and C93 say. *)
From Verif Require Import Base.
Open Scope N_scope.

(* Identifiers to come can be computed from [k] ones in a row: [make seed n] are the first n identifiers of a generator. *)
Definition Foretold (make : N -> nat -> list (list N)) (k : nat) : Prop :=
  exists guess : list (list N) -> list N, forall seed n, guess (firstn k (skipn n (make seed (n + k)%nat))) = last (make seed (n + k + 1)%nat) [].

(* two generators which make the same identifiers for ever *)
Definition Twins (make : N -> nat -> list (list N)) (a b : N) : Prop := forall n, make a n = make b n.

(* 16 bytes *)
Definition Uid (u : list N) : Prop := length u = 16%nat /\ forall b, In b u -> b < 256.
