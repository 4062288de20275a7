(* What declarations of entities and metastructs should mean. *)
From Verif Require Import Base MacModel.
Open Scope nat_scope.

(* an entity has between 1 and 62 members, all of them members of its class *)
Definition declares (c : class) (args : list tok) (ms : list N) : Prop :=
  args = map Id ms /\ 1 <= length ms <= 62 /\ Forall (fun m => owner c m <> None) ms.
(* the object with some of its members changed, and no others *)
Definition changed {V} (o o' : object V) (ms : list N) (vs : list V) : Prop :=
  (forall i m v, nth_error ms i = Some m -> nth_error vs i = Some v -> o' m = v) /\ (forall m, ~ In m ms -> o' m = o m).
