(* What an address is made of, and what a bounded number of attempts means. *)
From Coq Require Import String.
From Verif Require Import Base AppModel.
Open Scope N_scope.

Definition colon : N := 58.
(* w occurs in s *)
Definition Occurs (w s : bytes) : Prop := exists a b, s = a ++ w ++ b.
(* s = a ++ w ++ b and w does not occur earlier *)
Definition Cut (w s a b : bytes) : Prop := s = a ++ w ++ b /\ forall a' b', s = a' ++ w ++ b' -> (length a <= length a')%nat.

(* host and port of what follows the protocol *)
Definition HostPort (s host port : bytes) : Prop :=
  ~ In colon host /\ (s = host ++ colon :: port \/ (s = host /\ port = [])).

(* the parts of an address: [protocol "://"] host [":" port] *)
Definition Address (address protocol host port : bytes) : Prop :=
  (exists r, Cut (bs "://") address protocol r /\ HostPort r host port) \/
  (~ Occurs (bs "://") address /\ protocol = [] /\ HostPort address host port).

(* the first n results are failures *)
Definition fails (n : nat) : list bool := repeat false n.
