(* What a loop that accepts connections should do. *)
From Verif Require Import Base AccModel.
Open Scope N_scope.

(* what clients did *)
Fixpoint arrivals (ls : list label) : list N := match ls with [] => [] | Arrive c :: r => c :: arrivals r | _ :: r => arrivals r end.
Fixpoint sent (c : N) (ls : list label) : list N := match ls with [] => [] | Bytes d b :: r => (if d =? c then b else []) ++ sent c r | _ :: r => sent c r end.
Definition prefix (a b : list N) : Prop := exists c, b = a ++ c.

Section Spec.
Variable parse : list N -> parsed.
(* w is a request, whole at its last byte and not before *)
Definition request (w : list N) : Prop := w <> [] /\ (forall x, parse (w ++ x) = Complete w x) /\ forall p, prefix p w -> p <> w -> parse p = More.
(* a client that sends one request and nothing behind it, and does not stop in the middle *)
Definition tidy (ls : list label) : Prop := NoDup (arrivals ls) /\ forall c, exists w, request w /\ prefix (sent c ls) w /\ (In (End c) ls -> sent c ls = [] \/ sent c ls = w).

(* what is read behind the bytes l, piece by piece as long as they are not enough *)
Inductive took : list N -> list N -> Prop :=
| took_nothing l : took l []
| took_piece l b g : parse l = More -> b <> [] -> took (l ++ b) g -> took l (b ++ g).

(* the answers rs to clients that do what ls says, one after another: each is that to the bytes l which the others have left behind
   and then those of the client *)
Inductive answers (is_upgrade : list N -> bool) (ls : list label) : list N -> list (N * option (list N)) -> list N -> Prop :=
| answers_none l : answers is_upgrade ls l [] l
| answers_request l c g r l1 x rs l2 : prefix g (sent c ls) -> took l g -> parse (l ++ g) = Complete r l1 ->
    (x = None \/ is_upgrade r = true /\ x = Some r) -> answers is_upgrade ls l1 rs l2 -> answers is_upgrade ls l ((c, x) :: rs) l2
| answers_invalid l c g l1 rs l2 : prefix g (sent c ls) -> took l g -> parse (l ++ g) = Invalid l1 ->
    answers is_upgrade ls l1 rs l2 -> answers is_upgrade ls l ((c, None) :: rs) l2
| answers_ended l c rs l2 : In (End c) ls -> took l (sent c ls) -> parse (l ++ sent c ls) = More ->
    answers is_upgrade ls (l ++ sent c ls) rs l2 -> answers is_upgrade ls l ((c, None) :: rs) l2.
End Spec.
Definition of_server (l : label) : bool := match l with Arrive _ | Bytes _ _ | End _ => false | _ => true end.
(* what the clients do in ls *)
Definition clients (ls : list label) : list label := filter (fun l => negb (of_server l)) ls.
