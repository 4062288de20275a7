(* What C108 talks about. *)
From Verif Require Import Base StoreModel UiModel UiSpec.

(* the payload in what is read *)
Definition payload_in (o : outcome) : option payload :=
  match o with Resolved NotInSet => None | Resolved v => Some v | _ => None end.
(* what is seen depends on the payloads only: a path which is not resolved looks like one which is not there *)
Definition sees_payloads {st} (see : (path -> outcome) -> st) : Prop :=
  forall x y, (forall p, payload_in (x p) = payload_in (y p)) -> see x = see y.

(* the specification can be rendered and kept up to date whatever the stores hold (see C65) *)
Definition always_shown {st} (see : (path -> outcome) -> st) (s : spec st) : Prop :=
  updatable s /\ forall x, renders s (see x) /\ updates s (see x) /\ resolves s (see x).

(* the element [el] of the document [h] is a place for the specification: it has none of its slots, and it has no nodes
   if the specification empties it *)
Definition place {st} (s : spec st) (h : heap) (el : nat) : Prop :=
  exists n, nth_error h el = Some n /\ (forall i, In i (kids n) -> (i < length h)%nat) /\
    (empties s = true -> kids n = []) /\ forall k, In k (key_of s) -> lookup k (slots n) = None.

(* the document [h'] is [h] with the nodes of the specification added to the element [el], whose slots are what the specification makes
   of them *)
Definition shows_in {st} (h : heap) (el : nat) (s : spec st) (x : st) (h' : heap) : Prop :=
  exists n n' new, nth_error h el = Some n /\ nth_error h' el = Some n' /\ parent n' = parent n /\ kind_of n' = kind_of n /\
    kids n' = kids n ++ new /\ shows_all (fun i => (length h <= i)%nat) h' (Some el) new (content s x) /\
    (forall k, lookup k (slots n') = slot s x (fun k => lookup k (slots n)) k) /\
    (forall i, (i < length h)%nat -> i <> el -> nth_error h' i = nth_error h i).
