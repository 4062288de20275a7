(* What definition trees mean, by addresses: an address is the list of child positions from the root. *)
From Coq Require Import List NArith Bool.
From Verif Require Import Base DefModel.
Import ListNotations.
Open Scope N_scope.

(* the nodes directly below a node *)
Definition children (t : ty) : list ty :=
  match t with Pair _ (Map l) | Pair _ (Lst l) => l | _ => [] end.

(* the node at an address *)
Fixpoint node_at (t : ty) (a : list nat) : option ty :=
  match a with
  | [] => Some t
  | i :: r => match nth_error (children t) i with Some c => node_at c r | None => None end
  end.

(* the nodes from the root to an address, both included *)
Fixpoint chain (t : ty) (a : list nat) : list ty :=
  t :: match a with
       | [] => []
       | i :: r => match nth_error (children t) i with Some c => chain c r | None => [] end
       end.

(* p is a part of the way to a; a strict one if p is not a itself *)
Definition above (p a : list nat) : Prop := exists q, a = p ++ q.
Definition strictly_above (p a : list nat) : Prop := exists q, q <> [] /\ a = p ++ q.

(* depth-first order: parents before children, children from left to right *)
Inductive before : list nat -> list nat -> Prop :=
| before_child i r : before [] (i :: r)
| before_left i j r s : (i < j)%nat -> before (i :: r) (j :: s)
| before_deeper i r s : before r s -> before (i :: r) (i :: s).

Fixpoint in_order (l : list (list nat)) : Prop :=
  match l with [] => True | a :: r => Forall (before a) r /\ in_order r end.

(* a matching node with no matching node above *)
Definition outermost (pred : ty -> bool) (t : ty) (a : list nat) : Prop :=
  (exists n, node_at t a = Some n /\ pred n = true) /\
  (forall p n, strictly_above p a -> node_at t p = Some n -> pred n = false).

(* a node defines a setting by having it as a member *)
Definition defines (n : ty) (k : N) (v : ty) : Prop :=
  exists tag l, n = Pair tag (Map l) /\ In (Pair k v) l.

(* the setting in force at an address: that of the nearest node on the way which defines it *)
Definition in_force (t : ty) (a : list nat) (k : N) (v : ty) : Prop :=
  exists p n, above p a /\ node_at t p = Some n /\ defines n k v /\
    (forall p' n' v', above p' a -> strictly_above p p' -> node_at t p' = Some n' -> ~ defines n' k v').

(* no map has two members with the same key; C++ rejects a repeated base class *)
Inductive proper : ty -> Prop :=
| proper_plain n : proper (Plain n)
| proper_types l : proper (Types l)
| proper_pair k s : proper s -> proper (Pair k s)
| proper_lst l : Forall proper l -> proper (Lst l)
| proper_map l :
    Forall proper l ->
    (forall i j k s s', nth_error l i = Some (Pair k s) -> nth_error l j = Some (Pair k s') -> i = j) ->
    proper (Map l).

(* ------------------------------------------------------------------ access points *)

(* the node is an access point or a list of them *)
Definition is_point (t : ty) : bool := key_is tAccessPoint t.
Definition is_points (t : ty) : bool := key_is tAccessPoints t.

(* an access point and a list of access points declare everything below them, another node which is a
   map declares access points only directly below it *)
Definition declares (n c : ty) : Prop :=
  is_point n = true \/ is_points n = true \/
  (exists tag l, n = Pair tag (Map l)) /\ (is_point c = true \/ is_points c = true).

(* the access point at an address is declared: every step on the way declares the next *)
Definition reached (R : ty -> ty -> Prop) (def : ty) (a : list nat) : Prop :=
  (exists n, node_at def a = Some n /\ is_point n = true) /\
  (forall p i n c, above (p ++ [i]) a -> node_at def p = Some n -> node_at def (p ++ [i]) = Some c ->
     R n c).
Notation declared := (reached declares).

(* what is looked at: as declared, but where there are both an AccessPoint and AccessPoints only the latter *)
Definition looks_at (n c : ty) : Prop :=
  is_point n = true \/ is_points n = true \/
  (exists tag l, n = Pair tag (Map l)) /\ (is_points c = true \/ is_point c = true /\ forall m, ~ defines n tAccessPoints m).

(* it has actions or a store other than the null store *)
Definition active (n : ty) : Prop :=
  (exists m, defines n tActions m /\ members m <> []) \/
  (exists s, defines n tStore s /\ s <> null_store).

(* the path of an access point: the path keys of the access points on the way *)
Definition path_key (n : ty) : list N :=
  if is_point n then
    match children n with l => match find_key tPathKey l with Some (Plain p) => [p] | _ => [] end end
  else [].
Definition path_of (def : ty) (a : list nat) : list N := flat_map path_key (chain def a).

(* what a node says about k, with a default *)
Definition says (n : ty) (k : N) (d x : ty) : Prop :=
  defines n k x \/ (forall v, ~ defines n k v) /\ x = d.

(* an access point description is that of a node *)
Definition describes (n : ty) (m : access_point) : Prop :=
  says n tName void (ap_name m) /\
  says n tStore null_store (ap_store m) /\
  says n tEntity (ap_store m) (ap_entity m) /\
  (exists acts, says n tActions (Lst []) acts /\ ap_actions m = members acts) /\
  (exists paths, says n tListenPaths (Lst []) paths /\
     Forall2 (fun c p => forall k l, c = Pair k (Types l) -> p = l) (members paths) (ap_listen m)).

(* the description of a producer: its type, the name it has or else its type *)
Definition describes_producer (n : ty) (q : producer) : Prop :=
  defines n tType (pr_type q) /\ says n tName (pr_type q) (pr_name q).

(* a node which is no access point and no list of them declares them in one way only *)
Definition one_way (def : ty) : Prop :=
  forall a n, node_at def a = Some n -> is_point n = false -> is_points n = false ->
    forall m m', ~ (defines n tAccessPoint m /\ defines n tAccessPoints m').

(* ------------------------------------------------------------------ message types *)

(* the tags of actions *)
Definition action_tags : list (N * act) := [(tCreate, Create); (tRead, Read); (tUpdate, Update); (tDelete, Delete)].
(* the actions an access point declares *)
Definition declared_actions (a : access_point) : list act :=
  flat_map (fun t => match t with Pair k _ => map snd (filter (fun p => fst p =? k) action_tags) | _ => [] end)
           (ap_actions a).

(* a create and an update carry the entity *)
Definition carries (a : act) : bool := match a with Create | Update => true | _ => false end.

(* the request for an action *)
Definition request (a : access_point) (x : act) : message :=
  {| m_dir := Up; m_act := x; m_path := ap_path a;
     m_payload := if carries x then Some (ap_entity a) else None |}.

(* the answers to it: a read is answered with the entity or with "not found" *)
Definition answers (a : access_point) (x : act) : list message :=
  let answer p := {| m_dir := Down; m_act := x; m_path := ap_path a; m_payload := p |} in
  match x with
  | Read => [answer (Some (ap_entity a)); answer None]
  | _ => [answer (if carries x then Some (ap_entity a) else None)]
  end.
