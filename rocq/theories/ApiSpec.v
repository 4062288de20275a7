(* The requests and the answers of an access point. *)
From Verif Require Import Base StoreModel DefModel DefSpec JsonModel WireModel.
Open Scope N_scope.

Section Spec.
Variable key_shape : N -> shape.
Variable entity_shape : ty -> shape.
Variable path_number : list N -> nat.
(* which values of a shape are meant *)
Variable ok : shape -> N -> Prop.

(* values for the keys of a path *)
Definition fills (ks : list N) (ns : list N) : Prop := Forall2 (fun k n => ok (key_shape k) n) ks ns.
Definition entity_of (a : access_point) (v : N) : Prop := ok (entity_shape (ap_entity a)) v.
Definition point (a : access_point) : N := N.of_nat (path_number (ap_path a)).
Definition object (a : access_point) (ns : list N) : mpath := PPath (mk_path (path_number (ap_path a)) ns).

(* what a client can ask for.  The key of what is created is chosen by the producer, unless its type has one value only *)
Inductive can_ask (a : access_point) : act -> msg -> Prop :=
| AskCreate : forall parent k ns v, ap_path a = parent ++ [k] -> key_shape k <> SEmpty -> fills parent ns -> entity_of a v ->
    can_ask a Create (make_upstream_create (point a) (PCreate (path_number (ap_path a)) ns) None (Entity v) None)
| AskCreateFixed : forall parent k ns v, ap_path a = parent ++ [k] -> key_shape k = SEmpty -> fills (ap_path a) ns -> entity_of a v ->
    can_ask a Create (make_upstream_create (point a) (object a ns) None (Entity v) None)
| AskRead : forall ns, fills (ap_path a) ns -> can_ask a Read (make_upstream_read (point a) (object a ns) None)
| AskUpdate : forall ns v, fills (ap_path a) ns -> entity_of a v -> can_ask a Update (make_upstream_update (point a) (object a ns) None (Entity v))
| AskDelete : forall ns, fills (ap_path a) ns -> can_ask a Delete (make_upstream_delete (point a) (object a ns) None).

(* what a server can say *)
Inductive can_tell (a : access_point) : act -> msg -> Prop :=
| TellCreate : forall ns v, fills (ap_path a) ns -> entity_of a v -> can_tell a Create (make_downstream_create (point a) (object a ns) None (Entity v) None)
| TellRead : forall ns v, fills (ap_path a) ns -> entity_of a v -> can_tell a Read (make_downstream_read (point a) (object a ns) None (Entity v))
| TellNotFound : forall ns, fills (ap_path a) ns -> can_tell a Read (make_downstream_read (point a) (object a ns) None NotFound)
| TellUpdate : forall ns v, fills (ap_path a) ns -> entity_of a v -> can_tell a Update (make_downstream_update (point a) (object a ns) None (Entity v) None)
| TellDelete : forall ns, fills (ap_path a) ns -> can_tell a Delete (make_downstream_delete (point a) (object a ns) None None).
End Spec.

(* the access points of a definition *)
Definition points (ps : list producer) : list access_point := flat_map pr_points ps.
(* no path has two access points; the numbers of paths stand for the paths *)
Definition one_each (path_number : list N -> nat) (ps : list producer) : Prop :=
  NoDup (map ap_path (points ps)) /\
  (forall a b, In a (points ps) -> In b (points ps) -> path_number (ap_path a) = path_number (ap_path b) -> ap_path a = ap_path b).
