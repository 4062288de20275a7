(* Model of /repo/include/nbdl/message.hpp, map_store.hpp, context.hpp and echo_producer.hpp.
   Entities are opaque numbers.  A C++ path type is a number; a path is its type and the values of its keys. *)
From Verif Require Import Base.
Open Scope N_scope.

Record path := mk_path { ptype : nat; keys : list N }.
Definition path_eqb (a b : path) : bool := Nat.eqb (ptype a) (ptype b) && bytes_eqb (keys a) (keys b).

(* fwd/message.hpp:52-62 create_path<Key, ParentPath>: the path type it will have and the parent's keys *)
Inductive mpath := PPath (p : path) | PCreate (t : nat) (parent : list N).

(* the payload of a message: an entity, nbdl::not_found or nbdl::not_in_set (tags.hpp) *)
Inductive payload := Entity (v : N) | NotFound | NotInSet.

(* elements of a message's storage tuple; NoImpl is message::no_impl *)
Inductive field := FPath (p : mpath) | FUid (u : N) | FPayload (v : payload) | FPrivate (v : N) | FConfirmed (b : bool) | NoImpl.

Inductive kind := UpCreate | UpRead | UpUpdate | UpDelete | DownCreate | DownRead | DownUpdate | DownDelete.

(* one instance of one of the eight message templates; [mtype] stands for the template arguments *)
Record msg := mk_msg { mkind : kind; mtype : N; storage : list field }.

Definition uid_field (u : option N) : field := match u with Some x => FUid x | None => NoImpl end.
Definition private_field (v : option N) : field := match v with Some x => FPrivate x | None => NoImpl end.
Definition confirmed_field (b : option bool) : field := match b with Some x => FConfirmed x | None => NoImpl end.

(* ---- make functions: message.hpp:498-669 ---- *)
Definition make_upstream_create (ty : N) (p : mpath) (u : option N) (v : payload) (pr : option N) : msg :=
  mk_msg UpCreate ty [FPath p; uid_field u; FPayload v; private_field pr].
Definition make_upstream_read (ty : N) (p : mpath) (u : option N) : msg := mk_msg UpRead ty [FPath p; uid_field u].
Definition make_upstream_update (ty : N) (p : mpath) (u : option N) (v : payload) : msg :=
  mk_msg UpUpdate ty [FPath p; uid_field u; FPayload v].
Definition make_upstream_delete (ty : N) (p : mpath) (u : option N) : msg := mk_msg UpDelete ty [FPath p; uid_field u].
Definition make_downstream_create (ty : N) (p : mpath) (u : option N) (v : payload) (c : option bool) : msg :=
  mk_msg DownCreate ty [FPath p; uid_field u; FPayload v; confirmed_field c].
Definition make_downstream_read (ty : N) (p : mpath) (u : option N) (v : payload) : msg :=
  mk_msg DownRead ty [FPath p; uid_field u; FPayload v].
Definition make_downstream_update (ty : N) (p : mpath) (u : option N) (v : payload) (c : option bool) : msg :=
  mk_msg DownUpdate ty [FPath p; uid_field u; FPayload v; confirmed_field c].
Definition make_downstream_delete (ty : N) (p : mpath) (u : option N) (c : option bool) : msg :=
  mk_msg DownDelete ty [FPath p; uid_field u; confirmed_field c].

(* ---- accessors: message.hpp:21-40 and the instances after each message; None: not callable ---- *)
Definition at_c (i : nat) (m : msg) : option field := nth_error (storage m) i.
Definition optional_at (i : nat) (m : msg) : option field :=
  match at_c i m with Some NoImpl => None | o => o end.

(* message.hpp:97, 176, 211, 244, 275, 314, 335, 356 *)
Definition get_path (m : msg) : option field := at_c 0 m.
(* message.hpp:98, 177, 212, 245, 276, 315, 336, 357 *)
Definition get_uid (m : msg) : option field := optional_at 1 m.
(* message.hpp:99, 213, 277, 316, 337 *)
Definition get_payload (m : msg) : option field :=
  match mkind m with UpCreate | UpUpdate | DownCreate | DownRead | DownUpdate => at_c 2 m | _ => None end.
(* message.hpp:100: index 1 *)
Definition get_private_payload (m : msg) : option field :=
  match mkind m with UpCreate => optional_at 1 m | _ => None end.
(* message.hpp:278, 338, 358 and 427-439: false when there is none.  (317 names element 3 of a tuple of three.) *)
Definition is_confirmed (m : msg) : field :=
  match match mkind m with
        | DownCreate | DownUpdate => optional_at 3 m
        | DownDelete => optional_at 2 m
        | _ => None
        end with
  | Some f => f | None => FConfirmed false
  end.

(* message.hpp:368-398 *)
Definition is_upstream (m : msg) : bool := match mkind m with UpCreate | UpRead | UpUpdate | UpDelete => true | _ => false end.
Definition is_read (m : msg) : bool := match mkind m with UpRead | DownRead => true | _ => false end.

(* message.hpp:108-112: a create path whose key the message does not carry.  (Create paths whose uid is itself the
   key are not modelled.) *)
Definition requires_key (m : msg) : bool :=
  match mkind m, get_path m with UpCreate, Some (FPath (PCreate _ _)) => true | _, _ => false end.

Definition uid_or_none (m : msg) : field := match get_uid m with Some f => f | None => NoImpl end.
Definition or_none (o : option field) : field := match o with Some f => f | None => NoImpl end.

(* message.hpp:130-145, 221-232, 253-263; None: no such conversion *)
Definition to_downstream (m : msg) (c : option bool) : option msg :=
  match mkind m with
  | UpCreate => if requires_key m then None else
      Some (mk_msg DownCreate (mtype m) [or_none (get_path m); uid_or_none m; or_none (get_payload m); confirmed_field c])
  | UpUpdate =>
      Some (mk_msg DownUpdate (mtype m) [or_none (get_path m); uid_or_none m; or_none (get_payload m); confirmed_field c])
  | UpDelete => Some (mk_msg DownDelete (mtype m) [or_none (get_path m); uid_or_none m; confirmed_field c])
  | _ => None
  end.

(* message.hpp:147-161: the key is appended to the parent path *)
Definition to_downstream_with_key (m : msg) (k : N) (c : option bool) : option msg :=
  match mkind m, get_path m with
  | UpCreate, Some (FPath (PCreate t parent)) =>
      Some (mk_msg DownCreate (mtype m) [FPath (PPath (mk_path t (parent ++ [k]))); uid_or_none m; or_none (get_payload m); confirmed_field c])
  | _, _ => None
  end.

(* message.hpp:185-195 *)
Definition to_downstream_read (m : msg) (v : payload) : option msg :=
  match mkind m with
  | UpRead => Some (mk_msg DownRead (mtype m) [or_none (get_path m); uid_or_none m; FPayload v])
  | _ => None
  end.

(* the path as stores see it: message::get_path; None for a create path *)
Definition path_of (m : msg) : option path := match get_path m with Some (FPath (PPath p)) => Some p | _ => None end.
Definition payload_of (m : msg) : payload := match get_payload m with Some (FPayload v) => v | _ => NotFound end.
(* message.hpp:679-700 get_path_type *)
Definition path_type (m : msg) : nat :=
  match get_path m with Some (FPath (PPath p)) => ptype p | Some (FPath (PCreate t _)) => t | _ => 0%nat end.

(* ---- map_store ---- *)
(* fwd/map_store.hpp:28: variant of unresolved, the entity and not_found; unresolved is the default *)
Inductive slot := SUnresolved | SValue (v : payload).
(* std::unordered_map with keys compared by hana::equal: an association list with unique keys *)
Definition table := list (path * slot).

Fixpoint find (m : table) (p : path) : option slot :=
  match m with
  | [] => None
  | (q, v) :: r => if path_eqb p q then Some v else find r p
  end.
Definition erase (m : table) (p : path) : table := filter (fun x => negb (path_eqb p (fst x))) m.
Definition assign (m : table) (p : path) (v : slot) : table := (p, v) :: erase m p.
(* operator[] inserts a default constructed value *)
Definition index (m : table) (p : path) : table * slot :=
  match find m p with Some v => (m, v) | None => (assign m p SUnresolved, SUnresolved) end.

(* map_store.hpp:30-111 *)
Definition map_apply (s : table) (m : msg) : table * bool :=
  match path_of m with
  | None => (s, false)
  | Some p =>
    match mkind m with
    | UpRead => (match find s p with None => assign s p SUnresolved | Some _ => s end, false)
    | DownCreate | DownUpdate => (assign s p (SValue (payload_of m)), true)
    | DownRead => let (s1, v) := index s p in
                  match v with
                  | SUnresolved => (assign s1 p (SValue (payload_of m)), true)
                  | SValue _ => (s1, false)
                  end
    | DownDelete => (erase s p, true)
    | _ => (s, false)
    end
  end.
(* map_store.hpp:30-57: the result type is hana::false_ *)
Definition map_static_false (m : msg) : bool := is_upstream m.

(* what a visitor is called with *)
Inductive outcome := TriggerRead | Unresolved | Resolved (v : payload).

(* map_store.hpp:174-192 and ext/std/unordered_map.hpp:31-50, then the variant's match *)
Definition map_match (s : table) (p : path) : outcome :=
  match find s p with
  | None => Resolved NotInSet
  | Some SUnresolved => Unresolved
  | Some (SValue v) => Resolved v
  end.

(* ---- context ---- *)
Section Context.
(* a store type: apply_message, whether its result type is hana::false_, match, apply_foreign_message with the paths
   given to its callback.  Stores of all path types have the same type here. *)
Variable S : Type.
Variable apply : S -> msg -> S * bool.
Variable static_false : msg -> bool.
Variable look : S -> path -> outcome.
Variable foreign : S -> msg -> S * list path.
(* a producer's state and the downstream messages it pushes back while it handles an upstream message *)
Variable P : Type.
Variable react : P -> msg -> P * list msg.

(* which concepts an actor models *)
Record actor := { consumer : bool; state_consumer : bool }.
(* ContextMeta: the actors in order, the producer of a path type, the listeners of a path type *)
Record shape := { actors : list actor; producer_of : nat -> nat; listeners_of : nat -> list nat }.
Variable sh : shape.

Record state := { stores : nat -> S; producers : nat -> P }.
Definition set_store (st : state) (t : nat) (s : S) : state :=
  {| stores := fun x => if Nat.eqb x t then s else stores st x; producers := producers st |}.
Definition set_producer (st : state) (i : nat) (p : P) : state :=
  {| stores := stores st; producers := fun x => if Nat.eqb x i then p else producers st x |}.

(* calls of send_upstream_message, send_downstream_message, notify_state_change on actor [i], with the stores as they
   are at that moment *)
Inductive event :=
| ToProducer (i : nat) (m : msg) (st : nat -> S)
| ToConsumer (i : nat) (m : msg) (st : nat -> S)
| Notify (i : nat) (p : path) (st : nat -> S).

Fixpoint for_each (i : nat) (l : list actor) (f : nat -> actor -> list event) : list event :=
  match l with [] => [] | a :: r => f i a ++ for_each (i + 1)%nat r f end.

(* context.hpp:127-138 *)
Definition propagate_downstream (st : state) (m : msg) : list event :=
  for_each 0 (actors sh) (fun i a => if consumer a then [ToConsumer i m (stores st)] else []).
(* context.hpp:140-150 *)
Definition notify_state_consumers (st : state) (p : path) : list event :=
  for_each 0 (actors sh) (fun i a => if state_consumer a then [Notify i p (stores st)] else []).

(* context.hpp:217-235 *)
Fixpoint tell_listeners (st : state) (m : msg) (ls : list nat) : state * list event :=
  match ls with
  | [] => (st, [])
  | t :: r => let (s1, ps) := foreign (stores st t) m in
              let st1 := set_store st t s1 in
              let (st2, e2) := tell_listeners st1 m r in
              (st2, flat_map (notify_state_consumers st1) ps ++ e2)
  end.

(* context.hpp:195-205 *)
Definition apply_and_notify (st : state) (m : msg) (p : path) : state * list event :=
  if static_false m then (st, []) else
  let (s1, changed) := apply (stores st (path_type m)) m in
  let st1 := set_store st (path_type m) s1 in
  (st1, if changed then notify_state_consumers st1 p else []).

(* context.hpp:156-236 for a downstream message.  (A downstream message with a create path does not compile.) *)
Definition push_down (st : state) (m : msg) : state * list event :=
  match path_of m with
  | None => (st, [])
  | Some p =>
      let (st1, e1) := apply_and_notify st m p in
      let e2 := propagate_downstream st1 m in
      let (st2, e3) := tell_listeners st1 m (listeners_of sh (path_type m)) in
      (st2, e1 ++ e2 ++ e3)
  end.

Fixpoint push_all_down (st : state) (ms : list msg) : state * list event :=
  match ms with
  | [] => (st, [])
  | m :: r => let (st1, e1) := push_down st m in
              let (st2, e2) := push_all_down st1 r in
              (st2, e1 ++ e2)
  end.

(* context.hpp:115-125; the producer may answer at once through its handle of the context *)
Definition propagate_upstream (st : state) (m : msg) : state * list event :=
  let i := producer_of sh (path_type m) in
  let (p1, answers) := react (producers st i) m in
  let (st1, e1) := push_all_down (set_producer st i p1) answers in
  (st1, ToProducer i m (stores st) :: e1).

(* context.hpp:162-192 *)
Definition push_read (st : state) (m : msg) (p : path) : state * list event :=
  let st1 := set_store st (path_type m) (fst (apply (stores st (path_type m)) m)) in
  match look (stores st1 (path_type m)) p with
  | TriggerRead => propagate_upstream st1 m
  | Unresolved => (st1, [])
  | Resolved v => match to_downstream_read m v with
                  | Some d => (st1, propagate_downstream st1 d)
                  | None => (st1, [])
                  end
  end.

(* context.hpp:156-243 for an upstream message *)
Definition push_up (st : state) (m : msg) : state * list event :=
  match path_of m with
  | None => propagate_upstream st m
  | Some p =>
      let (st1, e1) :=
        if is_read m then push_read st m p
        else let (st0, e0) := apply_and_notify st m p in
             let (st1, e1) := propagate_upstream st0 m in (st1, e0 ++ e1) in
      let (st2, e2) := tell_listeners st1 m (listeners_of sh (path_type m)) in
      (st2, e1 ++ e2)
  end.

Definition push (st : state) (m : msg) : state * list event :=
  if is_upstream m then push_up st m else push_down st m.

(* context.hpp:306-336: matching through the context *)
Definition context_match (st : state) (p : path) : state * list event * outcome :=
  match look (stores st (ptype p)) p with
  | TriggerRead => let (st1, e) := push st (make_upstream_read 0 (PPath p) None) in (st1, e, Unresolved)
  | o => (st, [], o)
  end.

Inductive call := Push (m : msg) | Match (p : path).
Fixpoint run (st : state) (cs : list call) : state * list event :=
  match cs with
  | [] => (st, [])
  | Push m :: r => let (st1, e1) := push st m in let (st2, e2) := run st1 r in (st2, e1 ++ e2)
  | Match p :: r => let '(st1, e1, _) := context_match st p in let (st2, e2) := run st1 r in (st2, e1 ++ e2)
  end.
End Context.
Arguments ToProducer {S}. Arguments ToConsumer {S}. Arguments Notify {S}.
Arguments stores {S P}. Arguments producers {S P}.

(* ---- echo_producer ---- *)
(* echo_producer.hpp:22-44: make_unique_key's static counter exists once per type of message; keys are an unsigned
   integral type with [modulus] values *)
Definition counters := N -> N.
Definition echo_react (modulus : N) (c : counters) (m : msg) : counters * list msg :=
  if requires_key m then
    let k := (c (mtype m) + 1) mod modulus in
    (fun t => if N.eqb t (mtype m) then k else c t,
     match to_downstream_with_key m k None with Some d => [d] | None => [] end)
  else (c, match to_downstream m None with Some d => [d] | None => [] end).
