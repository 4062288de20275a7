(* Model of the messages that a definition's API has as types: the storage of every message type that
   /repo/include/nbdl/def/builder/entity_messages.hpp:45-206 names (DefModel says which), with the create paths of
   /repo/include/nbdl/detail/make_create_path_type.hpp:20-52.  The JSON of a type is known from its shape (JsonModel). *)
From Verif Require Import Base StoreModel DefModel JsonModel WireModel.
Open Scope N_scope.

Section Api.
(* what the key types and the entities of a definition are for the binder; SEmpty is std::is_empty *)
Variable key_shape : N -> shape.
Variable entity_shape : ty -> shape.
(* StoreModel and WireModel number path types; the number stands for hana::tuple<Keys...> *)
Variable path_number : list N -> nat.

(* make_create_path_type.hpp:32-52: is the type create_path<Key, ParentPath>, with the key types of which path?
   make_create_path_key_t of a path without keys does not compile; entity_messages.hpp:58-62 asserts that there are some *)
Definition is_empty_key (k : N) : bool := match key_shape k with SEmpty => true | _ => false end.
Fixpoint make_create_path (path : list N) : bool * list N :=
  match path with
  | [] => (false, [])
  | [k] => if is_empty_key k then (false, [k]) else (true, [])
  | k :: path' => let (c, ks) := make_create_path path' in (c, k :: ks)
  end.

(* the payload of a message type; only a downstream_read has nbdl::not_found (entity_messages.hpp:117-129) *)
Definition payload_element (o : option ty) : element :=
  match o with Some e => EPayload (CEntity (entity_shape e)) | None => EPayload CNotFound end.

(* entity_messages.hpp:45-156 with message.hpp:78-358: uid, private payload and is_confirmed are no_impl
   (entity_messages.hpp:172, 181-193) *)
Definition wire_type (m : message) : message_type :=
  let n := path_number (m_path m) in
  let at_path k rest := MType k (N.of_nat n) n false (map key_shape (m_path m)) rest in
  match m_dir m, m_act m with
  | Up, Create => let (c, ks) := make_create_path (m_path m) in
                  MType UpCreate (N.of_nat n) n c (map key_shape ks) [ENoImpl; payload_element (m_payload m); ENoImpl]
  | Up, Read => at_path UpRead [ENoImpl]
  | Up, Update => at_path UpUpdate [ENoImpl; payload_element (m_payload m)]
  | Up, Delete => at_path UpDelete [ENoImpl]
  | Down, Create => at_path DownCreate [ENoImpl; payload_element (m_payload m); ENoImpl]
  | Down, Read => at_path DownRead [ENoImpl; payload_element (m_payload m)]
  | Down, Update => at_path DownUpdate [ENoImpl; payload_element (m_payload m); ENoImpl]
  | Down, Delete => at_path DownDelete [ENoImpl; ENoImpl]
  end.

(* message_api.hpp:39-62: the alternatives of the two variants *)
Definition wire_api (ps : list producer) : option (list message_type * list message_type) :=
  match message_api ps with Some (us, ds) => Some (map wire_type us, map wire_type ds) | None => None end.
End Api.
