(* Model of the definition trees of mpdef and of the builders which turn a definition into the
   tables of a context.

   These are computations on C++ types at compile time. A type is a value of [ty]; a function on
   types is a Gallina function; a program which does not compile is [None]. *)
From Coq Require Import List NArith Bool.
From Verif Require Import Base.
Import ListNotations.
Open Scope N_scope.

(* include/mpdef/tree_node.hpp:20-21, list.hpp:15-16, map.hpp:39-53, pair.hpp:14-15 and the directives
   of MPDEF_DIRECTIVE.hpp:17-57. [Plain n] is hana::type<T> for the T numbered n (or any other type
   which is none of the others), [Types l] is hana::experimental::types<...>.
   Simplification: keys are the numbered tags, never structured types. *)
Inductive ty :=
| Plain (n : N)
| Types (l : list N)
| Pair (k : N) (s : ty)
| Map (l : list ty)
| Lst (l : list ty).

(* ------------------------------------------------------------------ find_in_tree *)

(* include/mpdef/find_in_tree.hpp:42-94, with details::is_leaf (:25-39): a tree node whose second is a
   list or a map is a branch, everything else is a leaf *)
Section Find.
  Variable S : Type.
  Variable pred : ty -> bool.
  Variable summarize : S -> ty -> S.

  Fixpoint find_in_tree (t : ty) (summary : S) : list (ty * S) :=
    if pred t then [(t, summarize summary t)]                              (* :53-63 *)
    else match t with
         | Pair _ (Map l) | Pair _ (Lst l) =>                              (* :76-87 *)
             flat_map (fun c => find_in_tree c (summarize summary t)) l
         | _ => []                                                         (* :65-74 *)
         end.
End Find.
Arguments find_in_tree {S}.

(* ------------------------------------------------------------------ mpdef::map and the settings *)

(* include/mpdef/map.hpp:20-53: looking up a key deduces the base class elt<Key, Value>. The deduction
   succeeds when there is one such base; with several it is ambiguous. *)
Definition key_is (k : N) (t : ty) : bool := match t with Pair k' _ => k' =? k | _ => false end.
Definition find_key (k : N) (l : list ty) : option ty :=
  match filter (key_is k) l with [Pair _ s] => Some s | _ => None end.

(* the same for a map from tags to optional settings *)
Definition settings := list (N * option ty).
Definition get_setting (st : settings) (k : N) : option ty :=
  match filter (fun e => fst e =? k) st with [(_, v)] => v | _ => None end.

(* include/mpdef/collect_settings.hpp:73-77 *)
Definition with_settings (tags : list N) : settings := map (fun k => (k, None)) tags.

(* include/mpdef/collect_settings.hpp:19-70. Simplification: the second of something which is not a
   tree node does not compile; here it leaves the state as it is. *)
Definition collect_settings (st : settings) (x : ty) : settings :=
  match x with
  | Pair _ (Map l) =>
      map (fun e => (fst e, match find_key (fst e) l with
                            | Some v => Some v
                            | None => get_setting st (fst e) end)) st
  | _ => st
  end.

(* include/mpdef/find_in_tree.hpp:114-123 *)
Definition find_with_settings (tags : list N) (pred : ty -> bool) (t : ty) : list (ty * settings) :=
  find_in_tree pred collect_settings t (with_settings tags).

(* ------------------------------------------------------------------ group_by *)

(* include/mpdef/group_by.hpp:17-48: a list of (key, list of values) is folded into a list of
   (key, list of values, list of values, ...); mp_map_replace replaces the element with the same key
   and appends if there is none; mp_map_find gives void if there is none. *)
Definition groups := list (list N * list (list (list N))).

(* join_map_pair and add_to_map, :18-25 *)
Fixpoint add_to_map (m : groups) (p : list N * list (list N)) : groups :=
  match m with
  | [] => [(fst p, [snd p])]
  | e :: r => if bytes_eqb (fst e) (fst p) then (fst e, snd e ++ [snd p]) :: r else e :: add_to_map r p
  end.

(* group_by_impl :27-28, to_group_pair :30-34 and group_by :40-47 *)
Definition group_by (l : list (list N * list (list N))) : list (list N * list (list N)) :=
  map (fun e => (fst e, List.concat (snd e))) (fold_left add_to_map l []).

(* hana::find in the resulting mpdef::map, used by include/nbdl/context.hpp:218 *)
Definition find_group (m : list (list N * list (list N))) (k : list N) : list (list N) :=
  match filter (fun e => bytes_eqb (fst e) k) m with [(_, v)] => v | _ => [] end.

(* ------------------------------------------------------------------ access points *)

(* include/nbdl/def/directives.hpp:14-33 *)
Definition tAccessPoint := 1.  Definition tActions := 2.      Definition tCreate := 3.
Definition tDelete := 4.       Definition tProducer := 5.     Definition tRead := 6.
Definition tUpdate := 7.       Definition tName := 8.         Definition tAccessPoints := 9.
Definition tListenPaths := 10. Definition tProducers := 11.   Definition tEntity := 12.
Definition tPathKey := 13.     Definition tStore := 14.       Definition tType := 15.
Definition tPath := 16.        Definition tContext := 17.

(* nbdl::null_store and void as numbered types *)
Definition null_store := Plain 0.
Definition void := Plain 1.

(* include/nbdl/def/builder/access_point_meta.hpp:16-24 *)
Record access_point :=
  { ap_name : ty; ap_actions : list ty; ap_store : ty; ap_entity : ty;
    ap_path : list N; ap_listen : list (list N) }.

Definition value_or (o : option ty) (d : ty) : ty := match o with Some x => x | None => d end.
Definition members (t : ty) : list ty := match t with Map l | Lst l => l | _ => [] end.
Definition is_null_store (t : ty) : bool := match t with Plain n => n =? 0 | _ => false end.

(* include/nbdl/def/builder/enumerate_access_points.hpp:29-43 *)
Definition has_actions (l : list ty) : bool :=
  match members (value_or (find_key tActions l) (Lst [])) with [] => false | _ => true end
  || negb (is_null_store (value_or (find_key tStore l) null_store)).

(* :45-56, second of each tree node unpacked into a tuple type *)
Definition listen_path (t : ty) : list N := match t with Pair _ (Types p) => p | _ => [] end.

(* :58-85 *)
Definition access_point_meta (path : list N) (l : list ty) : list access_point :=
  if has_actions l then
    let store := value_or (find_key tStore l) null_store in
    [{| ap_name := value_or (find_key tName l) void;
        ap_actions := members (value_or (find_key tActions l) (Lst []));
        ap_store := store;
        ap_entity := value_or (find_key tEntity l) store;
        ap_path := path;
        ap_listen := map listen_path (members (value_or (find_key tListenPaths l) (Lst []))) |}]
  else [].

(* flatten of the results of the children, if they all compile *)
Definition all {A B} (f : A -> option (list B)) : list A -> option (list B) :=
  fix go l := match l with
              | [] => Some []
              | x :: r => match f x, go r with Some a, Some b => Some (a ++ b) | _, _ => None end
              end.

(* the only entry with a key; the pair which make_pair builds again from the tag and the value found
   under it is that entry *)
Definition for_key {B} (k : N) (f : ty -> option (list B)) : list ty -> option (list B) :=
  fix go l := match l with
              | [] => Some []
              | x :: r => if key_is k x then f x else go r
              end.
Definition contains (k : N) (l : list ty) : bool :=
  match find_key k l with Some _ => true | None => false end.

(* include/nbdl/def/builder/enumerate_access_points.hpp:87-129 *)
Fixpoint enumerate_access_points (path : list N) (def : ty) : option (list access_point) :=
  match def with
  | Pair k v =>
      if k =? tAccessPoint then                                            (* :99-107 *)
        match v with
        | Map l =>
            match find_key tPathKey l with
            | Some (Plain p) =>
                match all (enumerate_access_points (path ++ [p])) l with
                | Some nested => Some (access_point_meta (path ++ [p]) l ++ nested)
                | None => None
                end
            | _ => None                        (* node_children[tag::PathKey] does not compile *)
            end
        | _ => None                            (* only a map can be subscripted *)
        end
      else if k =? tAccessPoints then                                      (* :108-112 *)
        match v with
        | Map l | Lst l => all (enumerate_access_points path) l
        | _ => None
        end
      else
        match v with
        | Map l =>                                                         (* :113-126 *)
            if contains tAccessPoints l then for_key tAccessPoints (enumerate_access_points path) l
            else if contains tAccessPoint l then for_key tAccessPoint (enumerate_access_points path) l
            else Some []
        | _ => Some []                                                     (* :127 *)
        end
  | _ => None                                  (* hana::first does not compile *)
  end.

(* ------------------------------------------------------------------ producers *)

(* include/nbdl/def/builder/producer_meta.hpp:20-25 *)
Record producer := { pr_type : ty; pr_name : ty; pr_points : list access_point }.

(* include/nbdl/def/builder/enumerate_producers.hpp:21-34 *)
Definition producer_meta (t : ty) : option (list producer) :=
  match t with
  | Pair _ (Map l) =>
      match find_key tType l, enumerate_access_points [] t with
      | Some type, Some aps =>
          Some [{| pr_type := type; pr_name := value_or (find_key tName l) type; pr_points := aps |}]
      | _, _ => None
      end
  | _ => None
  end.

(* :36-53, of the children of the context; exactly one of Producer and Producers is required *)
Definition enumerate_producers (l : list ty) : option (list producer) :=
  match find_key tProducer l, find_key tProducers l with
  | Some p, None => producer_meta (Pair tProducer p)
  | None, Some (Map ps) | None, Some (Lst ps) => all producer_meta ps
  | _, _ => None
  end.

(* the keys of the producer lookup: path types and names *)
Inductive pkey := KPath (p : list N) | KName (n : ty).

(* hana::unique: drops an element equal to the one before it *)
Fixpoint unique (l : list (list N)) : list (list N) :=
  match l with
  | [] => []
  | x :: r => match r with
              | y :: _ => if bytes_eqb x y then unique r else x :: unique r
              | [] => [x]
              end
  end.

(* include/nbdl/def/builder/producer_map.hpp:22-36, the keys of one producer *)
Definition producer_keys (p : producer) : list pkey :=
  map KPath (unique (map ap_path (pr_points p))) ++ [KName (pr_name p)].

(* include/nbdl/def/builder/context_actors.hpp:22-31 and :62-70, the pairs of key and index from
   index i on *)
Fixpoint producer_lookup (i : nat) (ps : list producer) : list (pkey * nat) :=
  match ps with
  | [] => []
  | p :: r => map (fun k => (k, i)) (producer_keys p) ++ producer_lookup (S i) r
  end.

(* hana::at_key(ProducerLookup, path type), include/nbdl/context.hpp:118-123; without exactly one entry
   it does not compile *)
Definition key_is_path (p : list N) (e : pkey * nat) : bool :=
  match fst e with KPath q => bytes_eqb q p | KName _ => false end.
Definition producer_of (ps : list producer) (p : list N) : option nat :=
  match filter (key_is_path p) (producer_lookup 0 ps) with [(_, i)] => Some i | _ => None end.

(* ------------------------------------------------------------------ the listener table *)

(* include/nbdl/def/builder/listener_lookup.hpp:24-31 *)
Definition listener_pairs (a : access_point) : list (list N * list (list N)) :=
  map (fun p => (p, [ap_path a])) (ap_listen a).

(* :33-41 *)
Definition listener_lookup (ps : list producer) : list (list N * list (list N)) :=
  group_by (flat_map listener_pairs (flat_map pr_points ps)).

(* ------------------------------------------------------------------ the message types *)

(* include/nbdl/def/builder/entity_messages.hpp:34-43 *)
Inductive act := Create | Read | Update | Delete.
Definition act_of (k : N) : option act :=
  if k =? tCreate then Some Create else if k =? tRead then Some Read
  else if k =? tUpdate then Some Update else if k =? tDelete then Some Delete else None.

(* the message types of nbdl::message by direction, action, path and payload (None: nbdl::not_found
   for a downstream read, none otherwise) *)
Inductive dir := Up | Down.
Record message := { m_dir : dir; m_act : act; m_path : list N; m_payload : option ty }.

(* entity_messages.hpp:45-98; make_create_path_t of the path is said by the path (ApiModel works it out) *)
Definition upstream (path : list N) (entity : ty) (a : act) : option (list message) :=
  match a with
  | Create => match path with
              | [] => None                                                 (* the static_assert, :59-62 *)
              | _ => Some [{| m_dir := Up; m_act := Create; m_path := path; m_payload := Some entity |}]
              end
  | Read => Some [{| m_dir := Up; m_act := Read; m_path := path; m_payload := None |}]
  | Update => Some [{| m_dir := Up; m_act := Update; m_path := path; m_payload := Some entity |}]
  | Delete => Some [{| m_dir := Up; m_act := Delete; m_path := path; m_payload := None |}]
  end.

(* :100-156 *)
Definition downstream (path : list N) (entity : ty) (a : act) : list message :=
  match a with
  | Create => [{| m_dir := Down; m_act := Create; m_path := path; m_payload := Some entity |}]
  | Read => [{| m_dir := Down; m_act := Read; m_path := path; m_payload := Some entity |};
             {| m_dir := Down; m_act := Read; m_path := path; m_payload := None |}]
  | Update => [{| m_dir := Down; m_act := Update; m_path := path; m_payload := Some entity |}]
  | Delete => [{| m_dir := Down; m_act := Delete; m_path := path; m_payload := None |}]
  end.

(* the actions of an access point, :169-170 *)
Definition action_of (t : ty) : option (list act) :=
  match t with
  | Pair k _ => match act_of k with Some a => Some [a] | None => None end
  | _ => None
  end.

(* :159-199: all upstream messages, then all downstream messages *)
Definition entity_messages (a : access_point) : option (list message) :=
  match all action_of (ap_actions a) with
  | Some acts =>
      match all (upstream (ap_path a) (ap_entity a)) acts with
      | Some ups => Some (ups ++ flat_map (downstream (ap_path a) (ap_entity a)) acts)
      | None => None
      end
  | None => None
  end.

(* include/nbdl/def/builder/message_api.hpp:39-62: the messages of all access points partitioned into
   the upstream and the downstream ones *)
Definition is_up (m : message) : bool := match m_dir m with Up => true | Down => false end.
Definition message_api (ps : list producer) : option (list message * list message) :=
  match all entity_messages (flat_map pr_points ps) with
  | Some ms => Some (partition is_up ms)
  | None => None
  end.
