(* Model of /repo/include/nbdl/sql_db/update.hpp: the UPDATE of an entity by key.  The statement is that of
   statement/update.hpp (SqlModel.update_statement). *)
From Verif Require Import Base SqlModel.
Open Scope N_scope.

(* a key of the call: its name, the entity type (by its table) if it is a primary_key<T>, and what is bound; traits.hpp:29-36 *)
Definition ukey := (bytes * option bytes * cell)%type.

(* members_child and members_multirow are empty, update.hpp:75-87 *)
Definition flat (ms : list (bytes * member)) : bool := forallb (fun nm => match snd nm with Value _ => true | _ => false end) ms.

(* is_primary_key, update.hpp:37-42: the decltype is of a comma expression, and_ has the one operand; what remains is the
   type of the key *)
Definition is_primary_key (t : bytes) (k : ukey) : bool := match snd (fst k) with Some t' => bytes_eqb t' t | None => false end.

(* update_fn::operator() and update_impl<Entity>::apply, update.hpp:29-51, 68-125; None where a static_assert fails *)
Definition update (e : entity) (keys : list ukey) : option (bytes * list cell) :=
  match e with
  | Entity t ms => if existsb (is_primary_key t) keys && flat ms then update_statement t (values ms) (map (fun k => (fst (fst k), snd k)) keys) else None
  end.
