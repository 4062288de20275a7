(* Model of /repo/include/nbdl/context_store.hpp, apply_action.hpp and null_store.hpp: a context whose stores hold one
   value for each path type, or nothing.  The context itself is the one of StoreModel.v (context.hpp).
   A value is what nbdl::match gives for it: the tags trigger_read and unresolved, or something resolved
   (context_store.hpp:88-103: a plain value is given as it is; a Store such as nbdl::variant gives its alternative). *)
From Verif Require Import Base StoreModel.

Section Cst.
(* what a payload does to the value held (apply_action.hpp:54-68): it is assigned to the value, or called with it.
   Which one is chosen by type; both give hana::true_c. *)
Variable act : payload -> outcome -> outcome.

(* null_store (null_store.hpp:20-23), or context_store_t (context_store.hpp:26-36) *)
Inductive cstore := Null | Held (v : outcome).

(* context_store.hpp:46-64, null_store.hpp:25-34 *)
Definition cst_apply (s : cstore) (m : msg) : cstore * bool :=
  match s with
  | Null => (Null, false)
  | Held v => match mkind m with DownUpdate => (Held (act (payload_of m) v), true) | _ => (Held v, false) end
  end.
(* the result type is hana::false_: context_store.hpp:59-62.  (That of null_store always is; its apply_message changes
   nothing, so that calling it is the same as not calling it.) *)
Definition cst_static_false (m : msg) : bool := match mkind m with DownUpdate => false | _ => true end.
(* context_store.hpp:66-103: the key is not looked at.  (Matching a null_store does not compile, null_store.hpp:36-47;
   here nothing happens.) *)
Definition cst_look (s : cstore) (p : path) : outcome := match s with Null => Unresolved | Held v => v end.
(* neither has apply_foreign_message (apply_foreign_message.hpp:28-34) *)
Definition cst_foreign (s : cstore) (m : msg) : cstore * list path := (s, []).

Variable P : Type.
Variable react : P -> msg -> P * list msg.
Variable sh : shape.

Definition cst_push : state cstore P -> msg -> state cstore P * list (event cstore) :=
  push cstore cst_apply cst_static_false cst_look cst_foreign P react sh.
Definition cst_match : state cstore P -> path -> state cstore P * list (event cstore) * outcome :=
  context_match cstore cst_apply cst_static_false cst_look cst_foreign P react sh.
Definition cst_run : state cstore P -> list call -> state cstore P * list (event cstore) :=
  run cstore cst_apply cst_static_false cst_look cst_foreign P react sh.
End Cst.

(* apply_action.hpp:57-61: the value is replaced *)
Definition assign (a : payload) (v : outcome) : outcome := Resolved a.
