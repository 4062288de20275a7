(* Model of /repo/include/nbdl/ui_view/detail/flatten_spec.hpp: the list of actions that a tree of views is made into.  Types, functions, paths and
   tags are numbers.  The actions themselves (ui_view/detail/manips.hpp) do not compile and have no model. *)
From Verif Require Import Base.
Open Scope nat_scope.

(* a specification: a pair of a tag and a list (ui_view/spec.hpp:22 view), a match (ui_spec.hpp), anything else *)
Inductive spec :=
| Pair (tag : nat) (l : list spec)
| Match (path : nat) (alts : list (nat * spec))
| Leaf (x : nat).

(* manips.hpp:28-63, 95-99 action_fn<begin, Tag, Type, InitFn>, action_fn<end, Tag, Type>, action_fn<match_tag, Path, Branches>; other nodes stay *)
Inductive action :=
| Begin (tag : nat) (type init : spec)
| End (tag : nat) (type : spec)
| Branch (path : nat) (alts : list (nat * list action))
| Same (x : nat).

(* all of them, or does not compile *)
Fixpoint each {A} (l : list (option A)) : option (list A) :=
  match l with
  | [] => Some []
  | o :: r => match o, each r with Some x, Some xs => Some (x :: xs) | _, _ => None end
  end.

(* flatten_spec.hpp:110-135 flatten_spec_fn.  23-45 flatten_view_node_fn: the first two of the list are the type of the view and the function that
   initialises it (at_c does not compile when there are not two); 76-101 flatten_match_node_fn *)
Fixpoint flatten_spec (s : spec) : option (list action) :=
  match s with
  | Pair tag l =>
      match l with
      | type :: init :: children =>
          match each (map flatten_spec children) with
          | Some fs => Some (concat (concat [[[Begin tag type init]]; fs; [[End tag type]]]))
          | None => None
          end
      | _ => None
      end
  | Match path alts =>
      match each (map (fun a => match flatten_spec (snd a) with Some f => Some (fst a, f) | None => None end) alts) with
      | Some fs => Some [Branch path fs]
      | None => None
      end
  | Leaf x => Some [Same x]
  end.
