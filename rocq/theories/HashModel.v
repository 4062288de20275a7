(* Model of hashing bindable values, /repo/include/nbdl/binder/hash.hpp and detail/hash_combine.hpp, and of comparing them.
   std::hash and operator== of the values at the leaves are parameters. *)
From Verif Require Import Base.
Open Scope N_scope.

Section Hash.
Variable leaf : Type.
Variable hasher : leaf -> N.              (* std::hash<T> *)
Variable type_id_hash : nat -> N.         (* std::hash<int> of a variant's type id *)
Variable leaf_eq : leaf -> leaf -> bool.  (* hana::equal, operator== *)

Inductive value :=
| Leaf (x : leaf)
| Empty                          (* a value of an empty type *)
| Seq (l : list value)           (* BindableSequence: entity, tuple, pair *)
| Var (type_id : nat) (v : value)(* BindableVariant and the alternative it holds *)
| Cont (l : list leaf)           (* Container in the order it is iterated *)
| Bag (l : list leaf).           (* a container whose == does not look at the order of iteration: std::unordered_set *)

(* hash_combine.hpp:18-23 with a 64 bit size_t *)
Definition hash_combine (seed h : N) : N :=
  N.lxor seed ((h + 0x9e3779b9 + (N.shiftl seed 6) mod 2 ^ 64 + N.shiftr seed 2) mod 2 ^ 64).

(* filter_empties.hpp:31-46 *)
Definition not_empty (v : value) : bool := match v with Empty => false | _ => true end.

(* hash_detail::writer::bind, binder/hash.hpp:33-61.  A variant that holds an empty value does not compile: bind_variant
   (bind_variant.hpp:34-44) leaves it out, and the lambda of hash.hpp:45 takes two arguments. *)
Fixpoint bind (digest : N) (v : value) : N :=
  match v with
  | Leaf x => hash_combine digest (hasher x)
  | Empty => digest
  | Seq l => fold_left (fun d x => if not_empty x then bind d x else d) l digest
  | Var i w => bind (hash_combine digest (type_id_hash i)) w
  | Cont l | Bag l => fold_left (fun d x => hash_combine d (hasher x)) l digest
  end.

(* binder/hash.hpp:65-74 *)
Definition hash (v : value) : N := bind 0 v.

Definition forall2b {A} (f : A -> A -> bool) := fix go (l1 l2 : list A) : bool :=
  match l1, l2 with [], [] => true | x :: r1, y :: r2 => f x y && go r1 r2 | _, _ => false end.

(* std::is_permutation, which operator== of std::unordered_set is specified with *)
Fixpoint remove_one {A} (f : A -> bool) (l : list A) : option (list A) :=
  match l with [] => None | y :: r => if f y then Some r else option_map (cons y) (remove_one f r) end.
Fixpoint is_permutation {A} (f : A -> A -> bool) (l1 l2 : list A) : bool :=
  match l1 with
  | [] => match l2 with [] => true | _ => false end
  | x :: r => match remove_one (f x) l2 with Some r2 => is_permutation f r r2 | None => false end
  end.

(* hana::equal: entities member by member (entity.hpp:46-61), variants variant.hpp:267-303, otherwise operator== *)
Fixpoint equal (a b : value) : bool :=
  match a, b with
  | Leaf x, Leaf y => leaf_eq x y
  | Empty, Empty => true
  | Seq l1, Seq l2 => forall2b equal l1 l2
  | Var i v, Var j w => Nat.eqb i j && equal v w
  | Cont l1, Cont l2 => forall2b leaf_eq l1 l2
  | Bag l1, Bag l2 => is_permutation leaf_eq l1 l2
  | _, _ => false
  end.
End Hash.
Arguments Leaf {leaf} x. Arguments Empty {leaf}. Arguments Seq {leaf} l. Arguments Var {leaf} type_id v. Arguments Cont {leaf} l. Arguments Bag {leaf} l.
