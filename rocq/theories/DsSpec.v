(* Specification of the C++ class for a store definition. *)
From Coq Require Import String Permutation.
From Verif Require Import Base RouteSpec TrModel TrSpec DsModel.
Open Scope N_scope.

(* ---- a C++ class: fields (type and name), parameters of the constructor and initialisers ---- *)
Inductive expr := Fwd (x : list N) | Plain (t : list N).
Record cls := { c_name : list N; c_fields : list (list N * list N); c_params : list (list N); c_inits : list (list N * list expr) }.

Definition expr_text (e : expr) : list N := match e with Fwd x => bs "static_cast<decltype(" ++ x ++ bs ")>(" ++ x ++ bs ")" | Plain t => t end.
Definition init_text (i : list N * list expr) (t : list N) : Prop := exists a, list_text (map expr_text (snd i)) a /\ t = fst i ++ bs "(" ++ a ++ bs ")".
Definition class_text (c : cls) (t : list N) : Prop := exists ps is l,
  list_text (map (fun x => bs "auto&& " ++ x) (c_params c)) ps /\ Forall2 init_text (c_inits c) l /\ list_text l is /\
  t = bs "class " ++ c_name c ++ bs " {" ++ nl ++ bs "public:" ++ nl ++
      flat_map (fun f => fst f ++ bs " " ++ snd f ++ bs ";" ++ nl) (c_fields c) ++
      (if Nat.eqb (length (c_params c)) 0 then [] else c_name c ++ bs "() = default;" ++ nl) ++
      bs "explicit " ++ c_name c ++ bs "(" ++ ps ++ bs ") " ++ nl ++ bs ": " ++ is ++ nl ++ bs "{ }" ++ nl ++ bs "};" ++ nl.

(* ---- moves: what is forwarded may be moved from, and is not to be used after that ---- *)
Definition used (e : expr) : list N := match e with Fwd x => x | Plain t => t end.
Definition moved_by (e : expr) : list (list N) := match e with Fwd x => [x] | Plain _ => [] end.
Fixpoint no_use_after_move (moved : list (list N)) (l : list expr) : Prop :=
  match l with [] => True | e :: r => ~ In (used e) moved /\ no_use_after_move (moved_by e ++ moved) r end.

(* the members are initialised in order, the arguments of one initialiser are evaluated in any order *)
Definition safe_moves (inits : list (list N * list expr)) : Prop :=
  forall orders, Forall2 (@Permutation expr) (map snd inits) orders -> no_use_after_move [] (concat orders).

(* ---- definitions that can be a class ---- *)
Definition param_name (x : list N) : Prop := exists k, x = arg_name k.
Definition arg_ok (n : nat) (a : arg) : Prop := match a with AArg k => (k < n)%nat | AText t => t <> [] /\ ~ param_name t | ANested => False end.
Definition member_ok (n : nat) (m : key * sval) : Prop := match snd m with VStore _ args => Forall (arg_ok n) args | _ => False end.
Definition def_ok (d : def) : Prop :=
  d_members d <> [] /\ (match d_base d with None => True | Some (VArg k) => (k < d_params d)%nat | _ => False end) /\ Forall (member_ok (d_params d)) (d_members d).

Definition args_of (v : sval) : list arg := match v with VStore _ args => args | _ => [] end.
Definition type_of (v : sval) : list N := match v with VStore ty _ => ty | _ => [] end.
(* an expression is about the argument that the definition names *)
Definition denotes (a : arg) (e : expr) : Prop := match a with AArg k => used e = arg_name k | AText t => e = Plain t | ANested => False end.
(* the name asked for, or one made up *)
Definition made_up (n : list N) : Prop := exists i, n = bs "anon_" ++ i /\ i <> [] /\ Forall digit i.
Definition asked (ms : list (key * sval)) : list (list N) := flat_map (fun m => match fst m with KMember n => [n] | KOther => [] end) ms.
Definition named (k : key) (n : list N) : Prop := match k with KMember m => n = m | KOther => made_up n end.

Definition same_class (d : def) (c : cls) : Prop :=
  length (c_params c) = d_params d /\ NoDup (c_params c) /\ c_params c = map arg_name (seq 0 (d_params d)) /\
  Forall2 (fun m f => type_of (snd m) = fst f /\ named (fst m) (snd f)) (d_members d) (c_fields c) /\
  Forall2 (fun m i => Forall2 denotes (args_of (snd m)) (snd i)) (d_members d) (c_inits c) /\
  map fst (c_inits c) = map snd (c_fields c).

(* the name without namespaces *)
Definition unqualified (s n : list N) : Prop := ~ In 58 n /\ (s = n \/ exists q, s = q ++ [58] ++ n).

(* ---- definitions without members ---- *)
Inductive type_spelled : sval -> list N -> Prop :=
| sp_store ty args : type_spelled (VStore ty args) ty
| sp_variant alts l t : Forall2 type_spelled alts l -> list_text l t -> type_spelled (VVariant alts) (bs "::nbdl::variant_holder<" ++ t ++ bs ">").
Definition tag_text (name : list N) : list N := bs "struct " ++ name ++ bs " { };" ++ nl.
(* a class of its own with the constructors and assignments of the type *)
Definition alias_text (name ty : list N) : list N := bs "class " ++ name ++ bs " : public nbdl::strong_alias<" ++ ty ++ bs "> {" ++ nl ++ bs "public:" ++ nl ++
  bs "using Base = nbdl::strong_alias<" ++ ty ++ bs ">;" ++ nl ++ bs "using Base::Base;" ++ nl ++ bs "using Base::operator=;" ++ nl ++ bs "};" ++ nl.
(* an argument somewhere in it *)
Inductive mentions_arg : sval -> Prop := ma_here k : mentions_arg (VArg k) | ma_in alts v : In v alts -> mentions_arg v -> mentions_arg (VVariant alts).
(* the class of a context: public members with the given names and types, each made from the given arguments *)
Definition context_class (formals : nat) (ms : list cmember) (c : cls) : Prop :=
  c_params c = map arg_name (seq 0 formals) /\
  c_fields c = map (fun m => (m_type m, m_name m)) ms /\
  Forall2 (fun m i => fst i = m_name m /\ Forall2 denotes (m_args m) (snd i)) ms (c_inits c).
(* a class over another one, with its constructors: the alias must be of the base *)
Definition over_text (name base alias : list N) : list N := bs "class " ++ name ++ bs " : " ++ base ++ bs " {" ++ nl ++ bs "using Base = " ++ alias ++ bs ";" ++ nl ++
  bs " using Base::Base;" ++ nl ++ bs "};" ++ nl.
