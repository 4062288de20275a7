(* Model of the macros that declare entities and metastructs, with what is made of them: /repo/include/nbdl/macros/VFUNC.hpp, NBDL_MEMBERS.hpp,
   NBDL_MEMBER_NAMES.hpp, NBDL_ENTITY.hpp, /repo/include/nbdl/fwd/entity_members.hpp, entity_members.hpp, bind_sequence.hpp, bind_map.hpp;
   /repo/include/mpdef/MPDEF_VFUNC.hpp, MPDEF_METASTRUCT.hpp, metastruct.hpp, details/_MPDEF_METASTRUCT_KEYS.hpp,
   _MPDEF_METASTRUCT_SPEC_NAMES.hpp; /repo/include/mpdef/compose_collectors.hpp, append_if.hpp.
   Identifiers are numbers.  The 63 versions of each macro that differ only in their number are one function with the number as an argument.
   None: does not compile. *)
From Verif Require Import Base.
Open Scope nat_scope.

(* an argument of a macro *)
Inductive tok := Id (x : N) | Num (n : nat) | Blank.

(* __RSEQ_N, VFUNC.hpp:20-27 and MPDEF_VFUNC.hpp:20-27 *)
Definition rseq : list tok := map Num (rev (seq 0 64)).
(* __NARG__, VFUNC.hpp:10-19, MPDEF_VFUNC.hpp:10-19: the 64th argument of the arguments followed by the numbers *)
Definition narg (args : list tok) : option tok := nth_error (args ++ rseq) 63.
(* VFUNC, VFUNC.hpp:30-32, MPDEF_VFUNC.hpp:30-32: the name with the number behind it; with another token behind it, it is not the name of a macro *)
Definition vfunc {A} (f : nat -> list tok -> option A) (args : list tok) : option A :=
  match narg args with Some (Num n) => f n args | _ => None end.

(* ---- entities ---- *)

(* NBDL_MEMBERSn, NBDL_MEMBERS.hpp:14-137, and NBDL_MEMBER_NAMESn, NBDL_MEMBER_NAMES.hpp:14-136: n - 1 members *)
Fixpoint member_list (n : nat) (ms : list tok) : option (list N) :=
  match n, ms with
  | S (S (S k)), Id m :: r => option_map (cons m) (member_list (S (S k)) r)
  | 2, [Id m] => Some [m]
  | _, _ => None
  end.
Definition members (args : list tok) : option (list N) :=
  vfunc (fun n args => match args with Id _ :: ms => member_list n ms | _ => None end) args.

(* a class and where its members come from: decltype(&C::m) names the class that m is declared in, which may be a base *)
Record class := { cname : N; owner : N -> option N }.
Record entity := { record : class; declared : list N }.
(* the specializations that an entity makes: member_name_impl of the owner and the member, fwd/entity_members.hpp:114-120 *)
Definition specializations (e : entity) : list (option N * N) := map (fun m => (owner (record e) m, m)) (declared e).

Definition pair_eqb (a b : option N * N) : bool :=
  match fst a, fst b with Some x, Some y => N.eqb x y | None, None => true | _, _ => false end && N.eqb (snd a) (snd b).
Fixpoint no_dup {A} (eqb : A -> A -> bool) (l : list A) : bool :=
  match l with [] => true | x :: r => negb (existsb (eqb x) r) && no_dup eqb r end.

(* NBDL_ENTITY, NBDL_ENTITY.hpp:14-23.  An empty list of arguments is one empty argument *)
Definition nbdl_entity (c : class) (args : list tok) : option entity :=
  match members (Id (cname c) :: match args with [] => [Blank] | _ => args end) with
  | Some ms => if forallb (fun m => match owner c m with Some _ => true | None => false end) ms then Some {| record := c; declared := ms |} else None
  | None => None
  end.
(* all entities of a program: nothing is specialized twice *)
Fixpoint declare (l : list (class * list tok)) : option (list entity) :=
  match l with
  | [] => Some []
  | (c, args) :: r => match nbdl_entity c args, declare r with Some e, Some es => Some (e :: es) | _, _ => None end
  end.
Definition program (l : list (class * list tok)) : option (list entity) :=
  match declare l with
  | Some es => if no_dup N.eqb (map (fun e => cname (record e)) es) && no_dup pair_eqb (flat_map specializations es) then Some es else None
  | None => None
  end.

(* an object: the values of all members of its class *)
Definition object (V : Type) : Type := N -> V.
Definition set {V} (o : object V) (m : N) (v : V) : object V := fun x => if N.eqb x m then v else o x.
(* get_member with a string, entity_members.hpp:43-58: the member that has the name, by the map of the names *)
Definition get_member {V} (e : entity) (o : object V) (name : N) : option V :=
  match find (fun p => N.eqb (fst p) name) (map (fun m => (m, m)) (declared e)) with Some p => Some (o (snd p)) | None => None end.
(* bind_sequence.hpp:54-66: the function is given references to the members *)
Definition bind_sequence {V} (e : entity) (o : object V) : list V := map o (declared e).
(* bind_map.hpp:36-51 *)
Definition bind_map {V} (e : entity) (o : object V) : list (N * V) := map (fun m => (m, o m)) (declared e).
(* and may assign to them, in order *)
Fixpoint assign_to {V} (o : object V) (ms : list N) (vs : list V) : object V :=
  match ms, vs with m :: ms, v :: vs => assign_to (set o m v) ms vs | _, _ => o end.
Definition bind_assign {V} (e : entity) (vs : list V) (o : object V) : object V := assign_to o (declared e) vs.

(* ---- metastructs ---- *)

(* _MPDEF_METASTRUCT_KEYSn, _MPDEF_METASTRUCT_KEYS.hpp:12-203: the name and the index of each key *)
Fixpoint key_list (length n : nat) (names : list tok) : option (list (N * nat)) :=
  match n, names with
  | 1, [Id x] => Some [(x, length - 1)]
  | S k, Id x :: r => option_map (cons (x, length - n)) (key_list length k r)
  | _, _ => None
  end.
(* _MPDEF_METASTRUCT_SPEC_NAMESn *)
Fixpoint spec_list (n : nat) (names : list tok) : option (list N) :=
  match n, names with
  | 1, [Id x] => Some [x]
  | S k, Id x :: r => option_map (cons x) (spec_list k r)
  | _, _ => None
  end.
Record metastruct := { keys : list (N * nat); spec : list nat }.
Definition key_of (m : metastruct) (x : N) : option nat := option_map snd (find (fun p => N.eqb (fst p) x) (keys m)).
Fixpoint all_some {A} (l : list (option A)) : option (list A) :=
  match l with [] => Some [] | Some x :: r => option_map (cons x) (all_some r) | None :: _ => None end.
(* MPDEF_METASTRUCT.hpp:13-22; the spec lists the keys by their names; a name that is there twice is declared twice *)
Definition mpdef_metastruct (names : list tok) : option metastruct :=
  match narg names with
  | Some (Num length) =>
      match vfunc (key_list length) names, vfunc spec_list names with
      | Some ks, Some ns => if no_dup N.eqb (map fst ks)
                            then match all_some (map (fun x => option_map snd (find (fun p => N.eqb (fst p) x) ks)) ns) with
                                 | Some sp => Some {| keys := ks; spec := sp |}
                                 | None => None
                                 end
                            else None
      | _, _ => None
      end
  | _ => None
  end.
(* make_metastruct, metastruct.hpp:48-59: the values as they are *)
Definition make_metastruct {V} (_ : metastruct) (vs : list V) : list V := vs.
(* at_fn::operator(), metastruct.hpp:28-36 *)
Definition at_fn {V} (i : nat) (vs : list V) : option V := nth_error vs i.
(* mpdef::map, map.hpp:27-52: a key that is there twice is ambiguous *)
Definition at_key {V} (ps : list (nat * V)) (k : nat) : option V :=
  match filter (fun p => Nat.eqb (fst p) k) ps with [p] => Some (snd p) | _ => None end.
(* make_metastruct_with_map, metastruct.hpp:61-79; NAME = value is a pair of the key and the value *)
Definition make_metastruct_with_map {V} (m : metastruct) (ps : list (nat * V)) : option (list V) :=
  if Nat.eqb (length ps) (length (spec m)) then option_map (make_metastruct m) (all_some (map (at_key ps) (spec m))) else None.

(* ---- collectors ---- *)

(* compose_collectors.hpp:19-40: the i-th collector gets the i-th state *)
Fixpoint compose_at {S X} (i : nat) (cs : list (S -> X -> S)) (state : list S) (x : X) : option (list S) :=
  match cs with
  | [] => Some []
  | c :: r => match nth_error state i, compose_at (Datatypes.S i) r state x with Some s, Some ss => Some (c s x :: ss) | _, _ => None end
  end.
Definition compose_collectors {S X} (cs : list (S -> X -> S)) (state : list S) (x : X) : option (list S) := compose_at 0 cs state x.
(* hana::fold *)
Fixpoint fold {S X} (f : S -> X -> option S) (xs : list X) (s : S) : option S :=
  match xs with [] => Some s | x :: r => match f s x with Some s' => fold f r s' | None => None end end.
(* append_if.hpp:17-55 *)
Definition append_if {X} (pred : X -> bool) (state : list X) (x : X) : list X := if pred x then state ++ [x] else state.
