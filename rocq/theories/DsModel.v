(* Model of the translation of store definitions to C++ classes,
   /repo/tool/heavy_plugins/lib/Nbdl/NbdlTranslateCpp.cpp:266-340 and 586-797 (DefineStoreWriter), over the operations of
   /repo/tool/heavy_plugins/include/nbdl_spec/Nbdl.td:229-349 and as /repo/include/nbdl/spec.sld:139-231 builds them. *)
From Coq Require Import String.
From Verif Require Import Base RouteModel TrModel.
Open Scope N_scope.

(* ---- a definition ---- *)

(* An operand of nbdl.store: an argument of the definition, a literal or constexpr (its text), or another store. *)
Inductive arg := AArg (k : nat) | AText (t : list N) | ANested.

(* What is composed: nbdl.store, nbdl.variant or an argument. *)
Inductive sval := VStore (ty : list N) (args : list arg) | VVariant (alts : list sval) | VArg (k : nat).
Inductive key := KMember (n : list N) | KOther.

(* Nbdl.td:260-291.  The result of the body is d_base with the members added one after another (nbdl.store_compose; the
   parent is its rhs); None is nbdl.unit.  Every nbdl.store is used once. *)
Record def := { d_sym : list N; d_params : nat; d_base : option sval; d_members : list (key * sval) }.

(* llvm::StringRef::rfind and take_back *)
Fixpoint rfind (c : N) (s : list N) : option nat :=
  match s with
  | [] => None
  | x :: r => match rfind c r with Some i => Some (S i) | None => if x =? c then Some 0%nat else None end
  end.
Definition take_back (n : option nat) (s : list N) : list N :=
  match n with None => s | Some n => skipn (length s - n) s end.

(* Nbdl.td:286-290 getName *)
Definition get_name (sym : list N) : list N := take_back (rfind 58 sym) sym.

(* ---- types, 270-312; an argument is of type store, not opaque (285-293) ---- *)
Fixpoint comma_list (l : list (list N)) : list N :=
  match l with [] => [] | [x] => x | x :: r => x ++ bs ", " ++ comma_list r end.
Fixpoint all_wrote {A} (l : list (wres A)) : wres (list A) :=
  match l with [] => Wrote [] | x :: r => do a <- x; do t <- all_wrote r; Wrote (a :: t) end.
Fixpoint type_text (v : sval) : wres (list N) :=
  match v with
  | VStore ty _ => Wrote ty
  | VVariant alts => do l <- all_wrote (map type_text alts); Wrote (bs "::nbdl::variant_holder<" ++ comma_list l ++ bs ">")
  | VArg _ => Failed
  end.

(* ---- members, 681-710: the names of the arguments and of members without a name share a counter ---- *)
Definition arg_name (k : nat) : list N := var_name (bs "arg_") (N.of_nat k).
Fixpoint member_names (ms : list (key * sval)) (count : N) : list (list N) :=
  match ms with
  | [] => []
  | (KMember n, _) :: r => n :: member_names r count
  | (KOther, _) :: r => var_name (bs "anon_") count :: member_names r (count + 1)
  end.
Fixpoint write_fields (ms : list (key * sval)) (ns : list (list N)) : wres (list N) :=
  match ms, ns with
  | (_, v) :: r, n :: ns => do t <- type_text v; do u <- write_fields r ns; Wrote (t ++ bs " " ++ n ++ bs ";" ++ nl ++ u)
  | _, _ => Wrote []
  end.

(* ---- the constructor, 712-797 ---- *)

(* how often an argument is used, mlir::Value::hasOneUse *)
Definition is_arg (k : nat) (a : arg) : bool := match a with AArg j => Nat.eqb j k | _ => false end.
Definition count_args (k : nat) (l : list arg) : nat := length (filter (is_arg k) l).
Fixpoint uses (k : nat) (v : sval) : nat :=
  match v with
  | VStore _ args => count_args k args
  | VVariant alts => list_sum (map (uses k) alts)
  | VArg j => if Nat.eqb j k then 1 else 0
  end.
Definition total_uses (d : def) (k : nat) : nat :=
  (match d_base d with Some v => uses k v | None => 0 end + list_sum (map (fun m => uses k (snd m)) (d_members d)))%nat.

(* 778-795 findUse; llvm_unreachable for anything but nbdl.store and nbdl.store_compose *)
Definition find_use (k : nat) (v : sval) : wres bool :=
  match v with VStore _ args => Wrote (Nat.ltb 0 (count_args k args)) | _ => Bad end.
(* 754-776 findLaterUse: from the composition of the store on to nbdl.cont *)
Fixpoint later_use (k : nat) (ms : list (key * sval)) : wres bool :=
  match ms with
  | [] => Wrote false
  | (_, v) :: r => do b <- find_use k v; if b then Wrote true else later_use k r
  end.

(* 736-750: the argument of an initialiser, and 200-219 *)
Definition write_init_arg (d : def) (args : list arg) (rest : list (key * sval)) (a : arg) : wres (list N) :=
  match a with
  | AArg k =>
      do fwd <- (if Nat.eqb (total_uses d k) 1 then Wrote true
                 else if Nat.eqb (count_args k args) 1 then do l <- later_use k rest; Wrote (negb l) else Wrote false);
      Wrote (if fwd : bool then bs "static_cast<decltype(" ++ arg_name k ++ bs ")>(" ++ arg_name k ++ bs ")" else arg_name k)
  | AText [] => Failed
  | AText t => Wrote t
  | ANested => Failed          (* "Name not in ValueMap" *)
  end.
Fixpoint write_inits (d : def) (ms : list (key * sval)) (ns : list (list N)) : wres (list (list N)) :=
  match ms, ns with
  | (_, VStore _ args) :: r, n :: ns =>
      do l <- all_wrote (map (write_init_arg d args r) args); do u <- write_inits d r ns; Wrote ((n ++ bs "(" ++ comma_list l ++ bs ")") :: u)
  | _ :: _, _ => Failed        (* "unsupported operation (WriteInitArgs)" *)
  | [], _ => Wrote []
  end.

(* 636-646 CreateClass *)
Definition write_class (d : def) : wres (list N) :=
  let name := get_name (d_sym d) in
  let ns := member_names (d_members d) (N.of_nat (d_params d)) in
  do fs <- write_fields (d_members d) ns;
  do is <- write_inits d (d_members d) ns;
  Wrote (bs "class " ++ name ++ bs " {" ++ nl ++ bs "public:" ++ nl ++ fs ++
         (if Nat.eqb (d_params d) 0 then [] else name ++ bs "() = default;" ++ nl) ++
         bs "explicit " ++ name ++ bs "(" ++ comma_list (map (fun k => bs "auto&& " ++ arg_name k) (seq 0 (d_params d))) ++ bs ") " ++ nl ++ bs ": " ++
         comma_list is ++ nl ++ bs "{ }" ++ nl ++ bs "};" ++ nl).

(* 623-634 CreateStrongAlias *)
Definition write_alias (d : def) (v : sval) : wres (list N) :=
  do t <- type_text v;
  Wrote (bs "class " ++ get_name (d_sym d) ++ bs " : public nbdl::strong_alias<" ++ t ++ bs "> {" ++ nl ++ bs "public:" ++ nl ++ bs "using Base = nbdl::strong_alias<" ++ t ++ bs ">;" ++ nl ++
         bs "using Base::Base;" ++ nl ++ bs "using Base::operator=;" ++ nl ++ bs "};" ++ nl).

(* 593-621 VisitDefineStore, CreateTag; 666-679: under the members may be nbdl.unit or an argument *)
Definition write_define (d : def) : wres (list N) :=
  match d_members d, d_base d with
  | [], None => Wrote (bs "struct " ++ get_name (d_sym d) ++ bs " { };" ++ nl)
  | [], Some (VArg _) => Bad                                  (* a type switch over a null operation *)
  | [], Some v => write_alias d v
  | _, (None | Some (VArg _)) => write_class d
  | _, Some _ => Failed                                       (* "unhandled operation: (WriteMemberDecl)" *)
  end.

(* spec.sld:232-246 context: a define-store of members with names, each a store with its arguments *)
Record cmember := { m_name : list N; m_type : list N; m_args : list arg }.
Definition context_def (name : list N) (formals : nat) (ms : list cmember) : def :=
  {| d_sym := name; d_params := formals; d_base := None; d_members := map (fun m => (KMember (m_name m), VStore (m_type m) (m_args m))) ms |}.

(* NbdlTranslateCpp.cpp:565-584 ContextWriter, for nbdl.context (Nbdl.td:292-317), which spec.sld does not make *)
Definition write_context_op (sym impl : list N) : list N :=
  bs "class " ++ get_name sym ++ bs " : nbdl::context_alias<" ++ impl ++ bs ", /*is_moveable=*/false> {" ++ nl ++ bs "using Base = nbdl::context_alias<" ++ impl ++
  bs ">;" ++ nl ++ bs " using Base::Base;" ++ nl ++ bs "};" ++ nl.
