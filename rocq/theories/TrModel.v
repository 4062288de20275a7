(* Model of the translation of functions to C++, /repo/tool/heavy_plugins/lib/Nbdl/NbdlTranslateCpp.cpp, over the operations of
   /repo/tool/heavy_plugins/include/nbdl_spec/Nbdl.td.  Here the text is what matters; the source locations that go with it
   are in LocModel. *)
From Coq Require Import String.
From Verif Require Import Base RouteModel.
Open Scope N_scope.

(* ---- the operations, Nbdl.td ---- *)

(* A value (mlir::Value).  The values of the operations that have no effect and no operands, which WriteExpr looks at
   through getDefiningOp, stand for themselves: nbdl.literal (Nbdl.td:123-132), nbdl.constexpr (212-218), nbdl.member_name
   (220-227), nbdl.unit (351-358).  OVar is the result of another operation or a block argument. *)
Inductive operand := OVar (v : nat) | OInt (z : Z) | OStr (s : list N) | OExpr (s : list N) | OMember (n : list N) | OUnit.

(* [Silent] is one of those operations at the place where it is in its block *)
Inductive op :=
| Silent
| Get (r : nat) (state : operand) (key : option operand)                  (* Nbdl.td:134-147 *)
| Visit (r : option nat) (fn : operand) (args : list operand)             (* 375-384; no result: its type is unit *)
| Discard                                                                 (* 360-373 *)
| NoOp (a : operand)                                                      (* 193-199 *)
| Match (store : operand) (key : option operand) (os : overloads)         (* 149-179 *)
| MatchIf (c : operand) (t e : block)                                     (* 201-210 *)
| Compose (r : nat) (key : option operand) (lhs rhs : operand)            (* 229-250 *)
| Const (r : nat) (a : operand)                                           (* 400-412; a use of it is not modelled: see write_op *)
| Scope (b : block)                                                       (* 414-430 *)
with block := BNil | BCons (o : op) (b : block)
with overloads := ONil | OCons (type : list N) (arg : nat) (body : block) (r : overloads).  (* 181-191; with a body *)

Record func := { f_name : list N; f_params : list nat; f_results : nat; f_body : block }.

(* Nbdl.td:141-146 hasUnitKey, the same at 173-178 *)
Definition unit_key (k : option operand) : bool := match k with None | Some OUnit => true | _ => false end.

(* ---- the writer ---- *)

(* NbdlTranslateCpp.cpp:39, 53: the names of values, and the counter; a function has one scope of names (400) *)
Record wst := { names : list (nat * list N); count : N }.

(* Bad: undefined behaviour; Failed: an error is set *)
Inductive wres (A : Type) := Wrote (a : A) | Failed | Bad.
Arguments Wrote {A} a. Arguments Failed {A}. Arguments Bad {A}.
Definition wbind {A B} (x : wres A) (f : A -> wres B) : wres B := match x with Wrote a => f a | Failed => Failed | Bad => Bad end.
Notation "'do' x <- e ; k" := (wbind e (fun x => k)) (at level 200, x pattern, e at level 100, k at level 200).

Fixpoint find_name (v : nat) (l : list (nat * list N)) : option (list N) :=
  match l with [] => None | (u, n) :: r => if Nat.eqb u v then Some n else find_name v r end.

(* 185-189 SetLocalVarName *)
Definition var_name (prefix : list N) (k : N) : list N := prefix ++ dec k.
Definition set_name (v : nat) (prefix : list N) (st : wst) : list N * wst :=
  let n := var_name prefix (count st) in (n, {| names := (v, n) :: names st; count := count st + 1 |}).

(* an integer as raw_ostream prints it *)
Definition int_text (z : Z) : list N := match z with Zneg p => 45 :: dec (Npos p) | _ => dec (Z.to_N z) end.

(* 200-219 WriteExpr, never forwarded here, with 237-243 for nbdl.constexpr, 245-257 for nbdl.literal and 156-164 GetLocalVal *)
Definition write_expr (o : operand) (st : wst) : wres (list N) :=
  match o with
  | OVar v => match find_name v (names st) with Some n => Wrote n | None => Failed end
  | OInt z => Wrote (int_text z)
  | OStr s => Wrote (34 :: s ++ [34])
  | OExpr [] => Failed
  | OExpr s => Wrote s
  | OMember _ | OUnit => Failed
  end.

Definition write_key (sep : list N) (k : option operand) (st : wst) : wres (list N) :=
  match k with
  | None => Wrote []
  | Some o => if unit_key k then Wrote [] else do t <- write_expr o st; Wrote (sep ++ t)
  end.

Fixpoint write_args (sep : list N) (l : list operand) (st : wst) : wres (list N) :=
  match l with
  | [] => Wrote []
  | [o] => write_expr o st
  | o :: r => do t <- write_expr o st; do u <- write_args sep r st; Wrote (t ++ sep ++ u)
  end.

Definition nl : list N := [10].

(* 414-436 Visit(GetOp) *)
Definition write_get (r : nat) (state : operand) (key : option operand) (st : wst) : wres (list N * wst) :=
  let '(n, st') := set_name r (bs "get_") st in
  match key with
  | Some (OMember f) => do s <- write_expr state st'; Wrote (bs "auto&& " ++ n ++ bs " = " ++ s ++ bs "." ++ f ++ bs ";" ++ nl, st')
  | _ => do s <- write_expr state st'; do k <- write_key (bs ", ") key st';
         Wrote (bs "auto&& " ++ n ++ bs " = " ++ bs "::nbdl::get(" ++ s ++ k ++ bs ");" ++ nl, st')
  end.

(* 438-467 Visit(VisitOp) *)
Definition write_visit (r : option nat) (fn : operand) (args : list operand) (st : wst) : wres (list N * wst) :=
  let '(lhs, st') := match r with
                     | Some v => let '(n, st') := set_name v (bs "result_") st in (bs "auto&& " ++ n ++ bs " = ", st')
                     | None => ([], st)
                     end in
  match fn with
  | OMember m => match args with
                 | [] => Failed
                 | a :: rest => do o <- write_expr a st'; do t <- write_args (bs "," ++ nl) rest st';
                                Wrote (lhs ++ o ++ bs "." ++ m ++ bs "(" ++ t ++ bs ");" ++ nl, st')
                 end
  | _ => do f <- write_expr fn st'; do t <- write_args (bs "," ++ nl) args st'; Wrote (lhs ++ f ++ bs "(" ++ t ++ bs ");" ++ nl, st')
  end.

(* 473-486 Visit(StoreComposeOp) *)
Definition write_compose (r : nat) (key : option operand) (lhs rhs : operand) (st : wst) : wres (list N * wst) :=
  let '(n, st') := set_name r (bs "result_") st in
  do k <- (match key with
           | None => Wrote []
           | Some o => if unit_key key then Wrote [] else do t <- write_expr o st'; Wrote (t ++ bs ",")
           end);
  do rh <- write_expr rhs st'; do lh <- write_expr lhs st';
  Wrote (bs "auto " ++ n ++ bs " = ::nbdl::store_compose(" ++ k ++ rh ++ bs "," ++ lh ++ bs ");" ++ nl, st').

Definition is_match_if (o : op) : bool := match o with MatchIf _ _ _ => true | _ => false end.

(* 347-379 Visit(Operation), VisitRegion, 488-492 Visit(NoOp), 494-516 Visit(MatchOp), 518-535 Visit(OverloadOp), 537-555 Visit(MatchIfOp) *)
Fixpoint write_op (o : op) (st : wst) : wres (list N * wst) :=
  match o with
  | Silent | Discard => Wrote ([], st)
  | Get r s k => write_get r s k st
  | Visit r f a => write_visit r f a st
  | NoOp a => do t <- write_expr a st; Wrote (bs "(void)" ++ t ++ bs ";" ++ nl, st)
  | Match s k os =>
      do t <- write_expr s st; do u <- write_key (bs ", ") k st;
      do (l, st') <- write_overloads os st;
      Wrote (bs "::nbdl::match(" ++ t ++ u ++ bs ", " ++
             (match os with OCons _ _ _ ONil => l | _ => bs "boost::hana::overload(" ++ l ++ bs ")" end) ++ bs ");" ++ nl, st')
  | MatchIf c t e =>
      do x <- write_expr c st; do (bt, st1) <- write_block t st;
      match e with
      | BNil => Bad      (* Else.front().front() of an empty block *)
      | BCons o _ =>
          if is_match_if o
          then do (be, st2) <- write_op o st1; Wrote (bs "if (" ++ x ++ bs ") {" ++ nl ++ bt ++ bs "} else " ++ be, st2)
          else do (be, st2) <- write_block e st1;
               Wrote (bs "if (" ++ x ++ bs ") {" ++ nl ++ bt ++ bs "} else " ++ bs "{" ++ nl ++ be ++ bs "}" ++ nl, st2)
      end
  | Compose r k l rh => write_compose r k l rh st
  | Const _ _ => Failed   (* "unhandled operation", 370-371, though WriteExpr (206-207, 259-264) knows how to write a use of it *)
  | Scope b => write_block b st
  end
with write_block (b : block) (st : wst) : wres (list N * wst) :=
  match b with
  | BNil => Wrote ([], st)
  | BCons o r => do (t, st1) <- write_op o st; do (u, st2) <- write_block r st1; Wrote (t ++ u, st2)
  end
with write_overloads (os : overloads) (st : wst) : wres (list N * wst) :=
  match os with
  | ONil => Wrote ([], st)
  | OCons ty arg body r =>
      let '(n, st0) := set_name arg (bs "arg_") st in
      do (t, st1) <- write_block body st0;
      do (u, st2) <- write_overloads r st1;
      Wrote (bs "[&]([[maybe_unused]] " ++ (match ty with [] => [] | _ => bs "::nbdl::SameAs<" ++ ty ++ bs "> " end) ++ bs "auto&& " ++ n ++ bs "){" ++ nl ++ t ++ bs "}" ++
             (match r with ONil => [] | _ => bs "," ++ nl ++ u end), st2)
  end.

Fixpoint write_params (l : list nat) (st : wst) : list N * wst :=
  match l with
  | [] => ([], st)
  | v :: r => let '(n, st1) := set_name v (bs "arg_") st in
              let '(t, st2) := write_params r st1 in
              (bs "auto&& " ++ n ++ (match r with [] => [] | _ => bs ", " ++ t end), st2)
  end.

(* 381-412 Visit(FuncOp); the body has been created with the function (Nbdl.cpp:91) *)
Definition write_func (f : func) : wres (list N) :=
  if Nat.ltb 1 (f_results f) then Failed
  else
    let '(ps, st) := write_params (f_params f) {| names := []; count := 0 |} in
    do (t, _) <- write_block (f_body f) st;
    Wrote ((if Nat.eqb (f_results f) 0 then bs "void" else bs "decltype(auto)") ++ bs " " ++ f_name f ++ bs "(" ++ ps ++ bs "){" ++ nl ++ t ++ bs "}").
