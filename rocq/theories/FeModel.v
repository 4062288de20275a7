(* Model of the front end of the specification language: how the forms inside match-params-fn become operations,
   /repo/include/nbdl/spec.sld:51-91, 248-446, 462-651, and close-previous-scope,
   /repo/tool/heavy_plugins/lib/Nbdl/Nbdl.cpp:167-195.  The assertion there (178-179), that the block is that of the function
   itself, is taken not to be compiled in; it does not hold for the second key of a path (see FeProps). *)
From Verif Require Import Base TrModel.
Open Scope N_scope.

(* ---- the forms ---- *)

(* A variable is a level: the stores of the function from 0 on, then what the clauses of match bind.
   Keys of a path, 371-398: symbols, numbers, strings, names of members (.m), variables and paths. *)
Inductive node := NSym (s : list N) | NNum (z : Z) | NStr (s : list N) | NMember (m : list N) | NVar (v : nat) | NPath (root : nat) (l : nodes)
with nodes := NNil | NCons (n : node) (r : nodes).

(* what an argument of visit, or a condition, may be; (get root key ...), 435-446; (visit callee arg ...), 529-543 *)
Inductive expr := EVar (v : nat) | ESym (s : list N) | ENum (z : Z) | EStr (s : list N) | EPath (root : nat) (l : nodes) | EVisit (c : callee) (args : exprs)
with callee := CMember (m : list N) | CExpr (e : expr)
with exprs := XNil | XCons (e : expr) (r : exprs).

(* A clause of match has a type and binds a variable; a body is a sequence of forms. *)
Inductive form :=
| Fn (args : exprs)                                  (* (fn arg ...), the resolver, 248-262 *)
| VisitF (c : callee) (args : exprs)
| MatchF (e : expr) (cs : clauses)                   (* 554-604 *)
| IfF (c : expr) (t e : forms)                       (* 617-651; without an else: no forms *)
| NoopF (v : nat)                                    (* 609-615 *)
with forms := FNil | FCons (f : form) (r : forms)
with clauses := KNil | KCons (type : list N) (body : forms) (r : clauses).

(* ---- building ---- *)

(* the block at the insertion point and the next value *)
Record gst := { blk : list op; next : nat }.
Fixpoint to_block (l : list op) : block := match l with [] => BNil | o :: r => BCons o (to_block r) end.
Definition emit (o : op) (s : gst) : gst := {| blk := blk s ++ [o]; next := next s |}.
Definition emit_value (f : nat -> op) (s : gst) : gst := {| blk := blk s ++ [f (next s)]; next := S (next s) |}.

(* Nbdl.td: the operations with the trait Terminator *)
Definition terminator (o : op) : bool := match o with Discard | NoOp _ | Match _ _ _ | MatchIf _ _ _ => true | _ => false end.
Fixpoint ends (l : list op) : bool := match l with [] => false | [o] => terminator o | _ :: r => ends r end.

(* Nbdl.cpp:171-195 *)
Definition close (s : gst) : gst := if ends (blk s) then {| blk := [Scope (to_block (blk s))]; next := next s |} else s.

(* A continuation, as the Fn of spec.sld; None: an error is raised *)
Definition cont A := A -> gst -> option gst.

(* 350-369 %match-unit, %match-key: the continuation builds the body of the one overload *)
Definition match_key (store : operand) (key : option operand) (k : cont operand) (s : gst) : option gst :=
  let a := next s in
  match k (OVar a) {| blk := []; next := S a |} with
  | Some s' => Some {| blk := blk s ++ [Match store key (OCons [] a (to_block (blk s')) ONil)]; next := next s' |}
  | None => None
  end.

Definition lookup (sc : list nat) (v : nat) (k : cont operand) (s : gst) : option gst :=
  match nth_error sc v with Some i => k (OVar i) s | None => None end.

(* 309-348 %match-path-spec, 375-398 %match-path-node, 400-408 *)
Fixpoint gen_node (sc : list nat) (n : node) (store : operand) (k : cont operand) (s : gst) : option gst :=
  let s := close s in
  match n with
  | NSym t => match_key store (Some (OExpr t)) k (emit Silent s)
  | NNum z => match_key store (Some (OInt z)) k (emit Silent s)
  | NStr t => match_key store (Some (OStr t)) k (emit Silent s)
  | NMember m => match_key store None (fun o s => k (OVar (next s)) (emit_value (fun r => Get r o (Some (OMember m))) s)) (emit Silent s)
  | NVar v => lookup sc v (fun o => match_key store (Some o) k) s
  | NPath root l => lookup sc root (fun r s =>
      let k' := fun kv s => match_key store (Some kv) k (close s) in
      match l with NNil => k' r s | NCons _ _ => gen_nodes sc l r k' s end) s
  end
with gen_nodes (sc : list nat) (l : nodes) (store : operand) (k : cont operand) (s : gst) : option gst :=
  match l with
  | NNil => match_key store None k s                    (* finish by match with the unit key *)
  | NCons n r => gen_node sc n store (fun o => gen_nodes sc r o k) s
  end.
Definition gen_path (sc : list nat) (root : nat) (l : nodes) (k : cont operand) (s : gst) : option gst :=
  lookup sc root (fun r s => match l with NNil => k r s | NCons _ _ => gen_nodes sc l r k s end) s.

(* 51-91 maybe-build-expr, %match-expr; 287-303 %map-params; 486-519 build-visit, visit-impl *)
Fixpoint gen_expr (sc : list nat) (e : expr) (k : cont operand) (s : gst) : option gst :=
  match e with
  | EVar v => lookup sc v k s
  | ESym t => k (OExpr t) (emit Silent s)
  | ENum z => k (OInt z) (emit Silent s)
  | EStr t => k (OStr t) (emit Silent s)
  | EPath root l => gen_path sc root l k s
  | EVisit c args => gen_callee sc c (fun f => gen_exprs sc args (fun os s => k (OVar (next s)) (emit_value (fun r => Visit (Some r) f os) s))) (close s)
  end
with gen_callee (sc : list nat) (c : callee) (k : cont operand) (s : gst) : option gst :=
  match c with CMember m => k (OMember m) (emit Silent s) | CExpr e => gen_expr sc e k s end
with gen_exprs (sc : list nat) (l : exprs) (k : cont (list operand)) (s : gst) : option gst :=
  match l with
  | XNil => k [] s
  | XCons e r => gen_expr sc e (fun o => gen_exprs sc r (fun os => k (o :: os))) s
  end.

(* 248-262, 410-427: an argument of the resolver is evaluated at once, where visit has no result: 506-519 *)
Fixpoint no_visits (l : exprs) : bool := match l with XNil => true | XCons (EVisit _ _) _ => false | XCons _ r => no_visits r end.
Definition is_path (e : expr) : bool := match e with EVar _ | EPath _ _ => true | _ => false end.

Fixpoint gen_form (sc : list nat) (fn : nat) (f : form) (s : gst) : option gst :=
  match f with
  | Fn XNil => None                                     (* (car '()) *)
  | Fn args => if no_visits args then gen_exprs sc args (fun os s => Some (emit Discard (emit (Visit None (OVar fn) os) s))) (close s) else None
  | VisitF c args => gen_callee sc c (fun g => gen_exprs sc args (fun os s => Some (emit Discard (emit (Visit None g os) s)))) (close s)
  | MatchF e cs =>
      if is_path e
      then gen_expr sc e (fun o s => let s := close s in
             match gen_clauses sc fn cs (next s) with Some (os, n) => Some {| blk := blk s ++ [Match o None os]; next := n |} | None => None end) s
      else None
  | IfF c t e => gen_expr sc c (fun o s =>
      match gen_forms sc fn t {| blk := []; next := next s |} with
      | Some st => match gen_forms sc fn e {| blk := []; next := next st |} with
                   | Some se => Some {| blk := blk s ++ [MatchIf o (to_block (blk st)) (to_block (blk se))]; next := next se |}
                   | None => None
                   end
      | None => None
      end) s
  | NoopF v => lookup sc v (fun o s => Some (emit (NoOp o) s)) s
  end
with gen_forms (sc : list nat) (fn : nat) (l : forms) (s : gst) : option gst :=
  match l with
  | FNil => Some s
  | FCons f r => match gen_form sc fn f s with Some s' => gen_forms sc fn r s' | None => None end
  end
with gen_clauses (sc : list nat) (fn : nat) (cs : clauses) (n : nat) : option (overloads * nat) :=
  match cs with
  | KNil => Some (ONil, n)
  | KCons ty body r =>
      match gen_forms (sc ++ [n]) fn body {| blk := []; next := S n |} with
      | Some s => match gen_clauses sc fn r (next s) with Some (os, m) => Some (OCons ty n (to_block (blk s)) os, m) | None => None end
      | None => None
      end
  end.

(* 267-283 match-params-fn, Nbdl.cpp:54-115: the parameters are the stores and the function *)
Definition gen_func (name : list N) (stores : nat) (body : forms) : option func :=
  match gen_forms (seq 0 stores) stores body {| blk := []; next := S stores |} with
  | Some s => Some {| f_name := name; f_params := seq 0 (S stores); f_results := 0; f_body := to_block (blk s) |}
  | None => None
  end.
