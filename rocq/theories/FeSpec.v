(* What the forms of match-params-fn mean, said without operations; which bodies are meant; and what the verifier asks for. *)
From Verif Require Import Base TrModel TrSpec FeModel.
Open Scope N_scope.

Section Meaning.
Context (I : interp).
Notation V := (V I). Notation W := (W I).

Definition text_value (t : list N) : V := i_text I (no_locals I) t.

(* the object that a store shows for a key, whatever its type *)
Definition shown (x : V) (k : option V) (w : W) : outcome V * W := then_ (i_match I x k w) (fun ty_y w => (Value (snd ty_y), w)).

(* [rho] are the objects that the variables stand for *)
Fixpoint node_value (rho : list V) (n : node) (x : V) (w : W) : outcome V * W :=
  match n with
  | NSym t => shown x (Some (text_value t)) w
  | NNum z => shown x (Some (i_int I z)) w
  | NStr t => shown x (Some (i_str I t)) w
  | NMember m => then_ (shown x None w) (fun y w => i_field I y m w)
  | NVar v => given (nth_error rho v) w (fun k => shown x (Some k) w)
  | NPath root l => given (nth_error rho root) w (fun r =>
      then_ (match l with NNil => (Value r, w) | _ => nodes_value rho l r w end) (fun k w => shown x (Some k) w))
  end
with nodes_value (rho : list V) (l : nodes) (x : V) (w : W) : outcome V * W :=
  match l with
  | NNil => shown x None w
  | NCons n r => then_ (node_value rho n x w) (fun y w => nodes_value rho r y w)
  end.

Definition path_value (rho : list V) (root : nat) (l : nodes) (w : W) : outcome V * W :=
  given (nth_error rho root) w (fun r => match l with NNil => (Value r, w) | _ => nodes_value rho l r w end).

(* a callee is a member of the first argument or an object *)
Definition call (c : list N + V) (xs : list V) (w : W) : outcome V * W :=
  match c, xs with inl m, x :: xs => i_method I x m xs w | inl _, [] => (IllFormed, w) | inr f, xs => i_call I f xs w end.

Fixpoint expr_value (rho : list V) (e : expr) (w : W) : outcome V * W :=
  match e with
  | EVar v => given (nth_error rho v) w (fun x => (Value x, w))
  | ESym t => (Value (text_value t), w)
  | ENum z => (Value (i_int I z), w)
  | EStr t => (Value (i_str I t), w)
  | EPath root l => path_value rho root l w
  | EVisit c args => then_ (callee_value rho c w) (fun f w => then_ (exprs_value rho args w) (fun xs w => call f xs w))
  end
with callee_value (rho : list V) (c : callee) (w : W) : outcome (list N + V) * W :=
  match c with CMember m => (Value (inl m), w) | CExpr e => then_ (expr_value rho e w) (fun x w => (Value (inr x), w)) end
with exprs_value (rho : list V) (l : exprs) (w : W) : outcome (list V) * W :=
  match l with
  | XNil => (Value [], w)
  | XCons e r => then_ (expr_value rho e w) (fun x w => then_ (exprs_value rho r w) (fun xs w => (Value (x :: xs), w)))
  end.

(* forms are run one after another; [fn] is the function given *)
Fixpoint run_form (rho : list V) (fn : V) (f : form) (w : W) : outcome unit * W :=
  match f with
  | Fn args => then_ (exprs_value rho args w) (fun xs w => then_ (i_call I fn xs w) (fun _ w => (Value tt, w)))
  | VisitF c args => then_ (callee_value rho c w) (fun g w => then_ (exprs_value rho args w) (fun xs w => then_ (call g xs w) (fun _ w => (Value tt, w))))
  | MatchF e cs => then_ (expr_value rho e w) (fun x w => then_ (i_match I x None w) (fun ty_y w => run_clauses rho fn cs (fst ty_y) (snd ty_y) w))
  | IfF c t e => then_ (expr_value rho c w) (fun x w => if i_truth I x then run_forms rho fn t w else run_forms rho fn e w)
  | NoopF v => (Value tt, w)
  end
with run_forms (rho : list V) (fn : V) (l : forms) (w : W) : outcome unit * W :=
  match l with
  | FNil => (Value tt, w)
  | FCons f r => then_ (run_form rho fn f w) (fun _ w => run_forms rho fn r w)
  end
with run_clauses (rho : list V) (fn : V) (cs : clauses) (ty : list N) (x : V) (w : W) : outcome unit * W :=
  match cs with
  | KNil => (IllFormed, w)
  | KCons t body r => if bytes_eqb t [] || bytes_eqb t ty then run_forms (rho ++ [x]) fn body w else run_clauses rho fn r ty x w
  end.
End Meaning.

(* ---- the bodies that are meant ---- *)

(* [n] variables are in scope; a variable is one of those, a symbol is not empty, a string needs no escapes (C70) *)
Fixpoint node_ok (n : nat) (k : node) : Prop :=
  match k with
  | NSym t => t <> [] | NNum _ | NMember _ => True | NStr t => plain_string t | NVar v => (v < n)%nat
  | NPath root l => (root < n)%nat /\ nodes_ok n l
  end
with nodes_ok (n : nat) (l : nodes) : Prop := match l with NNil => True | NCons k r => node_ok n k /\ nodes_ok n r end.

Fixpoint expr_ok (n : nat) (e : expr) : Prop :=
  match e with
  | EVar v => (v < n)%nat
  | ESym t => t <> [] | ENum _ => True | EStr t => plain_string t
  | EPath root l => (root < n)%nat /\ nodes_ok n l
  | EVisit c args => callee_ok n c args /\ exprs_ok n args
  end
with callee_ok (n : nat) (c : callee) (args : exprs) : Prop := match c with CMember _ => args <> XNil | CExpr e => expr_ok n e end
with exprs_ok (n : nat) (l : exprs) : Prop := match l with XNil => True | XCons e r => expr_ok n e /\ exprs_ok n r end.

Fixpoint clause_types (cs : clauses) : list (list N) := match cs with KNil => [] | KCons t _ r => t :: clause_types r end.

(* the forms that may follow another one *)
Definition may_follow (f : form) : Prop :=
  match f with Fn _ | VisitF _ _ | MatchF _ _ => True | IfF (EPath _ (NCons _ _)) _ _ | IfF (EVisit _ _) _ _ => True | _ => False end.
Fixpoint follow_ok (l : forms) : Prop := match l with FNil => True | FCons f r => may_follow f /\ follow_ok r end.

(* no argument is a call; a store or a path *)
Fixpoint no_calls (l : exprs) : Prop := match l with XNil => True | XCons e r => match e with EVisit _ _ => False | _ => no_calls r end end.
Definition a_path (e : expr) : Prop := match e with EVar _ => True | EPath _ _ => True | _ => False end.

(* the arguments of the function given are not calls, and there is one at least; what is matched is a store or a path; a type
   is not matched twice and what takes anything comes last (C70); bodies are not empty, also those of else *)
Fixpoint form_ok (n : nat) (f : form) : Prop :=
  match f with
  | Fn args => args <> XNil /\ no_calls args /\ exprs_ok n args
  | VisitF c args => callee_ok n c args /\ exprs_ok n args
  | MatchF e cs => a_path e /\ expr_ok n e /\ types_ok (clause_types cs) /\ clauses_ok n cs
  | IfF c t e => expr_ok n c /\ body_ok n t /\ body_ok n e
  | NoopF v => (v < n)%nat
  end
with body_ok (n : nat) (l : forms) : Prop := match l with FNil => False | FCons f r => form_ok n f /\ follow_ok r /\ rest_ok n r end
with rest_ok (n : nat) (l : forms) : Prop := match l with FNil => True | FCons f r => form_ok n f /\ rest_ok n r end
with clauses_ok (n : nat) (cs : clauses) : Prop := match cs with KNil => True | KCons _ body r => body_ok (S n) body /\ clauses_ok n r end.

(* the texts in a body *)
Fixpoint node_texts (k : node) : list (list N) := match k with NSym t => [t] | NPath _ l => nodes_texts l | _ => [] end
with nodes_texts (l : nodes) : list (list N) := match l with NNil => [] | NCons k r => node_texts k ++ nodes_texts r end.
Fixpoint expr_texts (e : expr) : list (list N) :=
  match e with ESym t => [t] | EPath _ l => nodes_texts l | EVisit c args => callee_texts c ++ exprs_texts args | _ => [] end
with callee_texts (c : callee) : list (list N) := match c with CMember _ => [] | CExpr e => expr_texts e end
with exprs_texts (l : exprs) : list (list N) := match l with XNil => [] | XCons e r => expr_texts e ++ exprs_texts r end.
Fixpoint form_texts (f : form) : list (list N) :=
  match f with
  | Fn args => exprs_texts args
  | VisitF c args => callee_texts c ++ exprs_texts args
  | MatchF e cs => expr_texts e ++ clauses_texts cs
  | IfF c t e => expr_texts c ++ forms_texts t ++ forms_texts e
  | NoopF _ => []
  end
with forms_texts (l : forms) : list (list N) := match l with FNil => [] | FCons f r => form_texts f ++ forms_texts r end
with clauses_texts (cs : clauses) : list (list N) := match cs with KNil => [] | KCons _ b r => forms_texts b ++ clauses_texts r end.

(* ---- the verifier: a block ends with a terminator and has no other; Nbdl.td ---- *)

Definition terminates (o : op) : Prop := match o with Discard | NoOp _ | Match _ _ _ | MatchIf _ _ _ => True | _ => False end.
Fixpoint op_verified (o : op) : Prop :=
  match o with
  | Match _ _ os => overloads_verified os
  | MatchIf _ t e => block_verified t /\ block_verified e
  | Scope b => block_verified b
  | _ => True
  end
with block_verified (b : block) : Prop :=
  match b with BNil => False | BCons o r => op_verified o /\ match r with BNil => terminates o | BCons _ _ => ~ terminates o /\ block_verified r end end
with overloads_verified (os : overloads) : Prop := match os with ONil => True | OCons _ _ b r => block_verified b /\ overloads_verified r end.
