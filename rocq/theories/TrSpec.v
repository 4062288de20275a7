(* The C++ that the translation may write: its grammar and what it does; and what the operations do. *)
From Coq Require Import String.
From Verif Require Import Base RouteSpec TrModel.
Open Scope N_scope.

(* ---- a fragment of C++ ---- *)

(* An expression is its text.  [x] are the names of variables. *)
Inductive stmt :=
| SGet (x : list N) (e : list N) (k : option (list N))             (* auto&& x = ::nbdl::get(e, k); *)
| SField (x : list N) (e : list N) (f : list N)                    (* auto&& x = e.f; *)
| SCall (x : option (list N)) (f : list N) (args : list (list N))  (* auto&& x = f(args); *)
| SMethod (x : option (list N)) (e m : list N) (args : list (list N))
| SCompose (x : list N) (k : option (list N)) (rhs lhs : list N)   (* auto x = ::nbdl::store_compose(k, rhs, lhs); *)
| SVoid (e : list N)                                               (* (void)e; *)
| SMatch (e : list N) (k : option (list N)) (ls : lambdas)         (* ::nbdl::match(e, k, visitor); *)
| SIf (c : list N) (t e : stmts)
with stmts := SNil | SCons (s : stmt) (r : stmts)
with lambdas := LNil | LCons (type : list N) (x : list N) (body : stmts) (r : lambdas).  (* type "": any *)

Record program := { p_name : list N; p_params : list (list N); p_void : bool; p_body : stmts }.

(* literals *)
Definition decimal (t : list N) (z : Z) : Prop :=
  exists ds, ds <> [] /\ Forall digit ds /\ (hd 0 ds = 48 -> ds = [48]) /\
    ((t = ds /\ z = Z.of_N (number ds)) \/ (t = 45 :: ds /\ number ds <> 0 /\ z = (- Z.of_N (number ds))%Z)).
Definition escape (c : N) : list N := if c =? 34 then [92; 34] else if c =? 92 then [92; 92] else if c =? 10 then [92; 110] else if c =? 13 then [92; 114] else [c].
Definition string_literal (t s : list N) : Prop := t = 34 :: flat_map escape s ++ [34].

Definition letter (c : N) : Prop := 65 <= c <= 90 \/ c = 95 \/ 97 <= c <= 122.
Definition identifier (n : list N) : Prop := exists c r, n = c :: r /\ letter c /\ Forall (fun d => letter d \/ digit d) r.

(* a comma and white space *)
Definition comma (s : list N) : Prop := exists w, s = 44 :: w /\ Forall (fun c => c = 32 \/ c = 10) w.

Inductive list_text : list (list N) -> list N -> Prop :=
| lt_nil : list_text [] []
| lt_one e : list_text [e] e
| lt_cons e r c t : comma c -> r <> [] -> list_text r t -> list_text (e :: r) (e ++ c ++ t).

Definition with_key (k : option (list N)) (l : list (list N)) : list (list N) := match k with Some x => x :: l | None => l end.

Definition declaration (x : option (list N)) : list N := match x with Some n => bs "auto&& " ++ n ++ bs " = " | None => [] end.

Inductive stmt_text : stmt -> list N -> Prop :=
| st_get x e k a : list_text (e :: with_key k []) a -> stmt_text (SGet x e k) (declaration (Some x) ++ bs "::nbdl::get(" ++ a ++ bs ");" ++ nl)
| st_field x e f : stmt_text (SField x e f) (declaration (Some x) ++ e ++ bs "." ++ f ++ bs ";" ++ nl)
| st_call x f args a : list_text args a -> stmt_text (SCall x f args) (declaration x ++ f ++ bs "(" ++ a ++ bs ");" ++ nl)
| st_method x e m args a : list_text args a -> stmt_text (SMethod x e m args) (declaration x ++ e ++ bs "." ++ m ++ bs "(" ++ a ++ bs ");" ++ nl)
| st_compose x k rhs lhs a : list_text (with_key k [rhs; lhs]) a -> stmt_text (SCompose x k rhs lhs) (bs "auto " ++ x ++ bs " = ::nbdl::store_compose(" ++ a ++ bs ");" ++ nl)
| st_void e : stmt_text (SVoid e) (bs "(void)" ++ e ++ bs ";" ++ nl)
| st_match e k ls v a : visitor_text ls v -> list_text (e :: with_key k [v]) a -> stmt_text (SMatch e k ls) (bs "::nbdl::match(" ++ a ++ bs ");" ++ nl)
| st_if c t e a b : stmts_text t a -> else_text e b -> stmt_text (SIf c t e) (bs "if (" ++ c ++ bs ") {" ++ nl ++ a ++ bs "} else " ++ b)
with else_text : stmts -> list N -> Prop :=
| else_block e b : stmts_text e b -> else_text e (bs "{" ++ nl ++ b ++ bs "}" ++ nl)
| else_if c t e b : stmt_text (SIf c t e) b -> else_text (SCons (SIf c t e) SNil) b
with stmts_text : stmts -> list N -> Prop :=
| ss_nil : stmts_text SNil []
| ss_cons s r a b : stmt_text s a -> stmts_text r b -> stmts_text (SCons s r) (a ++ b)
with visitor_text : lambdas -> list N -> Prop :=
| vt_one ty x body a : lambda_text ty x body a -> visitor_text (LCons ty x body LNil) a
| vt_overload ls a l : lambdas_text ls l -> list_text l a -> visitor_text ls (bs "boost::hana::overload(" ++ a ++ bs ")")
with lambdas_text : lambdas -> list (list N) -> Prop :=
| ls_nil : lambdas_text LNil []
| ls_cons ty x body r a l : lambda_text ty x body a -> lambdas_text r l -> lambdas_text (LCons ty x body r) (a :: l)
with lambda_text : list N -> list N -> stmts -> list N -> Prop :=
| la_any x body b : stmts_text body b -> lambda_text [] x body (bs "[&]([[maybe_unused]] auto&& " ++ x ++ bs "){" ++ nl ++ b ++ bs "}")
| la_same ty x body b : ty <> [] -> stmts_text body b ->
    lambda_text ty x body (bs "[&]([[maybe_unused]] ::nbdl::SameAs<" ++ ty ++ bs "> auto&& " ++ x ++ bs "){" ++ nl ++ b ++ bs "}").

Definition program_text (p : program) (t : list N) : Prop :=
  exists ps b, list_text (map (fun x => bs "auto&& " ++ x) (p_params p)) ps /\ stmts_text (p_body p) b /\
    t = (if p_void p then bs "void" else bs "decltype(auto)") ++ bs " " ++ p_name p ++ bs "(" ++ ps ++ bs "){" ++ nl ++ b ++ bs "}".

(* ---- meaning ---- *)

(* What the operations do to objects and to the world is a parameter; anything may throw.  [i_text scope t] is the object that
   the expression [t] denotes where the local variables are those of [scope]. *)
Inductive outcome (A : Type) := Value (a : A) | Thrown | IllFormed.
Arguments Value {A} a. Arguments Thrown {A}. Arguments IllFormed {A}.

Record interp := {
  V : Type; W : Type;
  i_int : Z -> V; i_str : list N -> V;
  i_text : (list N -> option V) -> list N -> V;
  i_text_local : forall scope n v, identifier n -> scope n = Some v -> i_text scope n = v;
  i_text_int : forall scope t z, decimal t z -> i_text scope t = i_int z;
  i_text_str : forall scope t s, string_literal t s -> i_text scope t = i_str s;
  i_get : V -> option V -> W -> outcome V * W;
  i_field : V -> list N -> W -> outcome V * W;
  i_call : V -> list V -> W -> outcome V * W;
  i_method : V -> list N -> list V -> W -> outcome V * W;
  i_compose : option V -> V -> V -> W -> outcome V * W;     (* key, what is added, what it is added to *)
  i_match : V -> option V -> W -> outcome (list N * V) * W; (* the alternative's type and object *)
  i_truth : V -> bool }.

Definition then_ {A B W} (x : outcome A * W) (f : A -> W -> outcome B * W) : outcome B * W :=
  match x with (Value a, w) => f a w | (Thrown, w) => (Thrown, w) | (IllFormed, w) => (IllFormed, w) end.
Definition given {A B W} (x : option A) (w : W) (f : A -> outcome B * W) : outcome B * W := match x with Some a => f a | None => (IllFormed, w) end.
Fixpoint all_some {A} (l : list (option A)) : option (list A) :=
  match l with [] => Some [] | Some a :: r => option_map (cons a) (all_some r) | None :: _ => None end.

Section Meaning.
Context (I : interp).
Notation V := (V I). Notation W := (W I).

(* ---- the operations ---- *)

Definition no_locals (n : list N) : option V := None.
Definition operand_value (env : nat -> option V) (o : operand) : option V :=
  match o with
  | OVar v => env v
  | OInt z => Some (i_int I z)
  | OStr s => Some (i_str I s)
  | OExpr s => Some (i_text I no_locals s)
  | OMember _ | OUnit => None
  end.
Definition key_value (env : nat -> option V) (k : option operand) : option (option V) :=
  match k with None | Some OUnit => Some None | Some o => option_map Some (operand_value env o) end.
Definition update {A} (env : nat -> option A) (v : nat) (x : A) : nat -> option A := fun u => if Nat.eqb v u then Some x else env u.

(* The variables after the operation and the world.  Nbdl.td:149-191: each overload is checked linearly until a matching one
   is found. *)
Fixpoint exec_op (o : op) (env : nat -> option V) (w : W) : outcome (nat -> option V) * W :=
  match o with
  | Silent | Discard => (Value env, w)
  | Get r s (Some (OMember f)) => given (operand_value env s) w (fun x => then_ (i_field I x f w) (fun y w => (Value (update env r y), w)))
  | Get r s k => given (operand_value env s) w (fun x => given (key_value env k) w (fun k => then_ (i_get I x k w) (fun y w => (Value (update env r y), w))))
  | Visit r f args =>
      given (all_some (map (operand_value env) args)) w (fun xs =>
        then_ (match f, xs with
               | OMember m, x :: xs => i_method I x m xs w
               | _, _ => given (operand_value env f) w (fun x => i_call I x xs w)
               end)
              (fun y w => (Value (match r with Some r => update env r y | None => env end), w)))
  | NoOp a => given (operand_value env a) w (fun _ => (Value env, w))
  | Match s k os => given (operand_value env s) w (fun x => given (key_value env k) w (fun k =>
      then_ (i_match I x k w) (fun '(ty, y) w => then_ (exec_overloads os ty y env w) (fun _ w => (Value env, w)))))
  | MatchIf c t e => given (operand_value env c) w (fun x => then_ (if i_truth I x then exec_block t env w else exec_block e env w) (fun _ w => (Value env, w)))
  | Compose r k lhs rhs => given (key_value env k) w (fun k => given (operand_value env lhs) w (fun x => given (operand_value env rhs) w (fun y =>
      then_ (i_compose I k x y w) (fun z w => (Value (update env r z), w)))))
  | Const r a => given (operand_value env a) w (fun x => (Value (update env r x), w))  (* the same object, not to be changed *)
  | Scope b => then_ (exec_block b env w) (fun _ w => (Value env, w))
  end
with exec_block (b : block) (env : nat -> option V) (w : W) : outcome unit * W :=
  match b with
  | BNil => (Value tt, w)
  | BCons o r => then_ (exec_op o env w) (fun env w => exec_block r env w)
  end
with exec_overloads (os : overloads) (ty : list N) (x : V) (env : nat -> option V) (w : W) : outcome unit * W :=
  match os with
  | ONil => (IllFormed, w)
  | OCons t arg body r => if bytes_eqb t [] || bytes_eqb t ty then exec_block body (update env arg x) w else exec_overloads r ty x env w
  end.

Fixpoint bind_params (l : list nat) (args : list V) (env : nat -> option V) : nat -> option V :=
  match l, args with v :: l, x :: args => bind_params l args (update env v x) | _, _ => env end.
Definition run_func (f : func) (args : list V) (w : W) : outcome unit * W := exec_block (f_body f) (bind_params (f_params f) args (fun _ => None)) w.

(* ---- C++ ---- *)

Definition declare (sc : list N -> option V) (n : list N) (x : V) : list N -> option V := fun m => if bytes_eqb n m then Some x else sc m.

(* overload resolution: one that asks for the type, else the one that takes anything; more than one is ambiguous *)
Fixpoint asks (ls : lambdas) (ty : list N) : nat :=
  match ls with LNil => 0 | LCons t _ _ r => if bytes_eqb t ty then S (asks r ty) else asks r ty end.

Fixpoint run_stmt (s : stmt) (sc : list N -> option V) (w : W) : outcome (list N -> option V) * W :=
  match s with
  | SGet x e k => then_ (i_get I (i_text I sc e) (option_map (i_text I sc) k) w) (fun y w => (Value (declare sc x y), w))
  | SField x e f => then_ (i_field I (i_text I sc e) f w) (fun y w => (Value (declare sc x y), w))
  | SCall x f args => then_ (i_call I (i_text I sc f) (map (i_text I sc) args) w) (fun y w => (Value (match x with Some x => declare sc x y | None => sc end), w))
  | SMethod x e m args => then_ (i_method I (i_text I sc e) m (map (i_text I sc) args) w) (fun y w => (Value (match x with Some x => declare sc x y | None => sc end), w))
  | SCompose x k rhs lhs => then_ (i_compose I (option_map (i_text I sc) k) (i_text I sc lhs) (i_text I sc rhs) w) (fun y w => (Value (declare sc x y), w))
  | SVoid e => (Value sc, w)
  | SMatch e k ls => then_ (i_match I (i_text I sc e) (option_map (i_text I sc) k) w) (fun '(ty, y) w =>
      let want := if Nat.eqb (asks ls ty) 0 then [] else ty in
      if Nat.eqb (asks ls want) 1 then then_ (run_lambda ls want y sc w) (fun _ w => (Value sc, w)) else (IllFormed, w))
  | SIf c t e => then_ (if i_truth I (i_text I sc c) then run_stmts t sc w else run_stmts e sc w) (fun _ w => (Value sc, w))
  end
with run_stmts (b : stmts) (sc : list N -> option V) (w : W) : outcome unit * W :=
  match b with
  | SNil => (Value tt, w)
  | SCons s r => then_ (run_stmt s sc w) (fun sc w => run_stmts r sc w)
  end
with run_lambda (ls : lambdas) (want : list N) (y : V) (sc : list N -> option V) (w : W) : outcome unit * W :=
  match ls with
  | LNil => (IllFormed, w)
  | LCons t x body r => if bytes_eqb t want then run_stmts body (declare sc x y) w else run_lambda r want y sc w
  end.

Fixpoint declare_all (l : list (list N)) (args : list V) (sc : list N -> option V) : list N -> option V :=
  match l, args with n :: l, x :: args => declare_all l args (declare sc n x) | _, _ => sc end.
Definition run_program (p : program) (args : list V) (w : W) : outcome unit * W := run_stmts (p_body p) (declare_all (p_params p) args no_locals) w.
End Meaning.

(* ---- which functions: those that the verifier accepts and whose texts are C++ ---- *)

Definition plain_string (s : list N) : Prop := Forall (fun c => c <> 34 /\ c <> 92 /\ c <> 10 /\ c <> 13) s.

(* [D] are the values that are defined here *)
Definition operand_ok (D : list nat) (o : operand) : Prop :=
  match o with OVar v => In v D | OInt _ => True | OStr s => plain_string s | OExpr s => s <> [] | OMember _ | OUnit => False end.
Definition key_ok (D : list nat) (k : option operand) : Prop := match k with None | Some OUnit => True | Some o => operand_ok D o end.
Definition result_of (o : op) : list nat :=
  match o with Get r _ _ | Visit (Some r) _ _ | Compose r _ _ _ | Const r _ => [r] | _ => [] end.

Fixpoint types_of (os : overloads) : list (list N) := match os with ONil => [] | OCons t _ _ r => t :: types_of r end.
(* no type twice, and what takes anything last *)
Fixpoint types_ok (l : list (list N)) : Prop :=
  match l with [] => True | t :: r => ~ In t r /\ (t = [] -> r = []) /\ types_ok r end.

Fixpoint op_ok (D : list nat) (o : op) : Prop :=
  match o with
  | Silent | Discard => True
  | Get r s k => ~ In r D /\ operand_ok D s /\ (match k with Some (OMember _) => True | _ => key_ok D k end)
  | Visit r f args => (match r with Some r => ~ In r D | None => True end) /\ Forall (operand_ok D) args /\
      (match f with OMember _ => args <> [] | _ => operand_ok D f end)
  | NoOp a => operand_ok D a
  | Match s k os => operand_ok D s /\ key_ok D k /\ types_ok (types_of os) /\ overloads_ok D os
  | MatchIf c t e => operand_ok D c /\ block_ok D t /\ block_ok D e /\ e <> BNil /\
      (match e with BCons (MatchIf _ _ _) r => r = BNil | _ => True end)  (* match_if ends its block *)
  | Compose r k lhs rhs => ~ In r D /\ key_ok D k /\ operand_ok D lhs /\ operand_ok D rhs
  | Const _ _ => False
  | Scope b => block_ok D b
  end
with block_ok (D : list nat) (b : block) : Prop :=
  match b with BNil => True | BCons o r => op_ok D o /\ block_ok (result_of o ++ D) r end
with overloads_ok (D : list nat) (os : overloads) : Prop :=
  match os with ONil => True | OCons _ a body r => ~ In a D /\ block_ok (a :: D) body /\ overloads_ok D r end.

Definition func_ok (f : func) : Prop := NoDup (f_params f) /\ (f_results f <= 1)%nat /\ block_ok (f_params f) (f_body f).

(* the texts of constexpr in a function *)
Definition operand_texts (o : operand) : list (list N) := match o with OExpr s => [s] | _ => [] end.
Definition key_texts (k : option operand) : list (list N) := match k with Some o => operand_texts o | None => [] end.
Fixpoint op_texts (o : op) : list (list N) :=
  match o with
  | Silent | Discard => []
  | Get _ s k => operand_texts s ++ key_texts k
  | Visit _ f args => operand_texts f ++ flat_map operand_texts args
  | NoOp a => operand_texts a
  | Match s k os => operand_texts s ++ key_texts k ++ overloads_texts os
  | MatchIf c t e => operand_texts c ++ block_texts t ++ block_texts e
  | Compose _ k l r => key_texts k ++ operand_texts l ++ operand_texts r
  | Const _ a => operand_texts a
  | Scope b => block_texts b
  end
with block_texts (b : block) : list (list N) := match b with BNil => [] | BCons o r => op_texts o ++ block_texts r end
with overloads_texts (os : overloads) : list (list N) := match os with ONil => [] | OCons _ _ b r => block_texts b ++ overloads_texts r end.

(* the names that the translation makes up, and texts whose meaning does not depend on them *)
Definition generated (n : list N) : Prop := exists p ds, In p [bs "arg_"; bs "get_"; bs "result_"] /\ ds <> [] /\ Forall digit ds /\ n = p ++ ds.
Definition global_texts (I : interp) (l : list (list N)) : Prop :=
  forall s, In s l -> forall scope, (forall n, scope n <> None -> generated n) -> i_text I scope s = i_text I (no_locals I) s.

(* every choice has something in its else *)
Fixpoint op_elses (o : op) : Prop :=
  match o with
  | MatchIf _ t e => e <> BNil /\ block_elses t /\ block_elses e
  | Match _ _ os => overloads_elses os
  | Scope b => block_elses b
  | _ => True
  end
with block_elses (b : block) : Prop := match b with BNil => True | BCons o r => op_elses o /\ block_elses r end
with overloads_elses (os : overloads) : Prop := match os with ONil => True | OCons _ _ b r => block_elses b /\ overloads_elses r end.
