(* Model of JavaScript values held by C++ objects: /repo/include/nbdl/detail/js_val.hpp, fwd/js.hpp and js.hpp, with
   the promise macros of macros/NBDL_JS_PROMISE.hpp and the connections of app/server_js.hpp.
   A JavaScript value is an element of V; undef is undefined.  An object is its address (js_val::handle, js_val.hpp:46-50).
   Module.nbdl_detail_json_val is None until init_registry has been called, then a JavaScript object from addresses to
   values.  An uncaught JavaScript exception is None. *)
From Verif Require Import Base.
Open Scope N_scope.

Section Reg.
Context {V : Type} (undef : V).

Definition registry := list (N * V).

(* js_val.hpp:24-26 NBDL_DETAIL_JS_GET; a property that is not there is undefined *)
Fixpoint js_get (r : registry) (h : N) : V :=
  match r with [] => undef | (k, v) :: t => if k =? h then v else js_get t h end.
(* js_val.hpp:27-30 NBDL_DETAIL_JS_SET *)
Fixpoint js_set (r : registry) (h : N) (v : V) : registry :=
  match r with [] => [(h, v)] | (k, w) :: t => if k =? h then (k, v) :: t else (k, w) :: js_set t h v end.
(* delete Module.nbdl_detail_json_val[h] *)
Fixpoint js_delete (r : registry) (h : N) : registry :=
  match r with [] => [] | (k, w) :: t => if k =? h then js_delete t h else (k, w) :: js_delete t h end.

(* js.hpp:54-62 val::copy, js.hpp:64-67 val::unregister, the same as the destructor js_val.hpp:39-44 *)
Definition copy (r : registry) (a b : N) : registry := js_set r a (js_get r b).
Definition unregister (r : registry) (a : N) : registry := js_delete r a.

(* what C++ code does with values *)
Inductive op :=
| Init                          (* nbdl::js::init, js.hpp:32-35 *)
| New (a : N)                   (* val(), js_val(): nothing is registered *)
| CopyNew (a b : N)             (* val(val const&) and from another js value, fwd/js.hpp:58-61, 69-73 *)
| MoveNew (a b : N)             (* val(val&&), fwd/js.hpp:63-67 *)
| Assign (a b : N)              (* operator=(val const&), fwd/js.hpp:75-79 *)
| MoveAssign (a b : N)          (* operator=(val&&), fwd/js.hpp:81-86 *)
| Transform (a : N) (f : V -> V) (* NBDL_JS_TRANSFORM, js.hpp:24-26; with a constant f it is NBDL_DETAIL_JS_SET *)
| Destroy (a : N).              (* ~js_val *)

Definition step (o : op) (m : option registry) : option (option registry) :=
  match o, m with
  | Init, None => Some (Some [])                                  (* js_val.hpp:19-34 *)
  | Init, Some r => Some (Some r)
  | New _, _ => Some m
  | _, None => None                                               (* the properties of Module are undefined: TypeError *)
  | (CopyNew a b | Assign a b), Some r => Some (Some (copy r a b))
  | (MoveNew a b | MoveAssign a b), Some r => Some (Some (unregister (copy r a b) b))
  | Transform a f, Some r => Some (Some (js_set r a (f (js_get r a))))
  | Destroy a, Some r => Some (Some (js_delete r a))
  end.

Fixpoint run (l : list op) (m : option registry) : option (option registry) :=
  match l with [] => Some m | o :: t => match step o m with Some m' => run t m' | None => None end end.

(* std::swap *)
Definition swap_ops (tmp a b : N) : list op := [MoveNew tmp a; MoveAssign a b; MoveAssign b tmp; Destroy tmp].

(* std::vector<val>: n elements from [base] on, one byte each because a val has no members.  push_back with no room copies
   the elements into new memory, because the move constructor is not noexcept, then destroys the old ones *)
Fixpoint addresses (base : N) (n : nat) : list N := match n with O => [] | S k => base :: addresses (base + 1) k end.
Definition grow_ops (base new x : N) (n : nat) : list op :=
  MoveNew (new + N.of_nat n) x ::
  map (fun p => CopyNew (fst p) (snd p)) (combine (addresses new n) (addresses base n)) ++ map Destroy (addresses base n).

(* std::remove_if: [dst] is where the next element that stays goes, [k] elements are left from [src] on *)
Fixpoint remove_if (pred : registry -> N -> bool) (r : registry) (dst src : N) (k : nat) : registry * N :=
  match k with
  | O => (r, dst)
  | S k' =>
      if pred r src then remove_if pred r dst (src + 1) k'
      else remove_if pred (if dst =? src then r else unregister (copy r dst src) src) (dst + 1) (src + 1) k'
  end.
(* std::erase_if: destroys what is behind the elements that stay *)
Definition erase_if (pred : registry -> N -> bool) (r : registry) (base : N) (n : nat) : registry * nat :=
  let (r', e) := remove_if pred r base base n in
  let m := N.to_nat (e - base) in
  (fold_left js_delete (addresses e (n - m)) r', m).

(* app/server_js.hpp:118-137 server_impl::drop_connection, after closing the connection *)
Definition drop_connection (eqb : V -> V -> bool) (r : registry) (base : N) (n : nat) (conn : N) : registry * nat :=
  erase_if (fun r x => eqb (js_get r conn) (js_get r x)) r base n.
End Reg.

(* ---- NBDL_JS_PROMISE.hpp ---- *)

(* What the JavaScript routine does with the two callbacks it is given, in order. *)
Inductive js_call {V} := CallResolve (v : V) | CallReject (v : V).
Arguments js_call : clear implicits.

(* NBDL_JS_PROMISE.hpp:20-44 make_promise.  delete_me is null when the lambdas copy it, so that delete does nothing: the
   pair of callbacks is never freed, and each call is passed on to the resolver, which the lambdas hold by reference.
   [completes] says that the rest of the pipeline finishes within that call, so that the pipeline with the resolver is
   freed (nbdl::run_async).  The result: what the resolver was told, and how many pairs are allocated at the end *)
Fixpoint pass_on {V} (completes alive : bool) (calls : list (js_call V)) : res (list (js_call V)) :=
  match calls with
  | [] => Ok []
  | c :: r => if alive then let! t := pass_on completes (negb completes) r in Ok (c :: t) else UB
  end.
Definition make_promise {V} (completes : bool) (calls : list (js_call V)) (pairs : nat) : res (list (js_call V) * nat) :=
  let! t := pass_on completes true calls in Ok (t, S pairs).

(* The macros that hand captured values to the JavaScript code.  A macro with n names is the recursion on the names. *)
(* NBDL_JS_PROMISE.hpp:65-83 COLLECT_ARGS and 46-50 collect_js_vals: the names in order, copied into an array *)
Definition collect_js_vals {A} (args : list A) : list A := args.
(* 52-59 collect_js_vals_reverse *)
Definition collect_js_vals_reverse {A} (args : list A) : list A := rev args.
(* 88-106 ARG_HANDLES: input_vals[n-1], ..., input_vals[0] *)
Fixpoint arg_handles {A} (d : A) (input_vals : list A) (n : nat) : list A :=
  match n with O => [] | S k => nth k input_vals d :: arg_handles d input_vals k end.
(* the parameters of EM_ASM: $0 and $1 are resolve and reject, then the handles *)
Definition em_arg {A} (d : A) (params : list A) (i : nat) : A := nth i params d.
(* 113-128 INIT_CAPTURES: with n names left the first one is $(n+1) *)
Fixpoint init_captures {A B} (d : B) (names : list A) (params : list B) : list (A * B) :=
  match names with
  | [] => []
  | x :: r => (x, em_arg d params (S (length names))) :: init_captures d r params
  end.
(* 141-154, 176-180 NBDL_JS_PROMISE_WITH_CAPTURE: what the names are in the JavaScript code *)
Definition with_capture {A B} (d : B) (resolve reject : B) (names : list A) (vals : list B) : list (A * B) :=
  init_captures d names (resolve :: reject :: arg_handles d (collect_js_vals vals) (length vals)).
(* 156-162, 187-192 NBDL_JS_PROMISE_C_FUNC: the arguments the C function is called with *)
Definition c_func {B} (d : B) (resolve reject : B) (vals : list B) : list B :=
  resolve :: reject :: arg_handles d (collect_js_vals_reverse vals) (length vals).
