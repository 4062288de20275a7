(* Model of looking things up in stores: /repo/include/nbdl/match.hpp, get.hpp, match_path.hpp, get_path.hpp, path_promise.hpp,
   store_compose.hpp, store_range.hpp, strong_alias.hpp, ext/std/unordered_map.hpp, variant.hpp and detail/match_if.hpp.
   Which implementation a store has is decided by its type.  Only what a variant or a map holds is decided when the program
   runs, so a store is modelled as the tree of what it is made of.  None stands for a program that does not compile; the
   compiler also asks for the alternatives that a variant does not hold, the model does not. *)
From Verif Require Import Base PromiseModel.
Open Scope nat_scope.

Definition key := nat.

Inductive store :=
| Leaf (type : nat) (x : N)               (* a value that is no store *)
| State (l : list (key * store))          (* a hana::Searchable or Product or an entity (entity.hpp:24-39) *)
| Ref (s : store)                         (* std::reference_wrapper *)
| Alias (s : store)                       (* strong_alias.hpp:17-42 *)
| Variant (type_id : nat) (value : store) (* nbdl::variant and what it holds *)
| Map (l : list (key * store))            (* std::unordered_map *)
| Composite (k : key) (l r : store)       (* store_compose.hpp:28-35 *)
| Iter (k : key) (elem s : store).        (* store_range.hpp: a range at one of its elements *)

(* concept/State.hpp:25 with get.hpp:42-93, strong_alias.hpp:44-57 *)
Fixpoint is_state (s : store) : bool :=
  match s with State _ => true | Ref s | Alias s => is_state s | _ => false end.

(* concept/Store.hpp:26 with match.hpp:66-83, strong_alias.hpp:59-75 *)
Fixpoint is_store (s : store) : bool :=
  match s with Leaf _ _ => false | Ref s | Alias s => is_store s | _ => true end.

Fixpoint assoc {A} (k : key) (l : list (key * A)) : option A :=
  match l with [] => None | (k', v) :: r => if Nat.eqb k k' then Some v else assoc k r end.

(* get(s), get.hpp:34-40 with 44-47 and concept/State.hpp:18-21 *)
Definition get1 (s : store) : store := match s with Ref t => if is_state t then t else s | _ => s end.

(* get(s, k), get.hpp:26-32 with 49-52 and 62-72, strong_alias.hpp:52-56 *)
Fixpoint get (s : store) (k : key) : option store :=
  match s with
  | State l => option_map get1 (assoc k l)
  | Ref t | Alias t => if is_state t then option_map get1 (get t k) else None
  | _ => None
  end.

(* HasMatchUnitImpl, match.hpp:33-36 *)
Fixpoint has_unit (s : store) : bool :=
  match s with
  | Variant _ _ | Map _ => true
  | Ref t => negb (is_state t) && is_store t
  | Alias t => negb (is_state t) && is_store t && has_unit t
  | _ => false
  end.

(* match(s, fn), match.hpp:48-64; variant.hpp:210-231, match.hpp:79-82, strong_alias.hpp:62-67.  What fn does is a list of
   effects.  A map gives itself to fn (ext/std/unordered_map.hpp:26-30), which match refuses to compile (match.hpp:56-57). *)
Fixpoint match_unit {E} (s : store) (fn : store -> option (list E)) : option (list E) :=
  match s with
  | Variant _ v => if is_store v then match_unit v fn else fn v
  | Map _ => None
  | Ref t | Alias t => if has_unit s then match_unit t fn else fn s
  | _ => fn s
  end.

(* tags.hpp: what a map gives for a key it does not have *)
Definition not_in_set : store := Leaf 0 0.

(* match(s, k, fn), match.hpp:39-46 *)
Fixpoint match_key {E} (s : store) (k : key) (fn : store -> option (list E)) : option (list E) :=
  match s with
  | Leaf _ _ => None
  | State _ => match get s k with Some v => fn v | None => None end              (* match.hpp:66-74 *)
  | Ref t | Alias t => if is_state s then match get s k with Some v => fn v | None => None end
                       else match_key t k fn                                     (* match.hpp:76-83, strong_alias.hpp:69-74 *)
  | Variant _ v => if is_store v then match_key v k fn else fn v                 (* variant.hpp:233-259 *)
  | Map l => match assoc k l with                                                (* ext/std/unordered_map.hpp:32-51 *)
             | None => fn not_in_set
             | Some v => if is_store v then match_unit v fn else fn v
             end
  | Composite k' l r =>                                                          (* store_compose.hpp:91-109 *)
      if Nat.eqb k' k then (if is_store r then match_unit r fn else fn r) else match_key l k fn
  | Iter k' e t => if Nat.eqb k' k then match_unit e fn else match_key t k fn    (* store_range.hpp:77-91 *)
  end.

(* match_path.hpp:45-78; the helper (23-42) goes on only with stores *)
Fixpoint match_path {E} (s : store) (p : list key) (fn : store -> option (list E)) : option (list E) :=
  match p with
  | [] => if is_store s then match_unit s fn else fn s
  | k :: p' => match_key s k (fun v => if is_store v then match_path v p' fn else fn v)
  end.

(* get_path.hpp:23-34 *)
Fixpoint get_path (s : store) (p : list key) : option store :=
  match p with [] => Some s | k :: p' => match get s k with Some v => get_path v p' | None => None end end.

(* ---- path_promise.hpp ---- *)

(* ui_spec::get_t and ui_spec::match_type; a promise that resolves with a value or rejects with one *)
Inductive node := GetPath (p : list key) | MatchType (t : nat) (p : list key).
Inductive settled := Resolved (s : store) | Rejected (s : store).

(* the type of a value as hana::typeid_ sees it; for stores a tag is enough *)
Definition typeid (s : store) : nat :=
  match s with Leaf t _ => S t | _ => 0 end.

(* path_promise.hpp:31-51 *)
Definition promise_match (n : node) (s : store) : option (list settled) :=
  match n with
  | GetPath p => match_path s p (fun v => Some [Resolved v])
  | MatchType t p => match_path s p (fun v => Some [if Nat.eqb (typeid v) (S t) then Resolved v else Rejected v])
  end.

(* path_promise.hpp:53-64: the nodes of path_t are listed last first; the pipe gives what one node resolves to the next, a
   rejection passes the rest (promise.hpp:36-40) *)
Definition pipe_node (r : option (list settled)) (n : node) : option (list settled) :=
  match r with
  | None => None
  | Some l => fold_right (fun x acc => match match x with Resolved v => promise_match n v | Rejected _ => Some [x] end, acc with
                                       | Some a, Some b => Some (a ++ b) | _, _ => None end) (Some []) l
  end.
Definition path_promise (xs : list node) (s : store) : option (list settled) := fold_left pipe_node (rev xs) (Some [Resolved s]).

(* ---- store_compose.hpp, store_range.hpp ---- *)

(* store_compose.hpp:49-59 *)
Definition store_compose (k : key) (v s : store) : store := Composite k s v.

(* store_range.hpp:20-51: the stores seen by a loop over the range *)
Definition store_range (k : key) (container : list store) (s : store) : list store := map (fun x => Iter k x s) container.

(* an action, perhaps made for the store at a key (store_compose.hpp:40-46, 61-67) or for the element of a range *)
Inductive action := Plain (a : N) | For (k : key) (a : action) | Elem (a : action).

(* apply_action, store_compose.hpp:69-85 and store_range.hpp:56-72: the store with the one that takes the action replaced;
   [apply] is what the other stores do *)
Fixpoint apply_action (apply : store -> action -> option store) (s : store) (a : action) : option store :=
  match s with
  | Composite k l r =>
      match a with
      | For k' a' => if Nat.eqb k' k then option_map (Composite k l) (apply_action apply r a')
                     else option_map (fun l' => Composite k l' r) (apply_action apply l a)
      | _ => option_map (fun l' => Composite k l' r) (apply_action apply l a)
      end
  | Iter k e t =>
      match a with
      | Elem a' => option_map (fun e' => Iter k e' t) (apply_action apply e a')
      | _ => option_map (Iter k e) (apply_action apply t a)
      end
  | _ => apply s a
  end.

(* ---- variant.hpp ---- *)

Section Variant.
Context {V : Type}.

(* the index of the alternative held, and the value *)
Record variant := mk_variant { type_id : nat; held : V }.

(* match, variant.hpp:96-108: hana::overload_linearly calls the first function that can be called with the type of the value.
   The calls made: which function, with what *)
Fixpoint match_overloads (v : variant) (callable : list (nat -> bool)) (i : nat) : option (list (nat * variant)) :=
  match callable with
  | [] => None
  | c :: r => if c (type_id v) then Some [(i, v)] else match_overloads v r (i + 1)
  end.
(* std::visit compiles when every alternative has a function *)
Definition match_fns (alternatives : nat) (v : variant) (callable : list (nat -> bool)) : option (list (nat * variant)) :=
  if forallb (fun t => existsb (fun c => c t) callable) (List.seq 0 alternatives) then match_overloads v callable 0 else None.

(* match_by_type, variant.hpp:76-85; call_by_type 49-56 *)
Definition match_by_type {R} (alternatives : nat) (id : Z) (fn : nat -> R) : option R :=
  if negb ((0 <=? id)%Z && (id <? Z.of_nat alternatives)%Z) then None else Some (fn (Z.to_nat id)).

(* bind_variant, variant.hpp:180-190: f fills in a default value or throws; the variant afterwards and whether f threw *)
Definition bind_read (alternatives : nat) (default : nat -> V) (id : Z) (v : variant) (f : Z -> nat -> V -> option V) : variant * bool :=
  match match_by_type alternatives id (fun i => (i, f id i (default i))) with
  | None => (v, false)
  | Some (i, Some x) => (mk_variant i x, false)
  | Some (_, None) => (v, true)
  end.

(* bind_variant, variant.hpp:192-199, get_type_id 69-72 *)
Definition bind_write {R} (v : variant) (f : Z -> V -> R) : R := f (Z.of_nat (type_id v)) (held v).

(* variant_visit_impl<match_when_tag>, variant.hpp:119-132, with is<T> 87-91; T is the type of alternative t *)
Definition match_when (t : nat) (v : variant) : list V := if Nat.eqb (type_id v) t then [held v] else [].

(* hana::equal, variant.hpp:267-303 *)
Definition variant_equal (empty : nat -> bool) (eq : V -> V -> bool) (a b : variant) : bool :=
  if Nat.eqb (type_id a) (type_id b) then (if empty (type_id a) then true else eq (held a) (held b)) else false.

(* variant_holder.hpp:38-49: match(holder, variant_index, fn) and match(holder, variant_value, fn); what fn is called with.
   The bind_variant of a holder (51-72) does not compile *)
Inductive holder_key := VariantIndex | VariantValue.
Inductive holder_call := OfIndex (i : nat) | OfValue (x : V).
Definition holder_match (v : variant) (k : holder_key) : list holder_call :=
  match k with VariantIndex => [OfIndex (type_id v)] | VariantValue => [OfValue (held v)] end.
End Variant.
Arguments variant : clear implicits.

(* ---- detail/match_if.hpp ---- *)

(* a predicate whose result is known when compiling, or not *)
Inductive pred := Const (b : bool) | Dyn (f : nat * N -> bool).
Definition holds (p : pred) (x : nat * N) : bool := match p with Const b => b | Dyn f => f x end.

Definition size_t : nat := 0. (* its type *)

(* predicate_promise::resolve, match_if.hpp:33-57 *)
Definition predicate_promise (n : nat) (p : pred) : stage :=
  Prom n (fun _ a => match a with
                     | [v; (t, i)] => if holds p v then [Now (Reject [(t, i)])] else [Now (Resolve [v; (t, (i + 1)%N)])]
                     | _ => []
                     end).

(* the tuple given to run_sync, match_if.hpp:107-119 *)
Definition match_if_pipe (preds : list pred) : pipe :=
  let n := length preds in
  Pipe [Pipe (map (fun ip => Stage (predicate_promise (fst ip) (snd ip))) (combine (List.seq 0 n) preds));
        Stage (Fn n (fun _ _ => Ret []));
        Stage (Catch (n + 1) (fun ts => match ts with [t] => Nat.eqb t size_t | _ => false end) (fun _ _ => Ret []))].

(* the function before the catch does not compile when the last predicate can resolve (match_if.hpp:110-117) *)
Definition compiles (preds : list pred) : bool :=
  existsb (fun p => match p with Const true => true | _ => false end) preds.

(* match_if.hpp:102-125: what the catch stored *)
Definition stored (h : list event) : option N :=
  fold_left (fun r e => match e with Caught _ [(_, i)] => Some i | _ => r end) h None.
Definition match_if (preds : list pred) (x : nat * N) (ls : list label) : option N :=
  if compiles preds then match run Sync (match_if_pipe preds) [x; (size_t, 0%N)] ls with Some (Running c) => stored (hist c) | _ => None end
  else None.
