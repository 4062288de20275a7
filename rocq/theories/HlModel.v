(* Model of /repo/include/nbdl/hold_lazy.hpp: objects which are made by a stage of a promise pipeline and live in it, with
   the runners run_async.hpp, run_async_loop.hpp and run_sync.hpp.  PromiseModel.v models the pipelines without such stages.
   Left out are the values that stages pass on: what user code does may depend on everything that happened before it, and it
   throws nothing (a stage is noexcept, promise.hpp:24-36; hold_lazy.hpp:60).  Everything runs on one thread. *)
From Verif Require Import Base.
Open Scope nat_scope.

(* objects are numbered in the order in which they are made *)
Inductive event :=
| Ran (i : nat)        (* the function of stage i is called *)
| Born (i o : nat)     (* stage i has made an object *)
| Died (i o : nat)     (* its destructor runs *)
| Freed                (* the pipeline is no more *)
| Restart.

(* what a stage may do with its resolver *)
Inductive call := Resolve | Reject | Terminate.
(* at once, or from a callback that runs after the current call stack is left *)
Inductive act := Now (c : call) | Later (c : call).

Inductive stage :=
| Ord (p : list event -> list act)      (* promise.hpp:24-34; for a plain function see wrap_promise.hpp:33-50 *)
| Lazy (p : list event -> list act)     (* hold_lazy: Now is done before the object is complete, Later is done by the object *)
| Catch.                                (* catch.hpp:29-47 *)

Definition now_calls (l : list act) : list call := flat_map (fun a => match a with Now c => [c] | Later _ => [] end) l.
Definition later_calls (l : list act) : list call := flat_map (fun a => match a with Now _ => [] | Later c => [c] end) l.

Inductive mode := Async | Loop | Sync.

Inductive frame :=
| Call (i : nat) (c : call)          (* a call on the part of the pipeline that begins at stage i *)
| Made (i : nat) (l : list call)     (* the function of stage i returns an object that will make these calls *)
| Back (i o : nat).                  (* a call of a member function of the object returns *)

Record cfg := mk_cfg {
  stack : list frame;                                     (* innermost first *)
  pool : list (option (nat * nat) * (nat * call));        (* callbacks, with the object that they belong to *)
  alive : bool;                                           (* the object holding the joined promise exists *)
  holds : nat -> option nat;                              (* stage i is engaged: hold_lazy.hpp:68-72 *)
  serial : nat;
  hist : list event
}.

(* undefined behaviour: memory of the pipeline is used after it was freed; an object is used after another one was put in its place *)
Inductive outcome := Running (c : cfg) | UseAfterFree | Replaced.

Definition put (f : nat -> option nat) (i o : nat) : nat -> option nat := fun j => if j =? i then Some o else f j.

Definition start : cfg := mk_cfg [Call 0 Resolve] [] true (fun _ => None) 0 [].

(* fwd/detail/promise_join.hpp:71-76: [next] is destroyed before [current]; hold_lazy.hpp:51-57 *)
Definition deaths (n : nat) (f : nat -> option nat) : list event :=
  flat_map (fun i => match f i with Some o => [Died i o] | None => [] end) (rev (seq 0 n)).
Definition free (n : nat) (c : cfg) : cfg :=
  mk_cfg (stack c) (pool c) false (fun _ => None) (serial c) (hist c ++ deaths n (holds c) ++ [Freed]).

(* run_async.hpp:33-58, run_async_loop.hpp:33-60, run_sync.hpp:26-46; reject does not compile *)
Definition end_call (m : mode) (n : nat) (c : cfg) (k : call) : cfg :=
  match m, k with
  | _, Reject => c
  | Async, _ | Loop, Terminate => free n c
  | Loop, Resolve => mk_cfg (Call 0 Resolve :: stack c) (pool c) (alive c) (holds c) (serial c) (hist c ++ [Restart])
  | Sync, _ => c
  end.

Definition ran (c : cfg) (i : nat) (fs : list frame) (cs : list call) : cfg :=
  mk_cfg (fs ++ stack c) (pool c ++ map (fun k => (None, (S i, k))) cs) (alive c) (holds c) (serial c) (hist c ++ [Ran i]).
Definition pass (c : cfg) (i : nat) (k : call) : cfg :=
  mk_cfg (Call (S i) k :: stack c) (pool c) (alive c) (holds c) (serial c) (hist c).

(* a call on the joined promise, fwd/detail/promise_join.hpp:94-109 *)
Definition call_stage (m : mode) (l : list stage) (c : cfg) (i : nat) (k : call) : cfg :=
  match nth_error l i, k with
  | None, _ => end_call m (length l) c k
  | Some (Ord p), Resolve => let a := p (hist c) in ran c i (map (Call (S i)) (now_calls a)) (later_calls a)
  | Some (Lazy p), Resolve =>                               (* hold_lazy.hpp:62 *)
      let a := p (hist c) in ran c i (map (Call (S i)) (now_calls a) ++ [Made i (later_calls a)]) []
  | Some Catch, Reject => pass c i Terminate                (* catch.hpp:36-47 *)
  | Some _, _ => pass c i k
  end.

(* hold_lazy.hpp:62-63: the object is made where the value of the holder is, and belongs to it from now on *)
Definition made (c : cfg) (i : nat) (cs : list call) : cfg :=
  let o := serial c in
  mk_cfg (stack c) (pool c ++ map (fun k => (Some (i, o), (S i, k))) cs) (alive c) (put (holds c) i o) (S o) (hist c ++ [Born i o]).

(* run_sync's joined promise is a temporary: it dies when the call returns (run_sync.hpp:55-58) *)
Definition settle (m : mode) (n : nat) (c : cfg) : cfg :=
  match m, stack c, alive c with Sync, [], true => free n c | _, _, _ => c end.

Definition deliver (m : mode) (l : list stage) (c : cfg) (f : frame) : outcome :=
  match f with
  | Call i k => if alive c then Running (settle m (length l) (call_stage m l c i k)) else UseAfterFree
  | Made i cs => if alive c then Running (settle m (length l) (made c i cs)) else UseAfterFree
  | Back _ _ => Running c
  end.

Definition remove_nth {A} (n : nat) (l : list A) : list A := firstn n l ++ skipn (S n) l.
Definition dead (h : list event) (i o : nat) : bool := existsb (fun e => match e with Died j p => (j =? i) && (p =? o) | _ => false end) h.

(* Tick: the innermost frame goes on; Fire: once the call stack is left, a callback runs.  An object that is destroyed takes its
   callbacks with it. *)
Inductive label := Tick | Fire (n : nat).

Definition step (m : mode) (l : list stage) (c : cfg) (lb : label) : option outcome :=
  match lb, stack c with
  | Tick, [] => None
  | Tick, f :: r => Some (deliver m l (mk_cfg r (pool c) (alive c) (holds c) (serial c) (hist c)) f)
  | Fire n, _ :: _ => None
  | Fire n, [] =>
      let c' fs := mk_cfg fs (remove_nth n (pool c)) (alive c) (holds c) (serial c) (hist c) in
      match nth_error (pool c) n with
      | None => None
      | Some (None, (i, k)) => Some (deliver m l (c' []) (Call i k))
      | Some (Some (j, o), (i, k)) =>
          if dead (hist c) j o then None
          else if negb (alive c) then Some UseAfterFree
          else if match holds c j with Some p => p =? o | None => false end then Some (deliver m l (c' [Back j o]) (Call i k))
          else Some Replaced
      end
  end.

Fixpoint exec (m : mode) (l : list stage) (o : outcome) (ls : list label) : option outcome :=
  match ls with
  | [] => Some o
  | lb :: r => match o with
               | Running c => match step m l c lb with Some o' => exec m l o' r | None => None end
               | _ => None
               end
  end.

(* ---- joining a pipeline that is kept by the caller ---- *)

Section Join.
(* the functions that a user gives, and what is left of one after it was moved from *)
Variable F : Type.
Variable moved : F -> F.

(* pipe.hpp:16: a tuple whose elements may be tuples; hold_lazy_fn's result, hold_lazy.hpp:77-97 *)
Inductive pipe := One (f : F) | Held (f : F) | Pipe (l : list pipe).

(* detail/promise_join.hpp:24-52 for an lvalue: what is joined, and what is left of the pipeline.  A function is copied
   (wrap_promise.hpp:29-36), but that of hold_lazy is moved from (hold_lazy.hpp:89-95: not only for rvalues). *)
Definition joins (j : pipe -> list (bool * F) -> pipe * list (bool * F)) (next : list (bool * F)) := fix go (l : list pipe) : list pipe * list (bool * F) :=
  match l with
  | [] => ([], next)
  | q :: rest => let (rest', r) := go rest in let (q', r') := j q r in (q' :: rest', r')
  end.
Fixpoint join (p : pipe) (next : list (bool * F)) : pipe * list (bool * F) :=
  match p with
  | One f => (One f, (false, f) :: next)
  | Held f => (Held (moved f), (true, f) :: next)
  | Pipe l =>
      let (l', r) := joins join next l in (Pipe l', r)      (* hana::fold_right *)
  end.

(* run_sync.hpp:51-58 with an lvalue *)
Definition run_sync (p : pipe) : pipe * list (bool * F) := join p [].

Fixpoint runs (n : nat) (p : pipe) : list (list (bool * F)) :=
  match n with O => [] | S n' => let (p', r) := run_sync p in r :: runs n' p' end.
End Join.
Arguments One {F}. Arguments Held {F}. Arguments Pipe {F}.
