(* Model of promise pipelines: /repo/include/nbdl/promise.hpp, detail/wrap_promise.hpp, fwd/detail/promise_join.hpp,
   detail/promise_join.hpp, catch.hpp, tap.hpp, try.hpp, pipe.hpp, run_async.hpp, run_async_loop.hpp and run_sync.hpp.
   A C++ value is its type and a number.  What user code does may depend on everything that happened before it.
   Everything runs on one thread; make_lazy_holder (detail/promise_join.hpp:34-42) is not modelled. *)
From Verif Require Import Base.
Open Scope nat_scope.

Definition args := list (nat * N).
Definition types (a : args) : list nat := map fst a.

(* what the outside world can observe *)
Inductive event :=
| Ran (name : nat) (a : args)      (* the user's function of this stage is called *)
| Caught (name : nat) (a : args)   (* the handler of this catch is called *)
| EndResolve (a : args) | EndReject (a : args) | EndTerminate
| Restart (a : args).              (* a pass of a loop begins again *)

(* what a stage may do with its resolver *)
Inductive call := Resolve (a : args) | Reject (a : args) | Terminate.
(* at once, or from a callback that runs after the current call stack is left *)
Inductive act := Now (c : call) | Later (c : call).

Inductive fres := Ret (a : args) | Throw (a : args).

Inductive stage :=
| Fn (name : nat) (f : list event -> args -> fres)              (* wrap_promise.hpp:33-50 a plain function *)
| Try (name : nat) (f : list event -> args -> fres)             (* try.hpp:18-45 *)
| Tap (name : nat) (f : list event -> args -> fres)             (* tap.hpp:16-27 *)
| Prom (name : nat) (p : list event -> args -> list act)        (* promise.hpp:16-41 *)
| Catch (name : nat) (invocable : list nat -> bool) (f : list event -> args -> fres). (* catch.hpp:21-59 *)

(* pipe.hpp:16 a pipe is a tuple whose elements may be pipes *)
Inductive pipe := Stage (s : stage) | Pipe (l : list pipe).

(* detail/promise_join.hpp:24-52: a tuple is folded from the right onto what follows it.  promise_join_t nests to the
   right, so a joined promise is the list of its stages; its end is not part of the list. *)
Fixpoint promise_join (current : pipe) (next : list stage) : list stage :=
  match current with
  | Stage s => s :: next
  | Pipe l => fold_right promise_join next l
  end.

(* which runner put the end on the pipeline *)
Inductive mode := Async | Loop | Sync.

(* a call on the joined promise at a position (the number of stages before it) *)
Definition task : Type := nat * call.

Record cfg := mk_cfg {
  stack : list task;    (* calls still to be made before the current call stack is left, innermost first *)
  pool : list task;     (* calls that callbacks will make *)
  alive : bool;         (* the object holding the joined promise exists *)
  hist : list event;    (* what has happened *)
  depth : nat           (* nested calls on the current call stack *)
}.

Inductive outcome := Running (c : cfg) | UseAfterFree (h : list event) | Aborted (h : list event).

Definition now_calls (l : list act) : list call :=
  flat_map (fun a => match a with Now c => [c] | Later _ => [] end) l.
Definition later_calls (l : list act) : list call :=
  flat_map (fun a => match a with Now _ => [] | Later c => [c] end) l.

(* promise_join_t's next member is the joined promise one position further on *)
Definition forward (c : cfg) (i : nat) (ev : list event) (l : list act) : outcome :=
  Running (mk_cfg (map (pair (S i)) (now_calls l) ++ stack c) (pool c ++ map (pair (S i)) (later_calls l)) (alive c) (hist c ++ ev) (S (depth c))).

(* promise_join_t::resolve, fwd/detail/promise_join.hpp:94-98, with the resolve of each kind of stage.
   promise_t::resolve is noexcept (promise.hpp:30) so an exception that is not caught ends the process. *)
Definition resolve_stage (c : cfg) (i : nat) (s : stage) (a : args) : outcome :=
  let h := hist c in
  match s with
  | Fn n f => match f h a with Ret b => forward c i [Ran n a] [Now (Resolve b)] | Throw _ => Aborted (h ++ [Ran n a]) end
  | Try n f => match f h a with Ret b => forward c i [Ran n a] [Now (Resolve b)] | Throw e => forward c i [Ran n a] [Now (Reject e)] end
  | Tap n f => match f h a with Ret _ => forward c i [Ran n a] [Now (Resolve a)] | Throw _ => Aborted (h ++ [Ran n a]) end
  | Prom n p => forward c i [Ran n a] (p h a)
  | Catch _ _ _ => forward c i [] [Now (Resolve a)]  (* catch.hpp:29-33 *)
  end.

(* promise_join_t::reject, fwd/detail/promise_join.hpp:100-104: promise.hpp:36-40 and catch.hpp:36-47 *)
Definition reject_stage (c : cfg) (i : nat) (s : stage) (a : args) : outcome :=
  match s with
  | Catch n inv f =>
      if inv (types a)
      then match f (hist c) a with Ret _ => forward c i [Caught n a] [Now Terminate] | Throw _ => Aborted (hist c ++ [Caught n a]) end
      else forward c i [] [Now (Reject a)]
  | _ => forward c i [] [Now (Reject a)]
  end.

(* the end of the pipeline: run_async.hpp:22-58, run_async_loop.hpp:22-60, run_sync.hpp:22-46.
   reject is a static_assert in all three: a program in which it is reached does not compile.  EndReject records it. *)
Definition end_call (m : mode) (c : cfg) (k : call) : outcome :=
  let log ev live := Running (mk_cfg (stack c) (pool c) live (hist c ++ [ev]) (S (depth c))) in
  match m, k with
  | _, Reject a => log (EndReject a) (alive c)
  | Async, Resolve a => log (EndResolve a) false         (* delete end *)
  | Async, Terminate => log EndTerminate false
  | Loop, Resolve a =>                                   (* end->promise.resolve(args...) *)
      Running (mk_cfg ((0, Resolve a) :: stack c) (pool c) (alive c) (hist c ++ [Restart a]) (S (depth c)))
  | Loop, Terminate => log EndTerminate false
  | Sync, Resolve a => log (EndResolve a) (alive c)
  | Sync, Terminate => log EndTerminate (alive c)
  end.

(* run_sync's joined promise is a temporary: it dies when the call returns (run_sync.hpp:55-58) *)
Definition settle (m : mode) (o : outcome) : outcome :=
  match m, o with
  | Sync, Running c => match stack c with [] => Running (mk_cfg [] (pool c) false (hist c) (depth c)) | _ => o end
  | _, _ => o
  end.

(* one call on a joined promise; terminate goes straight to the next (fwd/detail/promise_join.hpp:106-109) *)
Definition deliver (m : mode) (l : list stage) (c : cfg) (t : task) : outcome :=
  let (i, k) := t in
  if negb (alive c) then UseAfterFree (hist c)
  else settle m (match nth_error l i with
  | None => end_call m c k
  | Some s => match k with
              | Resolve a => resolve_stage c i s a
              | Reject a => reject_stage c i s a
              | Terminate => forward c i [] [Now Terminate]
              end
  end).

(* Tick makes the innermost outstanding call; once the call stack is left, Fire n runs the n-th callback *)
Inductive label := Tick | Fire (n : nat).

Definition remove_nth {A} (n : nat) (l : list A) : list A := firstn n l ++ skipn (S n) l.

Definition step (m : mode) (l : list stage) (c : cfg) (lb : label) : option outcome :=
  match lb with
  | Tick => match stack c with
            | [] => None
            | t :: r => Some (deliver m l (mk_cfg r (pool c) (alive c) (hist c) (depth c)) t)
            end
  | Fire n => match stack c, nth_error (pool c) n with
              | [], Some t => Some (deliver m l (mk_cfg [] (remove_nth n (pool c)) (alive c) (hist c) 0) t)
              | _, _ => None
              end
  end.

Fixpoint exec (m : mode) (l : list stage) (o : outcome) (ls : list label) : option outcome :=
  match ls with
  | [] => Some o
  | lb :: r => match o with
               | Running c => match step m l c lb with Some o' => exec m l o' r | None => None end
               | _ => None
               end
  end.

(* run_async_fn (run_async.hpp:83-96), run_async_loop_fn (run_async_loop.hpp:85-98), run_sync_fn (run_sync.hpp:49-60) *)
Definition start (a : args) : outcome := Running (mk_cfg [(0, Resolve a)] [] true [] 0).
Definition run (m : mode) (p : pipe) (a : args) (ls : list label) : option outcome :=
  exec m (promise_join p []) (start a) ls.

Definition quiet (c : cfg) : Prop := stack c = [] /\ pool c = [].
