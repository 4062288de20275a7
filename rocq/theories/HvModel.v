(* Model of /repo/include/nbdl/hold.hpp: values which a stage of a promise pipeline holds and gives to the stages behind it by
   reference, with tap.hpp, catch.hpp, detail/wrap_promise.hpp, promise.hpp and the runners run_async.hpp, run_async_loop.hpp and run_sync.hpp.
   PromiseModel.v models pipelines in which everything is passed by value, HlModel.v the lives of objects that stages make.
   What user code does may depend on everything that happened before it.  A callback that keeps an
   argument which is no reference keeps a copy.  A function that is given two references to one object leaves in it what it
   leaves in the last of them.  Everything runs on one thread. *)
From Verif Require Import Base.
Open Scope nat_scope.

(* what a stage is called with: a reference to the value that stage o holds, or a temporary *)
Inductive arg := Ref (o : nat) | Temp (x : N).
(* what a stage passes on: its argument number k, or something new *)
Inductive res := Same (k : nat) | New (x : N).

(* the function of stage i is called: each argument, its value before and after *)
Inductive event := Ran (i : nat) (l : list (arg * (N * N))) | Restart | Freed.

Inductive call := Resolve (l : list res) | Reject (l : list res) | Terminate.
(* at once, or from a callback that runs after the current call stack is left *)
Inductive act := Now (c : call) | Later (c : call).

(* functions are given the values of their arguments and say what they leave in them *)
Inductive stage :=
| Hold (x : N)                                             (* hold.hpp:19-37 *)
| Fn (f : list event -> list N -> list N * list res)       (* wrap_promise.hpp:33-50: none or one result *)
| Tap (f : list event -> list N -> list N)                 (* tap.hpp:16-27 *)
| Prom (f : list event -> list N -> list N * list act)     (* promise.hpp:16-41 *)
| Catch (takes : list arg -> bool) (f : list event -> list N -> list N).  (* catch.hpp:21-59; whether the handler takes what was rejected *)

Inductive mode := Async | Loop | Sync.
Inductive goal := Go (l : list arg) | Err (l : list arg) | Stop.
Definition task : Type := nat * goal.

Record cfg := mk_cfg {
  stack : list task;       (* calls on the part of the pipeline that begins at a stage, innermost first *)
  pool : list task;        (* calls that callbacks will make *)
  alive : bool;            (* the object holding the joined promise exists *)
  mem : nat -> N;          (* the value that a stage holds *)
  hist : list event
}.
(* the memory of the pipeline is used after it was freed: undefined behaviour *)
Inductive outcome := Running (c : cfg) | UseAfterFree.

(* the held values are part of the joined promise (fwd/detail/promise_join.hpp:74-86) *)
Definition initial (l : list stage) (o : nat) : N := match nth_error l o with Some (Hold x) => x | _ => 0%N end.
Definition start (l : list stage) (a : list N) : cfg := mk_cfg [(0, Go (map Temp a))] [] true (initial l) [].

Definition seen (m : nat -> N) (a : arg) : N := match a with Ref o => m o | Temp x => x end.
(* what the function leaves in its arguments; those it says nothing about stay as they are *)
Fixpoint leaves (before after : list N) : list N :=
  match before, after with
  | b :: bs, a :: r => a :: leaves bs r
  | _, [] => before
  | [], _ => []
  end.
Definition store (m : nat -> N) (a : arg) (x : N) : nat -> N := match a with Ref o => fun p => if p =? o then x else m p | Temp _ => m end.
Fixpoint store_all (m : nat -> N) (l : list arg) (xs : list N) : nat -> N :=
  match l, xs with a :: l', x :: xs' => store_all (store m a x) l' xs' | _, _ => m end.
Definition now (a : arg) (x : N) : arg := match a with Ref o => Ref o | Temp _ => Temp x end.
Fixpoint now_all (l : list arg) (xs : list N) : list arg := match l, xs with a :: l', x :: xs' => now a x :: now_all l' xs' | _, _ => [] end.
Definition pick (l : list arg) (r : res) : arg := match r with Same k => nth k l (Temp 0) | New x => Temp x end.
Definition goal_of (l : list arg) (c : call) : goal := match c with Resolve rs => Go (map (pick l) rs) | Reject rs => Err (map (pick l) rs) | Terminate => Stop end.

Definition now_calls (l : list act) : list call := flat_map (fun a => match a with Now c => [c] | Later _ => [] end) l.
Definition later_calls (l : list act) : list call := flat_map (fun a => match a with Now _ => [] | Later c => [c] end) l.

(* the function of stage i has been called with [a], leaves [after] in it, and does [acts] *)
Definition called (c : cfg) (i : nat) (a : list arg) (after : list N) (acts : list arg -> list act) : cfg :=
  let before := map (seen (mem c)) a in
  let xs := leaves before after in
  let a' := now_all a xs in
  mk_cfg (map (fun k => (S i, goal_of a' k)) (now_calls (acts a')) ++ stack c) (pool c ++ map (fun k => (S i, goal_of a' k)) (later_calls (acts a')))
    (alive c) (store_all (mem c) a xs) (hist c ++ [Ran i (combine a (combine before xs))]).

Definition free (c : cfg) : cfg := mk_cfg (stack c) (pool c) false (mem c) (hist c ++ [Freed]).
Definition push (c : cfg) (t : task) : cfg := mk_cfg (t :: stack c) (pool c) (alive c) (mem c) (hist c).

(* run_async.hpp:22-58, run_async_loop.hpp:22-60, run_sync.hpp:22-46.  A rejection that may come here does not compile; the model lets it
   be the end like any other *)
Definition end_call (m : mode) (c : cfg) (g : goal) : cfg :=
  match m, g with
  | Async, _ | Loop, Stop | Loop, Err _ => free c
  | Loop, Go a => mk_cfg ((0, Go a) :: stack c) (pool c) (alive c) (mem c) (hist c ++ [Restart])
  | Sync, _ => c
  end.

(* promise.hpp:24-36 through fwd/detail/promise_join.hpp:94-109 *)
Definition call_stage (m : mode) (l : list stage) (c : cfg) (i : nat) (g : goal) : cfg :=
  match nth_error l i, g with
  | None, _ => end_call m c g
  | Some _, Stop => push c (S i, Stop)
  | Some (Catch takes f), Err a => if takes a then called c i a (f (hist c) (map (seen (mem c)) a)) (fun _ => [Now Terminate]) else push c (S i, Err a)
  | Some _, Err a => push c (S i, Err a)
  | Some (Hold _), Go _ => push c (S i, Go [Ref i])                                                        (* hold.hpp:24-28 *)
  | Some (Fn f), Go a => let (after, r) := f (hist c) (map (seen (mem c)) a) in called c i a after (fun _ => [Now (Resolve r)])
  | Some (Tap f), Go a => called c i a (f (hist c) (map (seen (mem c)) a)) (fun a' => [Now (Resolve (map Same (seq 0 (length a'))))])
  | Some (Catch _ _), Go a => push c (S i, Go a)
  | Some (Prom f), Go a => let (after, acts) := f (hist c) (map (seen (mem c)) a) in called c i a after (fun _ => acts)
  end.

(* run_sync's joined promise is a temporary: it dies when the call returns (run_sync.hpp:49-60) *)
Definition settle (m : mode) (c : cfg) : cfg := match m, stack c, alive c with Sync, [], true => free c | _, _, _ => c end.
Definition deliver (m : mode) (l : list stage) (c : cfg) (t : task) : outcome :=
  if alive c then Running (settle m (call_stage m l c (fst t) (snd t))) else UseAfterFree.

(* Tick: the innermost call; Fire: once the call stack is left, a callback runs *)
Inductive label := Tick | Fire (n : nat).
Definition remove_nth {A} (n : nat) (l : list A) : list A := firstn n l ++ skipn (S n) l.
Definition step (m : mode) (l : list stage) (c : cfg) (lb : label) : option outcome :=
  match lb, stack c with
  | Tick, [] => None
  | Tick, t :: r => Some (deliver m l (mk_cfg r (pool c) (alive c) (mem c) (hist c)) t)
  | Fire _, _ :: _ => None
  | Fire n, [] => match nth_error (pool c) n with
                  | Some t => Some (deliver m l (mk_cfg [] (remove_nth n (pool c)) (alive c) (mem c) (hist c)) t)
                  | None => None
                  end
  end.
Fixpoint exec (m : mode) (l : list stage) (o : outcome) (ls : list label) : option outcome :=
  match ls with
  | [] => Some o
  | lb :: r => match o with Running c => match step m l c lb with Some o' => exec m l o' r | None => None end | UseAfterFree => None end
  end.
