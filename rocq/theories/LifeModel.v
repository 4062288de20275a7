(* Model of the life of a context: /repo/include/nbdl/make_context.hpp, context.hpp, actor_type.hpp, producer_init.hpp,
   consumer_init.hpp and def/builder/{context,enumerate_producers,enumerate_consumers}.hpp.  Actors are arbitrary
   programs, which may use their handle of the context inside of every call they get; so calls nest.  What is left to do
   is kept in a list, and a step does the first thing of it.  Messages and stores are those of StoreModel.v. *)
From Verif Require Import Base StoreModel.
Open Scope nat_scope.

(* ---- names and arguments ---- *)
(* what find(children, tag::Name) and [tag::Type] give for a Producer or Consumer *)
Record actor_def := { its_type : N; its_name : option N }.
(* the four children of a Context; absent ones are None *)
Record context_def := { a_producer : option actor_def; some_producers : option (list actor_def);
                        a_consumer : option actor_def; some_consumers : option (list actor_def) }.
(* names are compile-time strings or the types themselves *)
Inductive name := Named (n : N) | Typed (t : N).
Definition name_eqb (a b : name) : bool :=
  match a, b with Named x, Named y => N.eqb x y | Typed x, Typed y => N.eqb x y | _, _ => false end.

(* enumerate_producers.hpp:37-55: exactly one of Producer and Producers; otherwise it does not compile *)
Definition enumerate_producers (d : context_def) : option (list actor_def) :=
  match a_producer d, some_producers d with
  | Some p, None => Some [p]
  | None, Some ps => Some ps
  | _, _ => None
  end.
(* enumerate_consumers.hpp:40-54: Consumers, or else Consumer, or else none *)
Definition enumerate_consumers (d : context_def) : list actor_def :=
  match some_consumers d with
  | Some cs => cs
  | None => match a_consumer d with Some c => [c] | None => [] end
  end.
(* enumerate_producers.hpp:27-28, enumerate_consumers.hpp:31-32 *)
Definition name_of (d : actor_def) : name := match its_name d with Some n => Named n | None => Typed (its_type d) end.
(* def/builder/context.hpp:36-51 *)
Definition actor_names (d : context_def) : option (list name) :=
  match enumerate_producers d with
  | Some ps => Some (map name_of ps ++ map name_of (enumerate_consumers d))
  | None => None
  end.

(* make_context.hpp:38-52: the argument with the actor's name, or else type_c<void>, here None.  (Giving a name twice is
   not allowed, boost::hana::make_map.) *)
Fixpoint find_param {X} (params : list (name * X)) (n : name) : option X :=
  match params with
  | [] => None
  | (k, x) :: r => if name_eqb n k then Some x else find_param r n
  end.
Definition arguments {X} (names : list name) (params : list (name * X)) : list (option X) :=
  map (find_param params) names.

Section Life.
(* stores as in StoreModel.v; [fresh]: a new one of a path type *)
Variable S : Type.
Variable apply : S -> msg -> S * bool.
Variable static_false : msg -> bool.
Variable look : S -> path -> outcome.
Variable foreign : S -> msg -> S * list path.
Variable fresh : nat -> S.
(* what an actor keeps, what it is made from *)
Variable A : Type.
Variable X : Type.

(* the body of a function of an actor: reads and writes its members, applies messages to its handle of the context
   (context.hpp:350-372) and matches paths of it (context.hpp:384-394) *)
Inductive prog :=
| Ret
| Get (k : A -> prog)
| Set_ (a : A) (k : prog)
| Push (m : msg) (k : prog)
| Look (p : path) (k : outcome -> prog).

(* the class of an actor: the concepts it models, its constructor (members and body), producer_init, consumer_init,
   send_upstream_message, send_downstream_message, notify_state_change, its destructor *)
Record kind := { producer : bool; consumer : bool; state_consumer : bool;
                 construct : option X -> A * prog; init_producer : prog; init_consumer : prog;
                 on_up : msg -> prog; on_down : msg -> prog; on_notify : path -> prog; destruct_ : prog }.

(* ContextMeta: the actors, the producer of a path type, the listeners of a path type *)
Record shape := { actor : nat -> kind; producer_of : nat -> nat; listeners_of : nat -> list nat }.
Variable sh : shape.
(* the number of actors *)
Variable count : nat.

Inductive task :=
| Construct (i : nat) (a : option X)
| MakeStores
| InitProducer (i : nat)
| InitConsumer (i : nat)
| Outside (m : msg)                  (* a message applied to the context by its owner *)
| Run (i : nat) (p : prog)
| ToProducer (i : nat) (m : msg)
| ToConsumer (i : nat) (m : msg)
| ToState (i : nat) (p : path)
| Foreign (t : nat) (m : msg)
| DropStores
| Destruct (i : nat)
| Free (i : nat).

(* calls of the actors' functions; [Accepted]: a message for the consumers was applied to its store; [Answered]: one that
   the context made itself in answer to a read *)
Inductive event :=
| Constructed (i : nat) (a : option X)
| StoresMade
| InitedProducer (i : nat)
| InitedConsumer (i : nat)
| GotUp (i : nat) (m : msg)
| GotDown (i : nat) (m : msg)
| Notified (i : nat) (p : path)
| Accepted (m : msg)
| Answered (m : msg)
| StoresDropped
| Destructed (i : nat).

(* [stores], [state]: None before they are constructed and after they are destroyed.  [ub]: undefined behaviour *)
Record machine := { stores : option (nat -> S); state : nat -> option A; todo : list task; log : list event; ub : bool }.

Definition to_consumers (m : msg) : list task :=
  map (fun i => ToConsumer i m) (filter (fun i => consumer (actor sh i)) (seq 0 count)).
Definition to_state_consumers (p : path) : list task :=
  map (fun i => ToState i p) (filter (fun i => state_consumer (actor sh i)) (seq 0 count)).
Definition put (st : nat -> S) (t : nat) (s : S) : nat -> S := fun x => if Nat.eqb x t then s else st x.

(* context.hpp:156-243 push_message, up to the calls of actors and of apply_foreign_message, which follow in this order.
   (A downstream message with a create path does not compile.) *)
Definition push (st : nat -> S) (m : msg) : (nat -> S) * list task * list event :=
  let t := path_type m in
  let up := ToProducer (producer_of sh t) m in
  match path_of m with
  | None => (st, if is_upstream m then [up] else [], [])
  | Some p =>
      let others := map (fun l => Foreign l m) (listeners_of sh t) in
      if is_upstream m && is_read m then
        let st1 := put st t (fst (apply (st t) m)) in
        match look (st1 t) p with
        | TriggerRead => (st1, up :: others, [])
        | Unresolved => (st1, others, [])
        | Resolved v => match to_downstream_read m v with
                        | Some d => (st1, to_consumers d ++ others, [Answered d])
                        | None => (st1, others, [])
                        end
        end
      else
        let (s1, changed) := if static_false m then (st t, false) else apply (st t) m in
        let st1 := put st t s1 in
        let noted := if changed then to_state_consumers p else [] in
        if is_upstream m then (st1, noted ++ up :: others, [])
        else (st1, noted ++ to_consumers m ++ others, [Accepted m])
  end.

Definition upd (f : nat -> option A) (i : nat) (a : option A) : nat -> option A := fun x => if Nat.eqb x i then a else f x.

Definition undefined (s : machine) : machine :=
  {| stores := stores s; state := state s; todo := todo s; log := log s; ub := true |}.
Definition next (s : machine) (l : list task) (e : list event) : machine :=
  {| stores := stores s; state := state s; todo := l; log := log s ++ e; ub := ub s |}.
Definition with_stores (s : machine) (st : option (nat -> S)) : machine :=
  {| stores := st; state := state s; todo := todo s; log := log s; ub := ub s |}.
Definition with_state (s : machine) (i : nat) (a : option A) : machine :=
  {| stores := stores s; state := upd (state s) i a; todo := todo s; log := log s; ub := ub s |}.

(* a message is applied to the context; then [l] *)
Definition push_then (s : machine) (m : msg) (l : list task) : machine :=
  match stores s with
  | None => undefined s
  | Some st => let '(st1, ts, e) := push st m in next (with_stores s (Some st1)) (ts ++ l) e
  end.

(* context.hpp:307-337 match *)
Definition look_then (s : machine) (i : nat) (p : path) (k : outcome -> prog) (r : list task) : machine :=
  match stores s with
  | None => undefined s
  | Some st =>
      match look (st (ptype p)) p with
      | TriggerRead => push_then s (make_upstream_read 0%N (PPath p) None) (Run i (k Unresolved) :: r)
      | o => next s (Run i (k o) :: r) []
      end
  end.

(* a function of an actor is called *)
Definition call (s : machine) (i : nat) (p : prog) (r : list task) (e : list event) : machine :=
  match state s i with
  | None => undefined s
  | Some _ => next s (Run i p :: r) e
  end.

Definition run_prog (s : machine) (i : nat) (p : prog) (r : list task) : machine :=
  match p with
  | Ret => next s r []
  | Get k => match state s i with Some a => next s (Run i (k a) :: r) [] | None => undefined s end
  | Set_ a k => next (with_state s i (Some a)) (Run i k :: r) []
  | Push m k => push_then s m (Run i k :: r)
  | Look p k => look_then s i p k r
  end.

Definition step (s : machine) : machine :=
  if ub s then s else
  match todo s with
  | [] => s
  | t :: r =>
    match t with
    | Construct i a => let (x, body) := construct (actor sh i) a in
                       next (with_state s i (Some x)) (Run i body :: r) [Constructed i a]
    | MakeStores => next (with_stores s (Some fresh)) r [StoresMade]
    | InitProducer i => call s i (init_producer (actor sh i)) r [InitedProducer i]
    | InitConsumer i => call s i (init_consumer (actor sh i)) r [InitedConsumer i]
    | Outside m => push_then s m r
    | Run i p => run_prog s i p r
    | ToProducer i m => call s i (on_up (actor sh i) m) r [GotUp i m]
    | ToConsumer i m => call s i (on_down (actor sh i) m) r [GotDown i m]
    | ToState i p => call s i (on_notify (actor sh i) p) r [Notified i p]
    | Foreign l m => match stores s with
                     | None => undefined s
                     | Some st => let (s1, ps) := foreign (st l) m in
                                  next (with_stores s (Some (put st l s1))) (flat_map to_state_consumers ps ++ r) []
                     end
    | DropStores => next (with_stores s None) r [StoresDropped]
    | Destruct i => call s i (destruct_ (actor sh i)) (Free i :: r) [Destructed i]
    | Free i => next (with_state s i None) r []
    end
  end.

Fixpoint exec (n : nat) (s : machine) : machine := match n with O => s | Datatypes.S n => exec n (step s) end.

(* context.hpp:41-63 init_actors *)
Definition inits : list task :=
  map InitProducer (filter (fun i => producer (actor sh i)) (seq 0 count)) ++
  map InitConsumer (filter (fun i => consumer (actor sh i)) (seq 0 count)).
(* context.hpp:112-113, 250-260: the members are constructed in their order, the actors before the stores *)
Definition build (args : list (option X)) : list task :=
  map (fun x => Construct (fst x) (snd x)) (combine (seq 0 count) args) ++ MakeStores :: inits.
(* and destroyed in the reverse order *)
Definition tear_down : list task := DropStores :: map Destruct (rev (seq 0 count)).

(* a context is made with make_context, its owner applies messages to it and destroys it *)
Definition life (args : list (option X)) (ms : list msg) : machine :=
  {| stores := None; state := fun _ => None; todo := build args ++ map Outside ms ++ tear_down; log := []; ub := false |}.

End Life.

Arguments Ret {A}.
Arguments Get {A} k.
Arguments Set_ {A} a k.
Arguments Push {A} m k.
Arguments Look {A} p k.
Arguments Constructed {X} i a.
Arguments StoresMade {X}.
Arguments InitedProducer {X} i.
Arguments InitedConsumer {X} i.
Arguments GotUp {X} i m.
Arguments GotDown {X} i m.
Arguments Notified {X} i p.
Arguments Accepted {X} m.
Arguments Answered {X} m.
Arguments StoresDropped {X}.
Arguments Destructed {X} i.
Arguments Construct {A X} i a.
Arguments MakeStores {A X}.
Arguments InitProducer {A X} i.
Arguments InitConsumer {A X} i.
Arguments Outside {A X} m.
Arguments Run {A X} i p.
Arguments ToProducer {A X} i m.
Arguments ToConsumer {A X} i m.
Arguments ToState {A X} i p.
Arguments Foreign {A X} t m.
Arguments DropStores {A X}.
Arguments Destruct {A X} i.
Arguments Free {A X} i.
