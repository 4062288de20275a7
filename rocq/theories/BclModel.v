(* Model of the WebSocket of a client in the browser, /repo/include/nbdl/app/client_connection_js.hpp, with the part of the DOM
   it uses: the listeners of the socket and how an event is dispatched to them.
   The promises init and read_message belong to an endpoint whose other parts are not modelled: between the call of a
   resolver and its return, and while nothing runs, the endpoint may start a read or destroy the state of the connection.
   A read is known by its number.  The text of a message is what JSON.parse makes of it: None if it throws (as it does
   for an ArrayBuffer). *)
From Verif Require Import Base.
Open Scope nat_scope.

Inductive owner := Init | Read (n : nat).
Inductive kind := Open | Error | Close | Message.
Inductive event := EOpen | EError | EClose | EMessage (m : option N).
Definition kind_of (e : event) : kind := match e with EOpen => Open | EError => Error | EClose => Close | EMessage _ => Message end.
(* what a resolver is called with *)
Inductive outcome := Ready | Got (m : N) | Failed (e : event).

Inductive frame :=
| Dispatch (e : event) (os : list owner)   (* the listeners that the event still has to reach *)
| Body (o : owner).                        (* in a callback, which called the resolver *)

Record st := {
  listeners : list (kind * owner);    (* of the socket, in order *)
  silent : list owner;                (* whose variables ready_cb, message_cb and error_cb are function() { } by now *)
  ready_cb : option owner;            (* the promise that made the callback_t in the state; None: the one of the default initializer, or none *)
  message_cb : option owner;
  error_cb : option owner;
  alive : bool;                       (* the state of the connection *)
  next : nat;                         (* the next read *)
  stack : list frame;
  out : list (owner * outcome) }.     (* calls of resolvers, newest first *)

Definition owner_eqb (a b : owner) : bool := match a, b with Init, Init => true | Read n, Read m => Nat.eqb n m | _, _ => false end.
Definition kind_eqb (a b : kind) : bool := match a, b with Open, Open | Error, Error | Close, Close | Message, Message => true | _, _ => false end.
Definition is (o : owner) (x : option owner) : bool := match x with Some o' => owner_eqb o o' | None => false end.

(* init, lines 43-89 *)
Definition init : st :=
  {| listeners := [(Open, Init); (Error, Init); (Close, Init)]; silent := []; ready_cb := Some Init; message_cb := None; error_cb := Some Init;
     alive := true; next := 0; stack := []; out := [] |}.

(* read_message, lines 91-145: the callbacks of the read before are destroyed by the assignments *)
Definition start (s : st) : st :=
  {| listeners := listeners s ++ [(Error, Read (next s)); (Close, Read (next s)); (Message, Read (next s))]; silent := silent s; ready_cb := ready_cb s;
     message_cb := Some (Read (next s)); error_cb := Some (Read (next s)); alive := alive s; next := S (next s); stack := stack s; out := out s |}.

(* ~state *)
Definition destroy (s : st) : st :=
  {| listeners := listeners s; silent := silent s; ready_cb := None; message_cb := None; error_cb := None; alive := false; next := next s; stack := stack s; out := out s |}.

Definition with_stack (k : list frame) (s : st) : st :=
  {| listeners := listeners s; silent := silent s; ready_cb := ready_cb s; message_cb := message_cb s; error_cb := error_cb s; alive := alive s; next := next s;
     stack := k; out := out s |}.
Definition listening (e : event) (o : owner) (s : st) : bool := existsb (fun x => kind_eqb (fst x) (kind_of e) && owner_eqb (snd x) o) (listeners s).

(* close_out, lines 61-64, and clean_up_listeners, lines 126-133 *)
Definition clean_up (o : owner) (s : st) : st :=
  {| listeners := match o with Init => listeners s | Read _ => filter (fun x => negb (owner_eqb (snd x) o)) (listeners s) end; silent := o :: silent s;
     ready_cb := ready_cb s; message_cb := message_cb s; error_cb := error_cb s; alive := alive s; next := next s; stack := stack s; out := out s |}.

(* which callback a listener calls, and with what; lines 66-81, 111-124 *)
Definition reaction (o : owner) (e : event) (s : st) : option (option owner * outcome) :=
  match o, e with
  | Init, EOpen => Some (ready_cb s, Ready)
  | _, (EError | EClose) => Some (error_cb s, Failed e)
  | Read _, EMessage (Some m) => Some (message_cb s, Got m)
  | _, _ => None (* not listening, or JSON.parse throws *)
  end.

Definition said (x : owner * outcome) (s : st) : st :=
  {| listeners := listeners s; silent := silent s; ready_cb := ready_cb s; message_cb := message_cb s; error_cb := error_cb s; alive := alive s; next := next s;
     stack := stack s; out := x :: out s |}.

(* Fire: an event happens; Tick: the innermost frame goes on; Start, Destroy: what the endpoint does *)
Inductive label := Fire (e : event) | Tick | Start | Destroy.
(* Bad: a callback is called after the end of its life, or a read started without a state: undefined behaviour *)
Inductive config := Run (s : st) | Bad.

Definition in_cpp (s : st) : bool := match stack s with [] | Body _ :: _ => true | _ => false end.

(* None: not possible here *)
Definition step (s : st) (l : label) : option config :=
  match l with
  | Fire e => match stack s with [] => Some (Run (with_stack [Dispatch e (map snd (filter (fun x => kind_eqb (fst x) (kind_of e)) (listeners s)))] s)) | _ => None end
  | Start => if in_cpp s then Some (if alive s then Run (start s) else Bad) else None
  | Destroy => if in_cpp s then Some (if alive s then Run (destroy s) else Bad) else None
  | Tick =>
      match stack s with
      | [] => None
      | Body o :: k => Some (Run (with_stack k (clean_up o s)))
      | Dispatch e [] :: k => Some (Run (with_stack k s))
      | Dispatch e (o :: os) :: k =>
          let rest := with_stack (Dispatch e os :: k) s in
          Some (if listening e o s && negb (existsb (owner_eqb o) (silent s)) then
                  match reaction o e s with
                  | None => Run rest
                  | Some (cb, x) => if is o cb then Run (with_stack (Body o :: Dispatch e os :: k) (said (o, x) s)) else Bad
                  end
                else Run rest)
      end
  end.

Inductive exec : list label -> config -> Prop :=
| ex_nil : exec [] (Run init)
| ex_snoc ls l s c : exec ls (Run s) -> step s l = Some c -> exec (ls ++ [l]) c.
