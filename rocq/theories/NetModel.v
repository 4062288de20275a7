(* Model of one context with nbdl::app::server and any number of contexts with nbdl::app::client connected to it:
   /repo/include/nbdl/app/server.hpp, server_connection.hpp, client.hpp, client_connection.hpp, context_endpoint.hpp and
   ext/beast_ws.hpp, over the contexts of StoreModel.v with map_store.  What a connection carries is a sequence of texts
   in each direction (full_duplex, not part of the repository, is taken to keep their order and to copy them).  The
   serializers are parameters. *)
From Verif Require Import Base StoreModel.

(* what a deserializer (app/serializer.hpp:58-84) does with a text: resolves with a message, rejects, or resolves and
   then rejects (the behaviour is then undefined).  A deserializer in a browser (app/serializer_js.hpp:49-71) may also throw
   before it resolves *)
Inductive incoming := Message (m : msg) | Refused | Twice | Thrown.

(* a store without apply_foreign_message (map_store.hpp defines none) *)
Definition ignores (s : table) (m : msg) : table * list path := (s, []).

Section Net.
Variable text : Type.
(* serializer_upstream in the client, deserializer_upstream in the server; serializer_downstream in the server,
   deserializer_downstream in the client.  Those of the clients may differ: the i-th may be a program of its own or in a browser *)
Variable up_text : nat -> msg -> text.
Variable up_read : text -> incoming.
Variable down_text : msg -> text.
Variable down_read : nat -> text -> incoming.
(* the server's context: its producers, its actors, the index of nbdl::app::server *)
Variable P : Type.
Variable react : P -> msg -> P * list msg.
Variable ssh : shape.
Variable srv : nat.
(* a client's context: its actors, the index of nbdl::app::client *)
Variable csh : shape.
Variable cli : nat.

(* a connection as the server knows it: event::init not yet reached, registered, unregistered *)
Inductive link := Coming | Known | Gone.

(* a client context and its connection.  [alive]: the client's endpoint runs; [ruined]: undefined behaviour happened.
   [outbox]: texts sent by the client and not yet read by the server; [inbox]: the other direction.
   Records of what happened: [asked]: calls of client_impl::send_message; [got]: messages pushed by the client's
   endpoint; [since]: number of messages told before the connection was registered. *)
Record client := { view : state table unit; alive : bool; ruined : bool; at_server : link;
                   outbox : list text; inbox : list text; asked : list msg; got : list msg; since : nat }.

(* [told]: calls of server_impl::send_message; [served]: messages pushed into the server's context and the client
   whose connection they came from (none: the server's own) *)
Record net := { hub : state table P; crashed : bool; told : list msg; served : list (option nat * msg); members : list client }.

Definition client_push : state table unit -> msg -> state table unit * list (event table) :=
  push table map_apply map_static_false map_match ignores unit (fun u _ => (u, [])) csh.
Definition hub_push : state table P -> msg -> state table P * list (event table) :=
  push table map_apply map_static_false map_match ignores P react ssh.

(* the messages which the context gives to nbdl::app::server (server.hpp:200-206) *)
Definition for_server (e : list (event table)) : list msg :=
  flat_map (fun x => match x with ToConsumer i m _ => if Nat.eqb i srv then [m] else [] | _ => [] end) e.
(* the messages which the context gives to nbdl::app::client (client.hpp:108-114) *)
Definition for_client (e : list (event table)) : list msg :=
  flat_map (fun x => match x with ToProducer i m _ => if Nat.eqb i cli then [m] else [] | _ => [] end) e.

(* client.hpp:63-72, 93-101: a new context connects at once *)
Definition new_client : client :=
  {| view := {| stores := fun _ => []; producers := fun _ => tt |}; alive := true; ruined := false; at_server := Coming;
     outbox := []; inbox := []; asked := []; got := []; since := 0 |}.

(* client.hpp:74-82: without a connection the message is dropped.  (Sending on an endpoint that has ended is taken to do
   nothing too.) *)
Definition send (i : nat) (c : client) (st : state table unit) (ms : list msg) : client :=
  {| view := st; alive := alive c; ruined := ruined c; at_server := at_server c;
     outbox := if alive c then outbox c ++ map (up_text i) ms else outbox c;
     inbox := inbox c; asked := asked c ++ ms; got := got c; since := since c |}.

(* server.hpp:176-182: to all connections *)
Definition hear (ms : list msg) (c : client) : client :=
  match at_server c with
  | Known => {| view := view c; alive := alive c; ruined := ruined c; at_server := at_server c; outbox := outbox c;
                inbox := inbox c ++ map down_text ms; asked := asked c; got := got c; since := since c |}
  | _ => c
  end.

Definition with_link (l : link) (n : nat) (c : client) : client :=
  {| view := view c; alive := alive c; ruined := ruined c; at_server := l; outbox := outbox c; inbox := inbox c;
     asked := asked c; got := got c; since := n |}.
Definition with_outbox (o : list text) (c : client) : client :=
  {| view := view c; alive := alive c; ruined := ruined c; at_server := at_server c; outbox := o; inbox := inbox c;
     asked := asked c; got := got c; since := since c |}.
Definition with_inbox (o : list text) (c : client) : client :=
  {| view := view c; alive := alive c; ruined := ruined c; at_server := at_server c; outbox := outbox c; inbox := o;
     asked := asked c; got := got c; since := since c |}.
Definition hang_up (c : client) : client :=
  {| view := view c; alive := false; ruined := ruined c; at_server := at_server c; outbox := outbox c; inbox := inbox c;
     asked := asked c; got := got c; since := since c |}.
Definition ruin (c : client) : client :=
  {| view := view c; alive := false; ruined := true; at_server := at_server c; outbox := outbox c; inbox := inbox c;
     asked := asked c; got := got c; since := since c |}.
Definition with_got (m : msg) (c : client) : client :=
  {| view := view c; alive := alive c; ruined := ruined c; at_server := at_server c; outbox := outbox c; inbox := inbox c;
     asked := asked c; got := got c ++ [m]; since := since c |}.

(* context.hpp:156-243 in the client's context, then client_impl *)
Definition client_does (i : nat) (m : msg) (c : client) : client :=
  let (st, e) := client_push (view c) m in send i c st (for_client e).

(* the same in the server's context, then server_impl *)
Definition hub_does (who : option nat) (m : msg) (n : net) : net :=
  let (st, e) := hub_push (hub n) m in
  {| hub := st; crashed := crashed n; told := told n ++ for_server e; served := served n ++ [(who, m)];
     members := map (hear (for_server e)) (members n) |}.

Fixpoint set_at {A} (l : list A) (i : nat) (x : A) : list A :=
  match l, i with
  | [], _ => []
  | _ :: r, O => x :: r
  | y :: r, S j => y :: set_at r j x
  end.
Definition with_member (n : net) (i : nat) (c : client) : net :=
  {| hub := hub n; crashed := crashed n; told := told n; served := served n; members := set_at (members n) i c |}.
Definition crash (n : net) : net :=
  {| hub := hub n; crashed := true; told := told n; served := served n; members := members n |}.

(* what can happen *)
Inductive label :=
| Connect                       (* a new client context is made *)
| Register (i : nat)            (* its connection reaches event::init in the server: server_connection.hpp:39-43, 74 *)
| Ask (i : nat) (m : msg)       (* the application of client i pushes a message *)
| Tell (m : msg)                (* the application of the server pushes a message *)
| Serve (i : nat)               (* the server reads a text of client i *)
| Deliver (i : nat)             (* client i reads a text *)
| Inject (i : nat) (t : text)   (* something else than nbdl::app::client writes to the connection of client i *)
| DropServer (i : nat)          (* the server's end of the connection fails or is closed: event::terminate, 78 *)
| DropClient (i : nat).         (* the client's end *)

Definition step (n : net) (l : label) : option net :=
  match l with
  | Connect => Some {| hub := hub n; crashed := crashed n; told := told n; served := served n; members := members n ++ [new_client] |}
  | Tell m => if crashed n then None else Some (hub_does None m n)
  | Register i | Ask i _ | Serve i | Deliver i | Inject i _ | DropServer i | DropClient i =>
    match nth_error (members n) i with
    | None => None
    | Some c =>
      match l with
      | Register _ => match at_server c with
                      | Coming => if crashed n then None else Some (with_member n i (with_link Known (length (told n)) c))
                      | _ => None
                      end
      | Ask _ m => if ruined c then None else Some (with_member n i (client_does i m c))
      (* server_connection.hpp:75-76, context_endpoint.hpp:31-37: deserialize, push *)
      | Serve _ => match crashed n, at_server c, outbox c with
                   | false, Known, t :: r =>
                       let n1 := with_member n i (with_outbox r c) in
                       match up_read t with
                       | Message m => Some (hub_does (Some i) m n1)
                       | Refused => Some (with_member n i (with_link Gone (since c) (with_outbox r c)))
                       | Twice | Thrown => Some (crash n1)   (* nobody catches it *)
                       end
                   | _, _, _ => None
                   end
      (* client.hpp:27-40 *)
      | Deliver _ => match alive c, inbox c with
                     | true, t :: r =>
                         match down_read i t with
                         | Message m => Some (with_member n i (client_does i m (with_got m (with_inbox r c))))
                         | Refused => Some (with_member n i (hang_up (with_inbox r c)))
                         | Twice => Some (with_member n i (ruin (with_inbox r c)))
                         (* client_connection_js.hpp:121-124: the listeners stay, and the read waits for the next message *)
                         | Thrown => Some (with_member n i (with_inbox r c))
                         end
                     | _, _ => None
                     end
      | Inject _ t => Some (with_member n i (with_outbox (outbox c ++ [t]) c))
      | DropServer _ => match at_server c with
                        | Gone => None
                        | _ => if crashed n then None else Some (with_member n i (with_link Gone (since c) c))
                        end
      | DropClient _ => if alive c then Some (with_member n i (hang_up c)) else None
      | _ => None
      end
    end
  end.

Fixpoint run (n : net) (ls : list label) : option net :=
  match ls with
  | [] => Some n
  | l :: r => match step n l with Some n1 => run n1 r | None => None end
  end.

(* nobody is connected *)
Definition start (st : state table P) : net := {| hub := st; crashed := false; told := []; served := []; members := [] |}.
End Net.
