(* Model of the server in JavaScript, /repo/include/nbdl/app/server_js.hpp, with app/serializer_js.hpp and the JavaScript binder (JsbModel).
   Connections are numbers.  The context behind the server is a function from the messages it was given to the messages it sends
   downstream in return; other producers may send messages downstream at any time.
   The events of the ws library: 'connection', 'message' and the end of a connection.  An exception that leaves a listener ends the process. *)
From Verif Require Import Base JsonModel JsbModel AppModel.
Open Scope N_scope.

Definition msg := (nat * value)%type.      (* which message type, and the message *)

Section Server.
Variable lenient : list N -> list N.
Variable other_number : jsv -> Z.
Variable like_bytes : list (list N * jsv) -> option (list N).
Variable parse : list N -> option jsv.     (* JSON.parse; None: it throws *)
Variable context : list msg -> msg -> list msg.
Variable sys : shape.
Variables ups downs : list shape.          (* the messages that clients send, and those that they get *)
Variable strict : bool.                    (* WebSocket.send throws when the connection is closed, as in ws before version 7 *)

(* serializer::serialize, serializer_js.hpp:31-36 *)
Definition to_doc (m : msg) : res jsv := bind_to lenient (message_variant sys downs) (VVar (S (S (fst m))) (snd m)).

(* deserializer_fn, serializer_js.hpp:44-66 *)
Inductive decoded := Accept (m : msg) | Reject | Exception | Undefined.
Definition decode (j : jsv) : decoded :=
  match bind_from lenient other_number like_bytes (message_variant sys ups) j (default (message_variant sys ups)) with
  | UB => Undefined
  | Ok None => Exception
  | Ok (Some (VVar (S (S i)) v)) => Accept (i, v)
  | Ok (Some _) => Reject
  end.

Record st := {
  connections : list N;              (* server_impl::connections *)
  over : list N;                     (* connections that either side has closed *)
  received : list (N * jsv);         (* what was sent to whom, in order *)
  given : list msg }.                (* what the context was given *)
Inductive config := Run (s : st) | Crash | Bad.
Definition init : st := {| connections := []; over := []; received := []; given := [] |}.
Definition is_over (s : st) (c : N) : bool := existsb (N.eqb c) (over s).

(* send_message, server_js.hpp:76-90; None: an exception *)
Fixpoint send_each (j : jsv) (s : st) (cs : list N) (log : list (N * jsv)) : option (list (N * jsv)) :=
  match cs with
  | [] => Some log
  | c :: r => if is_over s c then if strict then None else send_each j s r log else send_each j s r (log ++ [(c, j)])
  end.
Definition broadcast (m : msg) (s : st) : config :=
  match to_doc m with
  | UB => Bad
  | Ok j => match send_each j s (connections s) (received s) with
            | None => Crash
            | Some log => Run {| connections := connections s; over := over s; received := log; given := given s |}
            end
  end.
Fixpoint broadcasts (ms : list msg) (s : st) : config :=
  match ms with [] => Run s | m :: r => match broadcast m s with Run s' => broadcasts r s' | c => c end end.

(* drop_connection, server_js.hpp:118-137; see C66 for the table of JavaScript values *)
Definition drop_connection (c : N) (s : st) : st :=
  {| connections := filter (fun x => negb (x =? c)) (connections s); over := c :: over s; received := received s; given := given s |}.

(* receive_message, server_js.hpp:92-116 *)
Definition receive (c : N) (j : jsv) (s : st) : config :=
  match decode j with
  | Undefined => Bad
  | Exception => Crash
  | Reject => Run (drop_connection c s)
  | Accept m => broadcasts (context (given s) m) {| connections := connections s; over := over s; received := received s; given := given s ++ [m] |}
  end.

Inductive label := Connect (c : N) | Incoming (c : N) (text : list N) | PeerClose (c : N) | Downstream (m : msg).
(* start_accepting, server_js.hpp:56-74; None: not possible *)
Definition step (s : st) (l : label) : option config :=
  match l with
  | Connect c => if existsb (N.eqb c) (connections s) || is_over s c then None
                 else Some (Run {| connections := connections s ++ [c]; over := over s; received := received s; given := given s |})
  | Incoming c text => if existsb (N.eqb c) (connections s) && negb (is_over s c)
                       then Some (match parse text with None => Crash | Some j => receive c j s end) else None
  | PeerClose c => if existsb (N.eqb c) (connections s) && negb (is_over s c)
                   then Some (Run {| connections := connections s; over := c :: over s; received := received s; given := given s |}) else None
  | Downstream m => Some (broadcast m s)
  end.

Inductive exec : list label -> config -> Prop :=
| ex_nil : exec [] (Run init)
| ex_snoc ls l s c : exec ls (Run s) -> step s l = Some c -> exec (ls ++ [l]) c.
End Server.
