(* Model of the loop that accepts WebSocket connections: /repo/include/nbdl/ext/beast_ws.hpp:29-86 (tcp_accept, parse_request, ws_accept, accept) and
   /repo/include/nbdl/app/server.hpp:130-173 (start_accepting).
   Connections are numbers.  full_duplex and Boost.Beast are not in the repository; what is used of them:
   the loop runs its promises one after another and again with the same promise objects (as run_async_loop.hpp does, C39); map_any goes on
   after an error; http::async_read first parses what is in its buffer, reads more only when that is not enough, and leaves in the buffer what the
   message does not need.  What the parser makes of bytes is a parameter.
   The state of the request object between two messages (lines 64, 51) is left out: each message is taken to replace it. *)
From Verif Require Import Base.
Open Scope N_scope.

(* More: the bytes may be the beginning of a request; Complete: the bytes of the request, and those behind it; Invalid: the bytes that are left
   in the buffer *)
Inductive parsed := More | Invalid (rest : list N) | Complete (r rest : list N).

Section Loop.
Variable parse : list N -> parsed.
Variable is_upgrade : list N -> bool.       (* whether async_accept takes the request *)

Inductive phase :=
| Waiting                                   (* in async_accept of the acceptor, beast_ws.hpp:31-39 *)
| Reading (c : N)                           (* in http::async_read, 41-60 *)
| Upgrading (c : N) (r : list N).           (* in stream.async_accept, 62-71 *)
Record st := {
  at_ : phase;
  backlog : list N;                         (* connections that are not accepted yet *)
  inbox : N -> list N;                      (* bytes that came on a connection and are not read yet *)
  ended : N -> bool;                        (* the peer sends no more *)
  buffer : list N;                          (* parse_request_fn::buffer, 42: one for all connections *)
  results : list (N * option (list N)) }.   (* connection_open with the request, or an error, in order *)
Definition init : st := {| at_ := Waiting; backlog := []; inbox := fun _ => []; ended := fun _ => false; buffer := []; results := [] |}.
Definition upd {A} (c : N) (x : A) (f : N -> A) : N -> A := fun d => if d =? c then x else f d.

Inductive label :=
| Arrive (c : N) | Bytes (c : N) (b : list N) | End (c : N)     (* what clients do *)
| Accept | Receive (k : nat) | Parse | Fail | Upgrade (ok : bool). (* what the server does; ok: the answer could be written *)

Definition finished (c : N) (x : option (list N)) (buf : list N) (s : st) : st :=
  {| at_ := Waiting; backlog := backlog s; inbox := inbox s; ended := ended s; buffer := buf; results := results s ++ [(c, x)] |}.

(* None: not possible *)
Definition step (s : st) (l : label) : option st :=
  match l, at_ s with
  | Arrive c, p => Some {| at_ := p; backlog := backlog s ++ [c]; inbox := inbox s; ended := ended s; buffer := buffer s; results := results s |}
  | Bytes c b, p => if ended s c then None
                    else Some {| at_ := p; backlog := backlog s; inbox := upd c (inbox s c ++ b) (inbox s); ended := ended s; buffer := buffer s; results := results s |}
  | End c, p => Some {| at_ := p; backlog := backlog s; inbox := inbox s; ended := upd c true (ended s); buffer := buffer s; results := results s |}
  | Accept, Waiting =>
      match backlog s with
      | [] => None
      | c :: r => Some {| at_ := Reading c; backlog := r; inbox := inbox s; ended := ended s; buffer := buffer s; results := results s |}
      end
  | Receive k, Reading c =>
      match parse (buffer s) with
      | More => if Nat.leb 1 k && Nat.leb k (length (inbox s c))
                then Some {| at_ := Reading c; backlog := backlog s; inbox := upd c (skipn k (inbox s c)) (inbox s); ended := ended s;
                             buffer := buffer s ++ firstn k (inbox s c); results := results s |}
                else None
      | _ => None
      end
  | Parse, Reading c =>
      match parse (buffer s) with
      | More => None
      | Invalid rest => Some (finished c None rest s)
      | Complete r rest => Some {| at_ := Upgrading c r; backlog := backlog s; inbox := inbox s; ended := ended s; buffer := rest; results := results s |}
      end
  | Fail, Reading c =>
      match parse (buffer s), inbox s c with More, [] => if ended s c then Some (finished c None (buffer s) s) else None | _, _ => None end
  | Upgrade ok, Upgrading c r => Some (finished c (if ok && is_upgrade r then Some r else None) (buffer s) s)
  | _, _ => None
  end.

Fixpoint run (s : st) (ls : list label) : option st :=
  match ls with [] => Some s | l :: r => match step s l with Some s' => run s' r | None => None end end.
End Loop.
