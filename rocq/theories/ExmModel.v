(* Model of the program example/pipes/main.cpp: a server that accepts one connection and prints the messages that come over it
   until the last one, and a client that connects and sends a list of messages, both as pipelines in one io_service.
   On top of PipModel.v (messages as JSON texts over a connection).
   Simplified: nothing but this client connects to the port; that the port can be listened to (accept.hpp:33 throws
   otherwise, and the function that calls it is noexcept); the limit of attempts is below INT_MAX (C60). *)
From Verif Require Import Base JsonModel AppModel FrameModel PipModel.
Open Scope N_scope.

(* how the pipelines end: for the server main.cpp:155-156 or the settlement of receive_messages_until *)
Inductive server_end := AcceptError | Settled (r : settlement).
(* for the client all messages were written, or main.cpp:141-143; [NoText]: to make the text is undefined behaviour *)
Inductive client_end := AllSent | TooManyAttempts | WriteError | NoText.
Inductive server := Accepting | Receiving | Served (e : server_end).
Inductive client := Connecting (attempts_failed : Z) | Sending (rest : list (nat * value)) | Left (e : client_end).

Section Exm.
Variable alts : list shape.
Variable term : nat.
Variable fails : value -> bool.
Variable integral_of : N -> option Z.
Variable double_of : Z -> N.
Variable parse : bytes -> option json.
Variable print : json -> bytes.
Variable limit : Z.                          (* connect.hpp:36, 66: 10 *)
Variable messages : list (nat * value).      (* main.cpp:98-114 *)
Notation pip := (PipModel.step alts term fails integral_of double_of parse print).

Record prog := { srv : server; cli : client; conn : world }.
(* main.cpp:159-160: the server listens before the client connects *)
Definition begin : prog := {| srv := Accepting; cli := Connecting 0; conn := start |}.

Inductive event :=
| ConnectDone (ok : bool)     (* async_connect calls back, connect.hpp:46-62 *)
| AcceptDone (ok : bool)      (* async_accept calls back, accept.hpp:34-44 *)
| Sends (k : nat)             (* the client's socket takes k bytes *)
| Written                     (* async_write calls back without an error *)
| WriteFails                  (* async_write calls back with an error *)
| Gets (k : nat)              (* the server's socket gives k bytes *)
| ReadDone                    (* async_read calls back *)
| ReadEof                     (* async_read calls back with end of file *)
| Break.                      (* the connection ends by itself *)

(* the sockets: one end is closed *)
Definition close (w : world) : world := match pip w (Net Close) with Some w' => w' | None => w end.
(* main.cpp:128-134, 140: the pipelines for the messages one after another *)
Definition next (rest : list (nat * value)) (w : world) : client * world :=
  match rest with
  | [] => (Left AllSent, w)
  | (i, v) :: r => match pip w (Say i v) with Some w' => (Sending r, w') | None => (Left NoText, w) end
  end.
(* once its promise is settled the server's pipeline is destroyed, with the socket of accept.hpp:22 (run_async.hpp:22-58) *)
Definition after_read (w : world) : server * world :=
  match settled w with [] => (Receiving, w) | r :: _ => (Served (Settled r), close w) end.
Definition connected (c : client) : bool := match c with Connecting _ | Left TooManyAttempts => false | _ => true end.

Definition reads (p : prog) (l : label) : option prog :=
  match srv p with
  | Receiving => match pip (conn p) (Net l) with
                 | Some w => let (s, w) := after_read w in Some {| srv := s; cli := cli p; conn := w |}
                 | None => None
                 end
  | _ => None
  end.

Definition step (p : prog) (e : event) : option prog :=
  match e with
  | ConnectDone true =>       (* someone listens *)
      match cli p, srv p with
      | Connecting _, Accepting => let (c, w) := next messages (conn p) in Some {| srv := srv p; cli := c; conn := w |}
      | _, _ => None
      end
  | ConnectDone false =>
      match cli p with
      | Connecting f => Some {| srv := srv p; cli := if (limit <=? f)%Z then Left TooManyAttempts else Connecting (f + 1); conn := conn p |}
      | _ => None
      end
  | AcceptDone true =>
      match srv p with Accepting => if connected (cli p) then Some {| srv := Receiving; cli := cli p; conn := conn p |} else None | _ => None end
  | AcceptDone false =>
      match srv p with Accepting => Some {| srv := Served AcceptError; cli := cli p; conn := close (conn p) |} | _ => None end
  | Sends k =>
      match cli p with
      | Sending r => option_map (fun w => {| srv := srv p; cli := cli p; conn := w |}) (pip (conn p) (Net (Push k)))
      | _ => None
      end
  | Written =>
      match cli p with
      | Sending r => match pip (conn p) (Net WriteDone) with
                     | Some w => let (c, w) := next r w in Some {| srv := srv p; cli := c; conn := w |}
                     | None => None
                     end
      | _ => None
      end
  | WriteFails =>
      match cli p, wbuf (wire (conn p)) with
      | Sending r, Some (_ :: _) => if closed (wire (conn p)) then Some {| srv := srv p; cli := Left WriteError; conn := conn p |} else None
      | _, _ => None
      end
  | Gets k => reads p (Pull k)
  | ReadDone => reads p FrameModel.ReadDone
  | ReadEof => reads p FrameModel.ReadEof
  | Break =>
      if connected (cli p) && negb (closed (wire (conn p))) then Some {| srv := srv p; cli := cli p; conn := close (conn p) |} else None
  end.

Fixpoint exec (p : prog) (es : list event) : option prog :=
  match es with [] => Some p | e :: r => match step p e with Some p' => exec p' r | None => None end end.
End Exm.
