(* Model of the WebSocket endpoint in the browser, /repo/include/nbdl/websocket_api/detail/endpoint_impl.hpp, event_receiver.hpp and
   convert_payload.hpp, with the WebSocket of the browser as far as it is used.
   A handler is called as the last thing an event does; what it does in turn (send, close, destroy) are further steps.
   Linear memory is a list of bytes.  JSON values and the two functions between them and texts are parameters. *)
From Verif Require Import Base.
Open Scope N_scope.

(* event.data, with binaryType 'arraybuffer' *)
Inductive data := Text (u : list N) | Buffer (b : list N).
Inductive event := EOpen | EError | EMessage (d : data) | EClose (code : N).
Inductive ready_state := CONNECTING | OPEN | CLOSING | CLOSED.

(* what becomes of the payload of the endpoint *)
Inductive conversion (P : Type) := Converted (p : P) | Throws | Outside.
Arguments Converted {P}. Arguments Throws {P}. Arguments Outside {P}.

Section Endpoint.
Variable P : Type.
Variable convert : data -> P -> conversion P.    (* convert_payload<Payload>::apply *)
Variable encode : P -> data.                     (* what send_impl gives to WebSocket.send *)

Inductive call := CReady | CMessage (p : P) | CClose.
Record st := { ready : ready_state; alive : bool; payload : P; calls : list call; wire : list data; thrown : nat }.
(* Bad: undefined behaviour *)
Inductive config := Run (s : st) | Bad.
Inductive label := Fire (e : event) | Send (p : P) | SendClose | Destroy.

Definition opened (p : P) : st := {| ready := CONNECTING; alive := true; payload := p; calls := []; wire := []; thrown := 0 |}.
Definition became (r : ready_state) (s : st) : st := {| ready := r; alive := alive s; payload := payload s; calls := calls s; wire := wire s; thrown := thrown s |}.
Definition called (c : call) (s : st) : st := {| ready := ready s; alive := alive s; payload := payload s; calls := calls s ++ [c]; wire := wire s; thrown := thrown s |}.
Definition throw (s : st) : st := {| ready := ready s; alive := alive s; payload := payload s; calls := calls s; wire := wire s; thrown := S (thrown s) |}.
Definition with_payload (p : P) (s : st) : st := {| ready := ready s; alive := alive s; payload := p; calls := calls s; wire := wire s; thrown := thrown s |}.

(* the browser's part of an event; it does not open twice, messages come while it is open, and nothing after the close.  An error
   is always followed by the close *)
Definition socket (e : event) (r : ready_state) : option ready_state :=
  match e, r with
  | EOpen, CONNECTING => Some OPEN
  | EError, (CONNECTING | OPEN | CLOSING) => Some CLOSING
  | EMessage _, OPEN => Some OPEN
  | EClose _, (CONNECTING | OPEN | CLOSING) => Some CLOSED
  | _, _ => None
  end.

(* endpoint_impl.hpp:119-144, 187-203; the receiver is a member of the endpoint, and the listeners stay when that is gone *)
Definition fire (e : event) (s : st) : config :=
  match e with
  | EError => Run s
  | _ => if alive s then
           match e with
           | EMessage d => match convert d (payload s) with
                           | Converted p => Run (called (CMessage p) (with_payload p s))
                           | Throws => Run (throw s)
                           | Outside => Bad
                           end
           | EOpen => Run (called CReady s)
           | _ => Run (called CClose s)
           end
         else Bad
  end.

(* None: not possible *)
Definition step (s : st) (l : label) : option config :=
  match l with
  | Fire e => option_map (fun r => fire e (became r s)) (socket e (ready s))
  | Send p =>                                      (* 168-173, 205-230; WebSocket.send *)
      if alive s then Some (Run (match ready s with
        | CONNECTING => throw s
        | OPEN => {| ready := ready s; alive := true; payload := payload s; calls := calls s; wire := wire s ++ [encode p]; thrown := thrown s |}
        | _ => s
        end)) else None
  | SendClose => if alive s then Some (Run (match ready s with CLOSED => s | _ => became CLOSING s end)) else None   (* 175-184 *)
  | Destroy =>                                     (* no destructor is written: the socket is let go of, not closed *)
      if alive s then Some (Run {| ready := ready s; alive := false; payload := payload s; calls := calls s; wire := wire s; thrown := thrown s |}) else None
  end.

Inductive exec : st -> list label -> config -> Prop :=
| ex_nil s : exec s [] (Run s)
| ex_cons s l s' ls c : step s l = Some (Run s') -> exec s' ls c -> exec s (l :: ls) c
| ex_bad s l : step s l = Some Bad -> exec s [l] Bad.
End Endpoint.
Arguments CReady {P}. Arguments CMessage {P}. Arguments CClose {P}.
Arguments Run {P}. Arguments Bad {P}.
Arguments Fire {P}. Arguments Send {P}. Arguments SendClose {P}. Arguments Destroy {P}.

(* convert_payload<json_payload>, convert_payload.hpp:62-82, and send_impl, endpoint_impl.hpp:208-218 *)
Section Json.
Variable J : Type.
Variable parse : list N -> option J.       (* JSON.parse *)
Variable stringify : J -> list N.
Definition convert_json (d : data) (_ : J) : conversion J :=
  match d with Text u => match parse u with Some j => Converted j | None => Throws end | Buffer _ => Throws end.
Definition encode_json (j : J) : data := Text (stringify j).
End Json.

(* std::vector: the elements, and the bytes allocated for it *)
Record vec := { elems : list N; capacity : nat }.
Section Vector.
(* how much a vector that has to grow allocates: at least what it needs *)
Variable grow : nat -> nat -> nat.
Variable heap : vec -> list N.             (* HEAPU8.buffer, when the vector is somewhere in it *)

Definition reserve (n : nat) (v : vec) : nat := if Nat.leb n (capacity v) then capacity v else Nat.max n (grow (capacity v) n).
(* convert_payload<std::vector>, convert_payload.hpp:28-59: resize, clear, then data() is written to.  stringToAscii writes a NUL behind
   the text.  An ArrayBuffer has no length: resize(0), a view from data() to the end of memory, and set, which copies nothing *)
Definition convert_vector (d : data) (v : vec) : conversion vec :=
  match d with
  | Text u => let n := length u in if Nat.leb (S n) (reserve n v) then Converted {| elems := []; capacity := reserve n v |} else Outside
  | Buffer _ => Converted {| elems := []; capacity := reserve 0 v |}
  end.
(* endpoint_impl.hpp:221-228: subarray gives a view, and its buffer is all of the memory *)
Definition encode_vector (v : vec) : data := Buffer (heap v).
End Vector.
