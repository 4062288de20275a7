(* Model of /repo/include/nbdl/websocket/detail/endpoint_impl.hpp as a labelled transition system.
   Each label is one call into the endpoint (by the application, by the reader, or by the
   completion of one asynchronous write).  Any interleaving of the asynchronous parts is a list of labels.
   A call made by the application from inside a handler is the label that follows: in every path of the
   code the handler call is the last access to the endpoint's state. *)
From Coq Require Import String.
From Verif Require Import Base WsModel.
Open Scope N_scope.

(* endpoint_impl.hpp:34-68  control_frame *)
Inductive control := CNone | CClose | CPong (p : bytes).

Definition is_close (c : control) : bool := match c with CClose => true | _ => false end.
(* endpoint_impl.hpp:59-67  to_pong *)
Definition to_pong (c : control) (p : bytes) : control := if is_close c then c else CPong p.

(* An asynchronous write that was started and has not completed.
   WData rest: a frame of the message at the front of the queue; [rest] are the frames after it
   (the iterators captured at message_sender.hpp:156).  WClose: the close frame. *)
Inductive write := WData (rest : list bytes) | WClose.

(* endpoint_impl.hpp:128-143 (fields); [reader_on]: keep_reading's loop is running;
   [crashed]: undefined behaviour has happened. *)
Record state := {
  queue : list bytes;
  pending : control;
  running : bool;           (* is_send_queue_running *)
  started : bool;
  stopped : bool;
  close_received : bool;
  inflight : list write;
  reader_on : bool;
  crashed : bool }.

(* endpoint_impl.hpp:93-110  constructor, with whatever the queue object already contains *)
Definition init : state :=
  {| queue := []; pending := CNone; running := false; started := false; stopped := false;
     close_received := false; inflight := []; reader_on := false; crashed := false |}.

Inductive handler := HMessage (p : bytes) | HClose | HBadRequest | HError.

Inductive out :=
| OData (chunk : bytes)     (* async_write of one data frame begins *)
| OClose (chunk : bytes)    (* async_write of the close frame begins *)
| OHandler (h : handler).   (* a user handler is invoked *)

Inductive label :=
| CallSend (p : bytes) | CallClose | CallStart | CallStop
| RxMessage (p : bytes) | RxClose | RxPing (p : bytes) | RxPong | RxBad | RxError
| WriteOk (i : nat)              (* the i-th outstanding write completes *)
| WriteErr (i : nat) (reset : bool). (* ... with an error; reset: eof or connection_reset *)

Section Endpoint.
Variable op : byte.   (* SendMessageImpl: send_text or send_binary *)

Definition set_queue s q := {| queue := q; pending := pending s; running := running s; started := started s;
  stopped := stopped s; close_received := close_received s; inflight := inflight s; reader_on := reader_on s; crashed := crashed s |}.
Definition set_pending s c := {| queue := queue s; pending := c; running := running s; started := started s;
  stopped := stopped s; close_received := close_received s; inflight := inflight s; reader_on := reader_on s; crashed := crashed s |}.
Definition set_running s b := {| queue := queue s; pending := pending s; running := b; started := started s;
  stopped := stopped s; close_received := close_received s; inflight := inflight s; reader_on := reader_on s; crashed := crashed s |}.
Definition set_inflight s l := {| queue := queue s; pending := pending s; running := running s; started := started s;
  stopped := stopped s; close_received := close_received s; inflight := l; reader_on := reader_on s; crashed := crashed s |}.
Definition set_stopped s := {| queue := queue s; pending := pending s; running := running s; started := started s;
  stopped := true; close_received := close_received s; inflight := inflight s; reader_on := reader_on s; crashed := crashed s |}.
Definition set_started s := {| queue := queue s; pending := pending s; running := running s; started := true;
  stopped := stopped s; close_received := close_received s; inflight := inflight s; reader_on := true; crashed := crashed s |}.
Definition set_close_received s := {| queue := queue s; pending := pending s; running := running s; started := started s;
  stopped := stopped s; close_received := true; inflight := inflight s; reader_on := reader_on s; crashed := crashed s |}.
Definition set_reader_off s := {| queue := queue s; pending := pending s; running := running s; started := started s;
  stopped := stopped s; close_received := close_received s; inflight := inflight s; reader_on := false; crashed := crashed s |}.
Definition set_crashed s := {| queue := queue s; pending := pending s; running := running s; started := started s;
  stopped := stopped s; close_received := close_received s; inflight := inflight s; reader_on := reader_on s; crashed := true |}.

Definition push_write s w := set_inflight s (inflight s ++ [w]).
Definition remove_nth {A} (i : nat) (l : list A) : list A := firstn i l ++ skipn (S i) l.

(* endpoint_impl.hpp:346-356  call_handler *)
Definition call_handler (s : state) (h : handler) : list out :=
  if stopped s then [] else [OHandler h].

(* endpoint_impl.hpp:206-253: one turn of the send loop, up to the next asynchronous operation *)
Definition loop_turn (s : state) : state * list out :=
  if is_close (pending s) then
    (* 210-233: send the (empty) close payload; resolver.terminate() ends the loop, running stays true *)
    match send_message default_max_frame op_close [] with
    | Some (c :: _) => (push_write s WClose, [OClose c])
    | _ => (set_crashed s, [])
    end
  else match queue s with
       | p :: _ => (* 243-247 *)
           match send_message default_max_frame op p with
           | Some (c :: cs) => (push_write s (WData cs), [OData c])
           | _ => (set_crashed s, [])
           end
       | [] => (set_running s false, [])  (* 248-252 *)
       end.

(* endpoint_impl.hpp:192-205  start_send_queue *)
Definition start_send_queue (s : state) : state * list out :=
  if running s || stopped s || negb (started s) then (s, [])
  else loop_turn (set_running s true).

(* endpoint_impl.hpp:146-165; async_enqueue.hpp:29-41 pushes synchronously *)
Definition send_message_call (s : state) (p : bytes) : state * list out :=
  start_send_queue (set_queue s (queue s ++ [p])).

(* endpoint_impl.hpp:167-174 *)
Definition send_close_call (s : state) : state * list out :=
  start_send_queue (set_pending s CClose).

(* endpoint_impl.hpp:176-190 *)
Definition start_messaging (s : state) : state * list out :=
  if negb (started s) && negb (stopped s) then
    let s1 := set_started s in
    match queue s1 with [] => (s1, []) | _ => start_send_queue s1 end
  else (s, []).

(* completion of a write without error: message_sender.hpp:156-172, then endpoint_impl.hpp:221-227 for the close
   frame, 254-262 and the loop's next turn for data *)
Definition write_ok (s : state) (i : nat) : option (state * list out) :=
  match nth_error (inflight s) i with
  | None => None
  | Some w =>
      let s1 := set_inflight s (remove_nth i (inflight s)) in
      Some (match w with
            | WData (c :: cs) => (push_write s1 (WData cs), [OData c])
            | WData [] => loop_turn (match queue s1 with [] => s1 | _ :: q => set_queue s1 q end)
            | WClose => (s1, if close_received s1 then call_handler s1 HClose else [])
            end)
  end.

(* completion with an error: endpoint_impl.hpp:263-285 for data.  For the close frame the handler at 228-231 calls
   resolver.reject on the loop object that resolver.terminate() (219) has deleted: undefined behaviour. *)
Definition write_err (s : state) (i : nat) (reset : bool) : option (state * list out) :=
  match nth_error (inflight s) i with
  | None => None
  | Some w =>
      let s1 := set_inflight s (remove_nth i (inflight s)) in
      Some (match w with
            | WData _ => let s2 := set_running s1 false in
                         (s2, call_handler s2 (if is_close (pending s2) && reset then HClose else HError))
            | WClose => (set_crashed s1, [])
            end)
  end.

(* endpoint_impl.hpp:301-344 reader callbacks; the reader loop is over after close, bad input or error
   (message_reader.hpp:292-295) *)
Definition reader_label (s : state) (l : label) : option (state * list out) :=
  if negb (reader_on s) then None else
  match l with
  | RxMessage p => Some (s, call_handler s (HMessage p))
  | RxClose => let s1 := set_close_received (set_reader_off s) in
               Some (if is_close (pending s1) then (s1, call_handler s1 HClose) else send_close_call s1)
  | RxPing p => Some (set_pending s (to_pong (pending s) p), [])
  | RxPong => Some (s, [])
  | RxBad => let s1 := set_reader_off s in Some (s1, call_handler s1 HBadRequest)
  | RxError => let s1 := set_reader_off s in Some (s1, call_handler s1 HError)
  | _ => None
  end.

(* None: the label is not enabled *)
Definition step (s : state) (l : label) : option (state * list out) :=
  if crashed s then None else
  match l with
  | CallSend p => Some (send_message_call s p)
  | CallClose => Some (send_close_call s)
  | CallStart => Some (start_messaging s)
  | CallStop => Some (set_stopped s, [])    (* 358-368; shutdown makes later completions fail, any may come *)
  | WriteOk i => write_ok s i
  | WriteErr i r => write_err s i r
  | _ => reader_label s l
  end.

Fixpoint exec (s : state) (ls : list label) : option (state * list out) :=
  match ls with
  | [] => Some (s, [])
  | l :: r => match step s l with
              | None => None
              | Some (s1, o1) => match exec s1 r with
                                 | None => None
                                 | Some (s2, o2) => Some (s2, o1 ++ o2)
                                 end
              end
  end.
End Endpoint.
