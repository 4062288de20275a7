(* Model of a connection between the two kinds of endpoint: /repo/include/nbdl/websocket/server_endpoint.hpp and client_endpoint.hpp.
   Each runs the handshake (HandshakeModel, ShaModel) in its constructor and is an endpoint_impl (EndpointModel) whose reader is that of
   message_reader.hpp (WsModel).  Between them is a stream of bytes in each direction that may be cut anywhere and may break at any time.
   The application calls start_messaging when it was told that the endpoint is ready, and keeps the endpoint alive. *)
From Coq Require Import String.
From Verif Require Import Base WsModel HandshakeModel ShaModel EndpointModel.
Open Scope N_scope.

Inductive side := Client | Server.
(* where the promises of the handshake are: a read, or a write, after which the server has the token of the client to tell; Failed: a catch_ was reached *)
Inductive phase := Shaking | Writing (token : list N) | Ready | Failed.
(* the handlers that are called by the handshake: endpoint_event::ready, event::bad_request, std::error_code *)
Inductive note := NReady (token : list N) | NBadRequest | NError.

Record peer := {
  phase_ : phase;
  ep : state;
  notes : list note;
  outs : list out;        (* what the endpoint did, in order *)
  payload : bytes;        (* frame_ctx.payload of the reader *)
  inbox : bytes;          (* received and not read *)
  coming : bytes;         (* written by the other side and not received *)
  broken : bool }.        (* a write failed: nothing that is written afterwards arrives *)

Inductive move :=
| App (sd : side) (l : label)                  (* a call of the application, or the completion of a write *)
| Arrive (sd : side) (n : nat)                 (* n bytes are received *)
| Read (sd : side)                             (* one turn of the reader *)
| ReadFail (sd : side)                         (* the read that it waits for fails *)
| ShakeWrite (sd : side) (ok : bool)           (* the write of the handshake completes *)
| ShakeRead (sd : side) (reads : list nat)     (* its reads complete; the sizes that the reads of the socket have *)
| ShakeFail (sd : side).                       (* its read fails *)

Definition with_ep s p := {| phase_ := phase_ p; ep := s; notes := notes p; outs := outs p; payload := payload p; inbox := inbox p; coming := coming p; broken := broken p |}.
Definition with_inbox b p := {| phase_ := phase_ p; ep := ep p; notes := notes p; outs := outs p; payload := payload p; inbox := b; coming := coming p; broken := broken p |}.
Definition with_payload b p := {| phase_ := phase_ p; ep := ep p; notes := notes p; outs := outs p; payload := b; inbox := inbox p; coming := coming p; broken := broken p |}.
Definition with_coming b p := {| phase_ := phase_ p; ep := ep p; notes := notes p; outs := outs p; payload := payload p; inbox := inbox p; coming := b; broken := broken p |}.
Definition broke p := {| phase_ := phase_ p; ep := ep p; notes := notes p; outs := outs p; payload := payload p; inbox := inbox p; coming := coming p; broken := true |}.
Definition did o p := {| phase_ := phase_ p; ep := ep p; notes := notes p; outs := outs p ++ o; payload := payload p; inbox := inbox p; coming := coming p; broken := broken p |}.
Definition reach (f : phase) (n : list note) (p : peer) := {| phase_ := f; ep := ep p; notes := notes p ++ n; outs := outs p; payload := payload p; inbox := inbox p; coming := coming p; broken := broken p |}.

(* the bytes of the writes that were begun *)
Definition written (o : list out) : bytes := flat_map (fun x => match x with OData c | OClose c => c | OHandler _ => [] end) o.
Definition more (b : bytes) (p : peer) : peer := with_coming (coming p ++ b) p.

Section Duo.
Variable op : side -> byte.   (* SendMessageImpl *)

(* a label of the endpoint *)
Definition act (sd : side) (l : label) (me other : peer) : option (peer * peer) :=
  match step (op sd) (ep me) l with
  | None => None
  | Some (s, o) => Some (did o (with_ep s me), if broken me then other else more (written o) other)
  end.

(* message_reader.hpp:276-295: which handler is called *)
Definition heard_as (e : event) : label :=
  match e with EvMessage p => RxMessage p | EvPing p => RxPing p | EvPong => RxPong | EvClose _ => RxClose | EvBadInput => RxBad | EvError => RxError end.

(* one turn of keep_reading *)
Definition read (sd : side) (me other : peer) : option (peer * peer) :=
  if crashed (ep me) || negb (reader_on (ep me)) then None else
  match read_turn (payload me) (inbox me) with
  | TWait => None
  | TNext evs p rest => fold_left (fun r e => match r with None => None | Some (a, b) => act sd (heard_as e) a b end) evs (Some (with_payload p (with_inbox rest me), other))
  | TStop e => act sd (heard_as e) me other
  | TUndef => Some (with_ep (set_crashed (ep me)) me, other)
  end.

(* parse_handshake_request, send_handshake_response (server_endpoint.hpp:34-55); parse_handshake_response (client_endpoint.hpp:54).
   What is in the buffer of read_headers goes with it.  An error of the stream or a line that is too long is ShakeFail. *)
Definition shake (sd : side) (reads : list nat) (me other : peer) : option (peer * peer) :=
  match sd with
  | Client => match parse_handshake_response (inbox me) with
              | inl rest => Some (reach Ready [NReady []] (with_inbox rest me), other)
              | inr RejectBadRequest => Some (reach Failed [NBadRequest] me, other)
              | inr _ => None
              end
  | Server => match parse_handshake_request reads (inbox me) with
              | Resolved info _ unread =>
                  match handshake_response info, get_auth_token (cookies info) with
                  | Ok r, Some (t, false) => Some (reach (Writing t) [] (with_inbox unread me), if broken me then other else more r other)
                  | _, _ => Some (with_ep (set_crashed (ep me)) me, other)
                  end
              | RejectBadRequest => Some (reach Failed [NBadRequest] me, other)
              | HandshakeModel.Undefined => Some (with_ep (set_crashed (ep me)) me, other)
              | RejectError | HandshakeModel.Waiting => None
              end
  end.

(* the labels that do not come from the reader *)
Definition outer (l : label) : bool := match l with CallSend _ | CallClose | CallStart | CallStop | WriteOk _ | WriteErr _ _ => true | _ => false end.

Definition turn (m : move) (me other : peer) : option (peer * peer) :=
  match m with
  | App sd l =>
      if negb (outer l) then None else
      match l, phase_ me with
      | CallStart, (Shaking | Writing _ | Failed) => None
      | WriteErr _ _, _ => act sd l (broke me) other
      | _, _ => act sd l me other
      end
  | Arrive _ n => Some (with_inbox (inbox me ++ firstn n (coming me)) (with_coming (skipn n (coming me)) me), other)
  | Read sd => read sd me other
  | ReadFail sd => match read_turn (payload me) (inbox me) with TWait => act sd RxError me other | _ => None end
  | ShakeWrite sd ok =>
      match phase_ me with
      | Writing t => Some (if ok then (match sd with Client => reach Shaking [] me | Server => reach Ready [NReady t] me end) else broke (reach Failed [NError] me), other)
      | _ => None
      end
  | ShakeRead sd reads => match phase_ me with Shaking => if crashed (ep me) then None else shake sd reads me other | _ => None end
  | ShakeFail _ => match phase_ me with Shaking => Some (reach Failed [NError] me, other) | _ => None end
  end.

Definition who (m : move) : side := match m with App sd _ | Arrive sd _ | Read sd | ReadFail sd | ShakeWrite sd _ | ShakeRead sd _ | ShakeFail sd => sd end.
Definition peers := (peer * peer)%type.       (* client, server *)
Definition go (x : peers) (m : move) : option peers :=
  match who m with
  | Client => turn m (fst x) (snd x)
  | Server => match turn m (snd x) (fst x) with Some (s, c) => Some (c, s) | None => None end
  end.
Fixpoint play (x : peers) (ms : list move) : option peers :=
  match ms with [] => Some x | m :: r => match go x m with Some y => play y r | None => None end end.

Definition fresh (f : phase) (b : bytes) : peer := {| phase_ := f; ep := EndpointModel.init; notes := []; outs := []; payload := []; inbox := []; coming := b; broken := false |}.
(* both constructors have run: the client writes its request (client_endpoint.hpp:43-51), the server reads (server_endpoint.hpp:73-78) *)
Definition begun (origin token : list N) : peers := (fresh (Writing []) [], fresh Shaking (handshake_request origin token)).
End Duo.
