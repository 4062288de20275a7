(* What C12-C19 talk about: the trace of labels and outputs. *)
From Verif Require Import Base WsModel EndpointModel.
Open Scope N_scope.

Definition accepted (ls : list label) : list bytes :=
  flat_map (fun l => match l with CallSend p => [p] | _ => [] end) ls.
Definition data_writes (os : list out) : list bytes :=
  flat_map (fun o => match o with OData c => [c] | _ => [] end) os.
Definition is_write (o : out) : bool := match o with OData _ | OClose _ => true | _ => false end.
Definition is_close_write (o : out) : bool := match o with OClose _ => true | _ => false end.
Definition is_handler (o : out) : bool := match o with OHandler _ => true | _ => false end.
Definition is_close_handler (o : out) : bool := match o with OHandler HClose => true | _ => false end.
Definition is_write_error (l : label) : bool := match l with WriteErr _ _ => true | _ => false end.
Definition is_call_close (l : label) : bool := match l with CallClose => true | _ => false end.
Definition is_call_start (l : label) : bool := match l with CallStart => true | _ => false end.
Definition no_write_error (ls : list label) : Prop := forallb (fun l => negb (is_write_error l)) ls = true.
Definition count (f : out -> bool) (os : list out) : nat := length (filter f os).

(* a message as the frames put on the wire for it (C06 says which) *)
Definition chunks (op : N) (p : bytes) : list bytes :=
  match send_message default_max_frame op p with Some ws => ws | None => [] end.
Definition is_rx_close (l : label) : bool := match l with RxClose => true | _ => false end.
Definition completion (l : label) : bool := match l with WriteOk _ | WriteErr _ _ => true | _ => false end.
Definition completions (ls : list label) : nat := length (filter completion ls).

(* the transport is idle: every write that began has completed *)
Definition idle (ls : list label) (os : list out) : Prop := count is_write os = completions ls.
(* the calls the application made: messaging was started and the endpoint was never stopped *)
Definition live (ls : list label) : Prop := In CallStart ls /\ ~ In CallStop ls.
(* opcode of a frame given by its bytes: low four bits of the first (RFC 6455 5.2) *)
Definition frame_opcode (c : bytes) : option N := match c with b :: _ => Some (b mod 16) | [] => None end.
Definition is_pong_write (o : out) : bool :=
  match o with OData c | OClose c => match frame_opcode c with Some x => x =? 10 | None => false end | _ => false end.

(* is the close reported with this label?  [ls], [o]: what has happened so far.  When the peer's close comes after the application asked for one,
   when the answer to the peer's close is written, and when a data frame fails with a reset after one of them *)
Definition is_call_stop (l : label) : bool := match l with CallStop => true | _ => false end.
Definition reports_close (ls : list label) (o : list out) (l : label) : bool :=
  negb (existsb is_call_stop ls) &&
  match l with
  | RxClose => existsb is_call_close ls
  | WriteOk _ => existsb is_rx_close ls && existsb is_close_write o
  | WriteErr _ true => (existsb is_call_close ls || existsb is_rx_close ls) && negb (existsb is_close_write o)
  | _ => false
  end.

(* the endpoint has to close, and something made it look: a message, a close asked for after start, or the peer's close when none was asked for *)
Definition close_due (ls : list label) : Prop :=
  (In CallClose ls \/ In RxClose ls) /\
  (accepted ls <> [] \/ (exists a b, ls = a ++ CallClose :: b /\ In CallStart a) \/ (exists a b, ls = a ++ RxClose :: b /\ ~ In CallClose a)).

(* something is left to be written *)
Definition unwritten (op : N) (ls : list label) (o : list out) : Prop :=
  filter is_close_write o = [] /\ (In CallClose ls \/ In RxClose ls \/ data_writes o <> concat (map (chunks op) (accepted ls))).
