(* example/pipes/write_raw_message.hpp and read_raw_message.hpp: messages with a 4-byte length in front, over a socket.
   include/nbdl/ext/asio_tcp.hpp:62-140 has the same two loops; as committed it does not compile (self, stat), so the model
   follows the former.  Simplified: memory is never exhausted; the writer awaits each write, as a pipeline does; the socket is
   a byte queue that may be closed.  asio::async_read / async_write are composed operations: they move some bytes at a time and
   call back once all are moved or on an error. *)
From Verif Require Import Base.
Open Scope N_scope.

(* write_raw_message.hpp:28-35: uint32_t length = size, then four conversions to unsigned char *)
Definition put_length (size : N) : bytes :=
  let length := size mod 2 ^ 32 in
  [N.shiftr length 24 mod 256; N.shiftr length 16 mod 256; N.shiftr length 8 mod 256; length mod 256].

(* write_raw_message.hpp:36: insert at 0 *)
Definition frame (m : bytes) : bytes := put_length (N.of_nat (length m)) ++ m.

(* conversion to int *)
Definition int32 (z : Z) : Z := ((z + 2 ^ 31) mod 2 ^ 32 - 2 ^ 31)%Z.

(* read_raw_message.hpp:38-43: an unsigned char is promoted to int before it is shifted; the result is converted to uint32_t *)
Definition get_length (buffer : bytes) : N :=
  let b i := Z.of_N (nth i buffer 0) in
  Z.to_N (Z.lor (Z.lor (Z.lor (int32 (Z.shiftl (b 0%nat) 24)) (int32 (Z.shiftl (b 1%nat) 16))) (int32 (Z.shiftl (b 2%nat) 8))) (b 3%nat) mod 2 ^ 32).

(* which of the two promises of read_raw_message is waiting, read_raw_message.hpp:82-88 *)
Inductive phase := ReadLength | ReadBody (n : N).
(* how much it asked for, lines 28 and 65 *)
Definition need (p : phase) : nat := match p with ReadLength => 4 | ReadBody n => N.to_nat n end.

Record state := mk {
  written : list bytes;      (* the messages write_raw_message was given *)
  wbuf : option bytes;       (* write_raw_message_fn::body, what is left of it; None: no write is pending *)
  pushed : bytes;            (* all bytes that entered the network *)
  net : bytes;               (* those that did not leave it yet *)
  closed : bool;
  rphase : phase;
  rbuf : bytes;              (* what was read into the buffer so far *)
  delivered : list bytes;    (* the messages read_raw_message resolved with *)
  failed : bool              (* read_raw_message rejected *)
}.
Definition init : state := mk [] None [] [] false ReadLength [] [] false.

Inductive label :=
| Send (m : bytes)   (* the pipeline calls write_raw_message *)
| Push (k : nat)     (* the socket takes k bytes *)
| WriteDone          (* async_write calls back, line 38-49 *)
| Pull (k : nat)     (* the socket gives k bytes *)
| ReadDone           (* async_read calls back without an error *)
| Close              (* the connection ends; what is in the network can still be read *)
| ReadEof.           (* async_read calls back with end of file *)

Definition step (s : state) (l : label) : option state :=
  match l with
  | Send m =>
      match wbuf s with
      | None => Some (mk (written s ++ [m]) (Some (frame m)) (pushed s) (net s) (closed s) (rphase s) (rbuf s) (delivered s) (failed s))
      | Some _ => None
      end
  | Push k =>
      match wbuf s with
      | Some b => if (0 <? k)%nat && (k <=? length b)%nat && negb (closed s)
                  then Some (mk (written s) (Some (skipn k b)) (pushed s ++ firstn k b) (net s ++ firstn k b) (closed s) (rphase s) (rbuf s) (delivered s) (failed s))
                  else None
      | None => None
      end
  | WriteDone =>
      match wbuf s with
      | Some [] => Some (mk (written s) None (pushed s) (net s) (closed s) (rphase s) (rbuf s) (delivered s) (failed s))
      | _ => None
      end
  | Pull k =>
      if (0 <? k)%nat && (k <=? length (net s))%nat && (length (rbuf s) + k <=? need (rphase s))%nat && negb (failed s)
      then Some (mk (written s) (wbuf s) (pushed s) (skipn k (net s)) (closed s) (rphase s) (rbuf s ++ firstn k (net s)) (delivered s) (failed s))
      else None
  | ReadDone =>
      if (length (rbuf s) =? need (rphase s))%nat && negb (failed s)
      then match rphase s with
           | ReadLength => Some (mk (written s) (wbuf s) (pushed s) (net s) (closed s) (ReadBody (get_length (rbuf s))) [] (delivered s) (failed s))
           | ReadBody _ => Some (mk (written s) (wbuf s) (pushed s) (net s) (closed s) ReadLength [] (delivered s ++ [rbuf s]) (failed s))
           end
      else None
  | Close => Some (mk (written s) (wbuf s) (pushed s) (net s) true (rphase s) (rbuf s) (delivered s) (failed s))
  | ReadEof =>
      match net s with
      | [] => if closed s && (length (rbuf s) <? need (rphase s))%nat && negb (failed s)
              then Some (mk (written s) (wbuf s) (pushed s) (net s) (closed s) (rphase s) (rbuf s) (delivered s) true)
              else None
      | _ => None
      end
  end.

Fixpoint exec (s : state) (ls : list label) : option state :=
  match ls with [] => Some s | l :: r => match step s l with Some s' => exec s' r | None => None end end.
