(* Independent specification of RFC 6455 framing, written from the RFC (section 5.2-5.5);
   it uses nothing of the model except the byte type. *)
From Coq Require Import String.
From Verif Require Import Base.
Open Scope N_scope.

(* value of a big-endian byte string *)
Definition be_value (l : bytes) : N := fold_left (fun acc b => 256 * acc + b) l 0.

(* [LenHeader n c ext]: 7-bit code c and extended length bytes ext encode n minimally *)
Definition LenHeader (n c : N) (ext : bytes) : Prop :=
  all_bytes ext /\
  ((n <= 125 /\ c = n /\ ext = []) \/
   (126 <= n < 2 ^ 16 /\ c = 126 /\ length ext = 2%nat /\ be_value ext = n) \/
   (2 ^ 16 <= n < 2 ^ 63 /\ c = 127 /\ length ext = 8%nat /\ be_value ext = n)).

Record frame := { fin : bool; opcode : N; mask : option bytes; body : bytes }.

(* xor of a payload with a repeating 4-byte key *)
Definition masked (key p : bytes) : bytes :=
  map (fun ib => N.lxor (snd ib) (nth (fst ib mod 4)%nat key 0)) (combine (seq 0 (length p)) p).

(* [FrameBytes f w]: w is the wire form of frame f *)
Definition FrameBytes (f : frame) (w : bytes) : Prop :=
  opcode f < 16 /\
  exists c ext,
    LenHeader (N.of_nat (length (body f))) c ext /\
    match mask f with
    | None => w = (opcode f + (if fin f then 128 else 0)) :: c :: ext ++ body f
    | Some key => length key = 4%nat /\ all_bytes key /\
        w = (opcode f + (if fin f then 128 else 0)) :: (c + 128) :: ext ++ key ++ masked key (body f)
    end.

Inductive WireBytes : list frame -> bytes -> Prop :=
| WireNil : WireBytes [] []
| WireCons f fs w ws : FrameBytes f w -> WireBytes fs ws -> WireBytes (f :: fs) (w ++ ws).

(* [Fragmentation op p fs]: fs is a correct fragmentation of the message (op, p):
   payloads concatenate to p, first frame carries op, others are continuations, FIN exactly on the last *)
Definition Fragmentation (op : N) (p : bytes) (fs : list frame) : Prop :=
  exists init lst,
    fs = init ++ [lst] /\
    concat (map body fs) = p /\
    Forall (fun f => fin f = false) init /\ fin lst = true /\
    match fs with
    | [] => False
    | f :: r => opcode f = op /\ Forall (fun g => opcode g = 0) r
    end.

Definition is_data (f : frame) : bool := opcode f <=? 2.

(* The messages a receiver must deliver for a frame sequence: a message ends at a data frame with FIN;
   control frames do not contribute. *)
Fixpoint delivered (acc : bytes) (fs : list frame) : list bytes :=
  match fs with
  | [] => []
  | f :: r =>
      if is_data f
      then if fin f then (acc ++ body f) :: delivered [] r else delivered (acc ++ body f) r
      else delivered acc r
  end.

(* what is left unfinished at the end *)
Fixpoint pending (acc : bytes) (fs : list frame) : bytes :=
  match fs with
  | [] => acc
  | f :: r =>
      if is_data f
      then if fin f then pending [] r else pending (acc ++ body f) r
      else pending acc r
  end.

(* Limits under which the reader is claimed to work; [acc] is the message under construction:
   no 64-bit lengths, a data frame is masked only if it starts its message (or is empty),
   ping and pong frames carry no payload. *)
Definition frame_safe (acc : bytes) (f : frame) : Prop :=
  N.of_nat (length (body f)) < 65536 /\
  if is_data f then (mask f <> None -> acc = [] \/ body f = [])
  else (opcode f = 9 \/ opcode f = 10) /\ body f = [].

(* a frame sequence within those limits *)
Fixpoint safe (acc : bytes) (fs : list frame) : Prop :=
  match fs with
  | [] => True
  | f :: r => frame_safe acc f /\
      safe (if is_data f then if fin f then [] else acc ++ body f else acc) r
  end.

(* What messages become when one of a positive multiple of the frame size does not end: it is put before the next one, and stays out if there is none *)
Fixpoint merged (maxf : nat) (acc : bytes) (ps : list bytes) : list bytes :=
  match ps with
  | [] => []
  | p :: r => if Nat.eqb (length p mod maxf) 0 && negb (Nat.eqb (length p) 0) then merged maxf (acc ++ p) r else (acc ++ p) :: merged maxf [] r
  end.

(* What a message becomes when the mask of a frame is taken off the first bytes of the message instead of those of the frame *)
Definition grown (acc : bytes) (f : frame) : bytes :=
  match mask f with
  | None => acc ++ body f
  | Some key => let x := acc ++ masked key (body f) in let n := length (body f) in masked key (firstn n x) ++ skipn n x
  end.
Fixpoint garbled (acc : bytes) (fs : list frame) : list bytes :=
  match fs with
  | [] => []
  | f :: r => if is_data f then if fin f then grown acc f :: garbled [] r else garbled (grown acc f) r else garbled acc r
  end.
(* what is left of it *)
Fixpoint unfinished (acc : bytes) (fs : list frame) : bytes :=
  match fs with
  | [] => acc
  | f :: r => unfinished (if is_data f then if fin f then [] else grown acc f else acc) r
  end.
(* no 64-bit lengths, no payloads in pings and pongs, no other frames *)
Definition readable (f : frame) : Prop := N.of_nat (length (body f)) < 65536 /\ (is_data f = true \/ (opcode f = 9 \/ opcode f = 10) /\ body f = []).
(* the bytes of the payload of a frame as they are sent *)
Definition sent_body (f : frame) : bytes := match mask f with None => body f | Some key => masked key (body f) end.
