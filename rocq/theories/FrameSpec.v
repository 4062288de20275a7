(* What the framing promises: the number four bytes stand for, and which messages a stream holds. *)
From Verif Require Import Base FrameModel.
Open Scope N_scope.

(* network byte order *)
Inductive BigEndian : bytes -> N -> Prop :=
| be a b c d : is_byte a -> is_byte b -> is_byte c -> is_byte d -> BigEndian [a; b; c; d] (a * 2 ^ 24 + b * 2 ^ 16 + c * 2 ^ 8 + d).

(* the message on the wire: its length, then itself *)
Definition OnWire (m w : bytes) : Prop := exists h, BigEndian h (N.of_nat (length m)) /\ w = h ++ m.

Definition Prefix {A} (a b : list A) : Prop := exists r, b = a ++ r.

(* the stream is the messages one after another *)
Inductive Stream : list bytes -> bytes -> Prop :=
| st_nil : Stream [] []
| st_cons m ms w ws : OnWire m w -> Stream ms ws -> Stream (m :: ms) (w ++ ws).

(* the stream holds these messages, and not all of another one *)
Definition Complete (sent got : list bytes) (stream : bytes) : Prop :=
  Prefix got sent /\ (exists w, Stream got w /\ Prefix w stream) /\
  forall m w, Prefix (got ++ [m]) sent -> Stream (got ++ [m]) w -> ~ Prefix w stream.

Definition small (m : bytes) : Prop := N.of_nat (length m) < 2 ^ 32.
Definition reaches (s : state) : Prop := exists ls, exec init ls = Some s.
(* nothing more happens by itself *)
Definition quiet (s : state) : Prop := forall l, (forall m, l <> Send m) -> l <> Close -> step s l = None.
Definition internal (l : label) : Prop := (forall m, l <> Send m) /\ l <> Close.
