(* Independent specification of base64 (RFC 4648 section 4), written from the RFC:
   it does not mention the model's tables, fragments or offsets. *)
From Coq Require Import String.
From Verif Require Import Base.
Open Scope N_scope.

(* RFC 4648 table 1, by ranges *)
Definition digit_char (v : N) : byte :=
  if v <? 26 then 65 + v                  (* A-Z *)
  else if v <? 52 then 97 + (v - 26)      (* a-z *)
  else if v <? 62 then 48 + (v - 52)      (* 0-9 *)
  else if v =? 62 then 43                 (* + *)
  else 47.                                (* / *)

Definition in_alphabet (c : byte) : Prop := exists v, v < 64 /\ c = digit_char v.

Definition pad_char : byte := 61. (* = *)

(* bits, most significant first *)
Definition bits8 (b : byte) : list bool :=
  map (N.testbit b) [7; 6; 5; 4; 3; 2; 1; 0].
Definition bits6 (v : N) : list bool :=
  map (N.testbit v) [5; 4; 3; 2; 1; 0].
Definition bit_string (l : bytes) : list bool := flat_map bits8 l.
Definition digit_bits (ds : list N) : list bool := flat_map bits6 ds.

(* [IsEncoding l s]: s is the padded base64 text of the bytes l.
   Its digits ds spell the bits of l followed by z < 6 zero bits, and '=' fills to a multiple of 4. *)
Definition IsEncoding (l s : bytes) : Prop :=
  exists ds z p,
    Forall (fun d => d < 64) ds /\
    (z < 6)%nat /\
    digit_bits ds = bit_string l ++ repeat false z /\
    (p < 4)%nat /\
    s = map digit_char ds ++ repeat pad_char p /\
    (length s mod 4 = 0)%nat.

(* Well-formed padded base64 text: whole quads, alphabet, at most two '=' at the end. *)
Definition WellFormed (s : bytes) : Prop :=
  exists body p,
    s = body ++ repeat pad_char p /\
    (p <= 2)%nat /\
    Forall in_alphabet body /\
    (length s mod 4 = 0)%nat.

(* [IsDecoding s l]: l is the whole bytes among the bits of the digits of s
   (fewer than 8 left-over bits are dropped, whatever their value). *)
Definition IsDecoding (s l : bytes) : Prop :=
  exists ds p rest,
    s = map digit_char ds ++ repeat pad_char p /\
    (p <= 2)%nat /\
    Forall (fun d => d < 64) ds /\
    digit_bits ds = bit_string l ++ rest /\
    (length rest < 8)%nat.

(* number of characters that are not '=' *)
Definition non_pad_count (s : bytes) : nat := length (filter (fun c => negb (c =? pad_char)) s).
