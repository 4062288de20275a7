(* Model of /repo/include/nbdl/util/base64_encode.hpp and base64_decode.hpp. *)
From Coq Require Import String.
From Verif Require Import Base.
Open Scope N_scope.

(* C++ `int` overflow is undefined behaviour: a length must stay below 2^31. *)
Definition int_max : N := 2147483647.
Definition fits_int (n : N) : bool := n <=? int_max.

(* ---------------------------------------------------------------- encode *)

(* /repo/include/nbdl/util/base64_encode.hpp:21-24  lookup *)
Definition lookup : bytes :=
  bs "ABCDEFGHIJKLMNOPQRSTUVWXYZabcdefghijklmnopqrstuvwxyz0123456789+/".

(* base64_encode.hpp:26  offsets[4] *)
Definition offsets : list N := [26; 20; 14; 8].

(* base64_encode.hpp:34  lookup[(fragment & (0x3F << off)) >> off].
   Indexing outside the 64-character literal is UB. *)
Definition encode_char (fragment off : N) : res byte :=
  match nth_error lookup (N.to_nat (N.shiftr (N.land fragment (N.shiftl 0x3F off)) off)) with
  | Some c => Ok c
  | None => UB
  end.

Fixpoint encode_chars (fragment : N) (offs : list N) : res bytes :=
  match offs with
  | [] => Ok []
  | o :: r => let! c := encode_char fragment o in
              let! cs := encode_chars fragment r in Ok (c :: cs)
  end.

(* base64_encode.hpp:28-37  encode_fragment: byte_length + 1 characters, none for 0. *)
Definition encode_fragment (fragment : N) (byte_length : nat) : res bytes :=
  match byte_length with
  | O => Ok []
  | S _ => encode_chars fragment (firstn (S byte_length) offsets)
  end.

(* base64_encode.hpp:39-42  encoding_length_padded, int arithmetic *)
Definition encoding_length_padded (n : N) : res N :=
  if fits_int (4 * n)
  then Ok (4 * n / 3 + ((4 - ((4 * n / 3) mod 4)) mod 4))
  else UB.

(* A buffer element after integral promotion, converted to uint32_t.
   signed_char says whether the buffer's value_type is a signed 8-bit type
   (std::string on x86) or unsigned char. *)
Definition promote (signed_char : bool) (b : byte) : N :=
  if signed_char && (128 <=? b) then (2 ^ 32 - 256 + b) else b.

(* x << k on uint32_t bit patterns (C++20 two's complement shifts). *)
Definition shl32 (x k : N) : N := (N.shiftl x k) mod 2 ^ 32.

(* base64_encode.hpp:63-67  three bytes of one full group *)
Definition fragment3 (sc : bool) (a b c : byte) : N :=
  N.lor (N.lor (shl32 (promote sc a) 24) (shl32 (promote sc b) 16)) (shl32 (promote sc c) 8).

(* base64_encode.hpp:71-75  extras |= buffer[round_length + i] << (8 * (3 - i)) *)
Fixpoint extras_from (sc : bool) (i : N) (l : bytes) (acc : N) : N :=
  match l with
  | [] => acc
  | b :: r => extras_from sc (i + 1) r (N.lor acc (shl32 (promote sc b) (8 * (3 - i))))
  end.

(* base64_encode.hpp:61-76  the loop over whole groups, then the extras.
   The index loop i += 3 is written as recursion on the buffer. *)
Fixpoint encode_body (sc : bool) (l : bytes) : res bytes :=
  match l with
  | a :: b :: c :: r =>
      let! h := encode_fragment (fragment3 sc a b c) 3 in
      let! t := encode_body sc r in Ok (h ++ t)
  | extras => encode_fragment (extras_from sc 0 extras 0) (length extras)
  end.

(* base64_encode.hpp:48-81  operator(): the output string is pre-filled with '=' (61) and
   overwritten from the front; writing past its end is UB.  The assert of line 78 is kept. *)
Definition base64_encode_gen (sc : bool) (l : bytes) : res bytes :=
  let! n := encoding_length_padded (N.of_nat (length l)) in
  let! body := encode_body sc l in
  let padding := (3 - N.of_nat (length l) mod 3) mod 3 in
  if N.of_nat (length body) + padding =? n
  then Ok (body ++ repeat 61 (N.to_nat n - length body))
  else UB.

Definition base64_encode := base64_encode_gen false.

(* ---------------------------------------------------------------- decode *)

(* /repo/include/nbdl/util/base64_decode.hpp:20-21 *)
Definition PADDING : N := 65.
Definition INVALID : N := 64.

(* base64_decode.hpp:23-46  reverse_lookup *)
Definition reverse_lookup : list N :=
  [64;64;64;64;64;64;64;64;64;64;64;64;64;64;64;64;
   64;64;64;64;64;64;64;64;64;64;64;64;64;64;64;64;
   64;64;64;64;64;64;64;64;64;64;64;62;64;64;64;63;
   52;53;54;55;56;57;58;59;60;61;64;64;64;65;64;64;
   64; 0; 1; 2; 3; 4; 5; 6; 7; 8; 9;10;11;12;13;14;
   15;16;17;18;19;20;21;22;23;24;25;64;64;64;64;64;
   64;26;27;28;29;30;31;32;33;34;35;36;37;38;39;40;
   41;42;43;44;45;46;47;48;49;50;51;64;64;64;64;64;
   64;64;64;64;64;64;64;64;64;64;64;64;64;64;64;64;
   64;64;64;64;64;64;64;64;64;64;64;64;64;64;64;64;
   64;64;64;64;64;64;64;64;64;64;64;64;64;64;64;64;
   64;64;64;64;64;64;64;64;64;64;64;64;64;64;64;64;
   64;64;64;64;64;64;64;64;64;64;64;64;64;64;64;64;
   64;64;64;64;64;64;64;64;64;64;64;64;64;64;64;64;
   64;64;64;64;64;64;64;64;64;64;64;64;64;64;64;64;
   64;64;64;64;64;64;64;64;64;64;64;64;64;64;64;64].

(* Index is an unsigned char and the table has 256 entries, so the default is never used. *)
Definition rlookup (c : byte) : N := nth (N.to_nat (c mod 256)) reverse_lookup INVALID.

(* base64_decode.hpp:48-49 *)
Definition is_invalid (c : byte) : bool := rlookup c =? INVALID.
Definition is_not_padding (c : byte) : bool := negb (rlookup c =? PADDING).

(* std::find(b.begin(), b.end(), '='): the suffix starting at the first '='. *)
Fixpoint find_pad (b : bytes) : bytes :=
  match b with
  | [] => []
  | c :: r => if c =? 61 then b else find_pad r
  end.

(* base64_decode.hpp:51-66  validate *)
Definition validate (b : bytes) : bool :=
  if negb (N.of_nat (length b) mod 4 =? 0) then false
  else if existsb is_invalid b then false
  else let pad := find_pad b in
       if 2 <? N.of_nat (length pad) then false
       else if existsb is_not_padding pad then false
       else true.

(* base64_decode.hpp:68-72 *)
Definition source_length_unpadded (b : bytes) : nat := length (filter is_not_padding b).

(* base64_decode.hpp:74-79, int arithmetic *)
Definition target_decoded_length (b : bytes) : res N :=
  let n := N.of_nat (source_length_unpadded b) in
  if fits_int (3 * n) then Ok (3 * n / 4) else UB.

(* base64_decode.hpp:109-115 / 126-132  fragment |= value << offsets[j] *)
Fixpoint gather (cs : bytes) (offs : list N) (acc : N) : N :=
  match cs, offs with
  | c :: cs', o :: offs' => gather cs' offs' (N.lor acc (shl32 (rlookup c) o))
  | _, _ => acc
  end.

(* base64_decode.hpp:117-121  *out = fragment >> (k * 8), k = 3, 2, 1 (as unsigned char) *)
Definition fragment_byte (fragment k : N) : byte := (N.shiftr fragment (k * 8)) mod 256.

(* base64_decode.hpp:134  length_map[] {3, 2, 2, 1, 0} *)
Definition length_map : list N := [3; 2; 2; 1; 0].

(* base64_decode.hpp:135-139  for (k = 3; k > length_map[extra]; k--) *)
Definition extra_bytes (fragment : N) (extra : nat) : bytes :=
  map (fragment_byte fragment)
      (filter (fun k => nth extra length_map 0 <? k) [3; 2; 1]).

(* base64_decode.hpp:105-140  loop over groups of four characters, then the extras *)
Fixpoint decode_body (l : bytes) : bytes :=
  match l with
  | a :: b :: c :: d :: r =>
      let f := gather [a; b; c; d] offsets 0 in
      fragment_byte f 3 :: fragment_byte f 2 :: fragment_byte f 1 :: decode_body r
  | [] => []
  | extras => extra_bytes (gather extras offsets 0) (length extras)
  end.

(* base64_decode.hpp:93-145  decode: writes exactly output.size() bytes or trips the assert
   of line 142.  It reads input[0 .. length) where length counts the non-padding characters. *)
Definition decode (input : bytes) (output_size : N) : res bytes :=
  let out := decode_body (firstn (source_length_unpadded input) input) in
  if N.of_nat (length out) =? output_size then Ok out else UB.

(* base64_decode.hpp:152-161  one-argument operator() *)
Definition base64_decode1 (input : bytes) : res bytes :=
  match input with
  | [] => Ok []
  | _ => if negb (validate input) then Ok []
         else let! n := target_decoded_length input in decode input n
  end.

(* The two kinds of output buffer selected by the overloads at base64_decode.hpp:81-91 *)
Inductive out_kind := Dynamic | Fixed.

(* std::vector<unsigned char>::resize: truncates or appends zeros *)
Definition resize (l : bytes) (n : N) : bytes :=
  firstn (N.to_nat n) l ++ repeat 0 (N.to_nat n - length l).

(* base64_decode.hpp:81-91  prepare_output_buffer *)
Definition prepare_output_buffer (k : out_kind) (buf : bytes) (n : N) : bytes * bool :=
  match k with
  | Dynamic => (resize buf n, true)
  | Fixed => (buf, N.of_nat (length buf) =? n)
  end.

(* base64_decode.hpp:163-176  two-argument operator(): result flag and final buffer contents *)
Definition base64_decode2 (k : out_kind) (input buf : bytes) : res (bool * bytes) :=
  let! n := target_decoded_length input in
  let (buf1, ok) := prepare_output_buffer k buf n in
  if negb ok then Ok (false, buf1)
  else match buf1 with
       | [] => Ok (true, buf1)
       | _ => if negb (validate input) then Ok (false, buf1)
              else let! out := decode input (N.of_nat (length buf1)) in Ok (true, out)
       end.
