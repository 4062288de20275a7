(* Model of /repo/include/nbdl/websocket/detail/message_sender.hpp and message_reader.hpp. *)
From Coq Require Import String.
From Verif Require Import Base.
Open Scope N_scope.

(* ---------------------------------------------------------------- sender *)

(* message_sender.hpp:86-116  encoded_length_buffer; assignment to unsigned char keeps the low 8 bits.
   length is a 64-bit std::size_t. *)
Definition to_u8 (x : N) : byte := x mod 256.

Definition encoded_length_buffer (length : N) : bytes :=
  if length <? 126 then [to_u8 length]
  else if length <? 65536 then [126; to_u8 (N.shiftr length 8); to_u8 length]
  else [127; to_u8 (N.shiftr length 56); to_u8 (N.shiftr length 48); to_u8 (N.shiftr length 40);
        to_u8 (N.shiftr length 32); to_u8 (N.shiftr length 24); to_u8 (N.shiftr length 16);
        to_u8 (N.shiftr length 8); to_u8 length].

(* message_sender.hpp:66-69  header_byte |= (1 << 7) *)
Definition apply_fin_bit (header : byte) : byte := N.lor header 128.

(* message_sender.hpp:118-134  send_frame_impl: the three buffers written by one async_write *)
Definition send_frame (header : byte) (frag : bytes) : bytes :=
  header :: encoded_length_buffer (N.of_nat (length frag)) ++ frag.

(* message_sender.hpp:136-174  send_message_impl.  [maxf] is the template argument MaxFrameSize.
   Iterators are modelled as the remaining payload; `frag_end > end` is `maxf > length`.
   (std::next past the end of a short payload and taking the address of the first element of an empty one are formally undefined
   but harmless on contiguous buffers; that is not modelled.)
   The list is the successive async_write calls when every write succeeds.
   [fuel] bounds the recursion; None = out of fuel (shown impossible). *)
Fixpoint send_message_impl (maxf : nat) (fuel : nat) (header : byte) (payload : bytes)
  : option (list bytes) :=
  match fuel with
  | O => None
  | S fuel' =>
      if Nat.ltb (length payload) maxf
      then (* frag_end = end, FIN set; the completion sees new_begin == end *)
           Some [send_frame (apply_fin_bit header) payload]
      else let frag := firstn maxf payload in
           let rest := skipn maxf payload in
           match rest with
           | [] => Some [send_frame header frag]           (* new_begin == end: resolve *)
           | _ => match send_message_impl maxf fuel' 0 rest with  (* opcode := continuation *)
                  | Some fs => Some (send_frame header frag :: fs)
                  | None => None
                  end
           end
  end.

(* message_sender.hpp:176-189  send_impl_fn<opcode> *)
Definition send_message (maxf : nat) (opcode : byte) (payload : bytes) : option (list bytes) :=
  send_message_impl maxf (S (length payload)) opcode payload.

(* message_sender.hpp:25-34 and 39: the opcodes that are sent, but for the 0 above and the pong of the endpoint, and the default MaxFrameSize *)
Definition op_text : byte := 1.
Definition op_binary : byte := 2.
Definition op_close : byte := 8.
Definition default_max_frame : nat := 125.

(* ---------------------------------------------------------------- reader *)

(* message_reader.hpp:69-80 *)
Definition has_mask_key (b1 : byte) : bool := negb (N.shiftr b1 7 =? 0).
Definition has_fin_bit (b0 : byte) : bool := negb (N.shiftr b0 7 =? 0).

(* message_reader.hpp:93-117: how many extended length bytes are read *)
Definition extended_length_size (b1 : byte) : N :=
  let code := N.land b1 0x7F in
  if code =? 126 then 2 else if code =? 127 then 8 else 0.

(* `unsigned char << n`: the operand is promoted to int, so n >= 32 is undefined. *)
Definition int_shl (x n : N) : res N := if 32 <=? n then UB else Ok (N.shiftl x n).

(* message_reader.hpp:146-149 / 154-157: length |= (buf[last - i] << (8 * i)), i = 0 .. count-1.
   [rev_ext] is the extended length buffer reversed, so its i-th element is buf[last - i].
   (Bit 31 produced at i = 3 would sign-extend; with 2 bytes it cannot occur and with 8 bytes the
   loop goes on to an undefined shift anyway.) *)
Fixpoint or_shifted (i : N) (rev_ext : bytes) (acc : N) : res N :=
  match rev_ext with
  | [] => Ok acc
  | b :: r => let! v := int_shl b (8 * i) in or_shifted (i + 1) r (N.lor acc v)
  end.

(* message_reader.hpp:136-164  get_payload_length *)
Definition get_payload_length (b1 : byte) (ext : bytes) : res N :=
  let code := N.land b1 0x7F in
  if (code =? 126) || (code =? 127) then or_shifted 0 (rev ext) 0
  else Ok code.

(* payload[i] ^= mask_key[i % 4] for i in [0, length) -- message_reader.hpp:188-191, 221-224.
   [i] is the running index; elements from [len] on are untouched. *)
Fixpoint unmask_from (key : bytes) (i len : N) (p : bytes) : bytes :=
  match p with
  | [] => []
  | b :: r => (if i <? len then N.lxor b (nth (N.to_nat (i mod 4)) key 0) else b)
              :: unmask_from key (i + 1) len r
  end.

Definition unmask (key : bytes) (len : N) (p : bytes) : bytes := unmask_from key 0 len p.

(* What the user-visible event handlers are called with (message_reader.hpp:24-37). *)
Inductive event :=
| EvMessage (p : bytes)
| EvPing (p : bytes)      (* frame_ctx.payload at the time: the partial message, not the ping's payload *)
| EvPong
| EvClose (p : bytes)
| EvBadInput
| EvError.                (* std::error_code from the transport *)

(* asio::async_read of n bytes from the bytes received so far; None = still waiting *)
Definition take (n : N) (s : bytes) : option (bytes * bytes) :=
  if N.of_nat (length s) <? n then None
  else Some (firstn (N.to_nat n) s, skipn (N.to_nat n) s).

(* One turn of the loop in keep_reading (message_reader.hpp:267-299). *)
Inductive turn :=
| TWait                                    (* a read is pending: not enough bytes yet *)
| TNext (evs : list event) (payload rest : bytes)  (* loop again with this payload buffer *)
| TStop (ev : event)                       (* rejected: handler called, loop over *)
| TUndef.                                  (* undefined behaviour *)

(* message_reader.hpp:234-255 opcode_dispatch, with 166-197 read_payload and 199-230 read_close_payload,
   then the handler stage 276-291. *)
Definition dispatch (payload : bytes) (b0 b1 : byte) (ext key s : bytes) : turn :=
  let op := N.land b0 0x0F in
  if (op =? 0) || (op =? 1) || (op =? 2) then
    match get_payload_length b1 ext with
    | UB => TUndef
    | Ok len =>
        match take len s with
        | None => TWait
        | Some (chunk, rest) =>
            let p := payload ++ chunk in
            let p' := if has_mask_key b1 then unmask key len p else p in
            if has_fin_bit b0 then TNext [EvMessage p'] [] rest else TNext [] p' rest
        end
    end
  else if op =? 8 then
    match get_payload_length b1 ext with
    | UB => TUndef
    | Ok len =>
        match take len s with
        | None => TWait
        | Some (chunk, _) => TStop (EvClose (if has_mask_key b1 then unmask key len chunk else chunk))
        end
    end
  else if op =? 9 then TNext [EvPing payload] payload s
  else if op =? 10 then TNext [EvPong] payload s
  else TStop EvBadInput.

(* message_reader.hpp:82-134 read_frame_header, read_extended_length, read_masking_key *)
Definition read_turn (payload s : bytes) : turn :=
  match take 2 s with
  | Some ([b0; b1], s1) =>
      match take (extended_length_size b1) s1 with
      | None => TWait
      | Some (ext, s2) =>
          match take (if has_mask_key b1 then 4 else 0) s2 with
          | None => TWait
          | Some (key, s3) => dispatch payload b0 b1 ext key s3
          end
      end
  | _ => TWait
  end.

Inductive status := Waiting | Stopped | Undefined | OutOfFuel.

Fixpoint run_fuel (fuel : nat) (payload s : bytes) : list event * status :=
  match fuel with
  | O => ([], OutOfFuel)
  | S f => match read_turn payload s with
           | TWait => ([], Waiting)
           | TStop ev => ([ev], Stopped)
           | TUndef => ([], Undefined)
           | TNext evs p rest => let (evs', st) := run_fuel f p rest in (evs ++ evs', st)
           end
  end.

(* The events raised once the bytes [s] have been received (every turn consumes at least two bytes). *)
Definition run_from (payload s : bytes) : list event * status := run_fuel (S (length s)) payload s.
Definition run (s : bytes) : list event * status := run_from [] s.

(* The pending read fails after [s] was received (message_reader.hpp:39-52, 180-183 then 292-295). *)
Definition run_then_error (s : bytes) : list event * status :=
  match run s with
  | (evs, Waiting) => (evs ++ [EvError], Stopped)
  | r => r
  end.

Definition messages (evs : list event) : list bytes :=
  flat_map (fun e => match e with EvMessage p => [p] | _ => [] end) evs.
