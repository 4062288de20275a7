(* Model of /repo/include/nbdl/detail/beast_sha1.hpp and of the handshake response, send_handshake_response.hpp and
   parse_handshake_response.hpp.  Words are numbers below 2^32, the arithmetic of std::uint32_t wraps. *)
From Coq Require Import String.
From Verif Require Import Base Base64Model HandshakeModel.
Open Scope N_scope.

Definition w32 (x : N) : N := x mod 2 ^ 32.

(* beast_sha1.hpp:34-39 *)
Definition rol (value bits : N) : N := N.lor (w32 (N.shiftl value bits)) (N.shiftr value (32 - bits)).

(* the std::uint32_t block[16] *)
Definition at_ (block : list N) (i : N) : N := nth (N.to_nat i) block 0.
Definition put_at (block : list N) (i : N) (x : N) : list N := firstn (N.to_nat i) block ++ x :: skipn (S (N.to_nat i)) block.

(* beast_sha1.hpp:41-48 *)
Definition blk (block : list N) (i : N) : N :=
  rol (N.lxor (N.lxor (N.lxor (at_ block (N.land (i + 13) 15)) (at_ block (N.land (i + 8) 15))) (at_ block (N.land (i + 2) 15))) (at_ block i)) 1.

(* the local variables a .. e of transform *)
Inductive var := Va | Vb | Vc | Vd | Ve.
Record vars := mk_vars { va : N; vb : N; vc : N; vd : N; ve : N }.
Definition get_var (s : vars) (x : var) : N := match x with Va => va s | Vb => vb s | Vc => vc s | Vd => vd s | Ve => ve s end.
Definition set_var (s : vars) (x : var) (n : N) : vars :=
  match x with
  | Va => mk_vars n (vb s) (vc s) (vd s) (ve s)
  | Vb => mk_vars (va s) n (vc s) (vd s) (ve s)
  | Vc => mk_vars (va s) (vb s) n (vd s) (ve s)
  | Vd => mk_vars (va s) (vb s) (vc s) n (ve s)
  | Ve => mk_vars (va s) (vb s) (vc s) (vd s) n
  end.

Inductive round := R0 | R1 | R2 | R3 | R4.

(* the functions and constants in beast_sha1.hpp:56, 68, 79, 90, 101 *)
Definition mix (r : round) (w x y : N) : N :=
  match r with
  | R0 | R1 => N.lxor (N.land w (N.lxor x y)) y
  | R2 | R4 => N.lxor (N.lxor w x) y
  | R3 => N.lor (N.land (N.lor w x) y) (N.land w x)
  end.
Definition constant (r : round) : N :=
  match r with R0 | R1 => 0x5a827999 | R2 => 0x6ed9eba1 | R3 => 0x8f1bbcdc | R4 => 0xca62c1d6 end.

(* R0 - R4, beast_sha1.hpp:50-103: v, x and y are passed by value, w and z by reference *)
Definition run_round (r : round) (v w x y z : var) (i : N) (p : list N * vars) : list N * vars :=
  let (block, s) := p in
  let block := match r with R0 => block | _ => put_at block i (blk block i) end in
  let sum := w32 (w32 (w32 (mix r (get_var s w) (get_var s x) (get_var s y) + at_ block i) + constant r) + rol (get_var s v) 5) in
  let s := set_var s z (w32 (get_var s z + sum)) in
  (block, set_var s w (rol (get_var s w) 30)).

(* beast_sha1.hpp:105-116 *)
Definition make_block_word (p : list N) (i : nat) : N :=
  N.lor (N.lor (N.lor (nth (4 * i + 3) p 0) (w32 (N.shiftl (nth (4 * i + 2) p 0) 8))) (w32 (N.shiftl (nth (4 * i + 1) p 0) 16)))
        (w32 (N.shiftl (nth (4 * i) p 0) 24)).
Definition make_block (p : list N) : list N := map (make_block_word p) (seq 0 16).

(* the eighty calls of beast_sha1.hpp:129-208 *)
Definition rounds : list (round * var * var * var * var * var * N) :=
  [
   (R0, Va, Vb, Vc, Vd, Ve, 0); (R0, Ve, Va, Vb, Vc, Vd, 1); (R0, Vd, Ve, Va, Vb, Vc, 2); (R0, Vc, Vd, Ve, Va, Vb, 3); (R0, Vb, Vc, Vd, Ve, Va, 4);
   (R0, Va, Vb, Vc, Vd, Ve, 5); (R0, Ve, Va, Vb, Vc, Vd, 6); (R0, Vd, Ve, Va, Vb, Vc, 7); (R0, Vc, Vd, Ve, Va, Vb, 8); (R0, Vb, Vc, Vd, Ve, Va, 9);
   (R0, Va, Vb, Vc, Vd, Ve, 10); (R0, Ve, Va, Vb, Vc, Vd, 11); (R0, Vd, Ve, Va, Vb, Vc, 12); (R0, Vc, Vd, Ve, Va, Vb, 13); (R0, Vb, Vc, Vd, Ve, Va, 14);
   (R0, Va, Vb, Vc, Vd, Ve, 15); (R1, Ve, Va, Vb, Vc, Vd, 0); (R1, Vd, Ve, Va, Vb, Vc, 1); (R1, Vc, Vd, Ve, Va, Vb, 2); (R1, Vb, Vc, Vd, Ve, Va, 3);
   (R2, Va, Vb, Vc, Vd, Ve, 4); (R2, Ve, Va, Vb, Vc, Vd, 5); (R2, Vd, Ve, Va, Vb, Vc, 6); (R2, Vc, Vd, Ve, Va, Vb, 7); (R2, Vb, Vc, Vd, Ve, Va, 8);
   (R2, Va, Vb, Vc, Vd, Ve, 9); (R2, Ve, Va, Vb, Vc, Vd, 10); (R2, Vd, Ve, Va, Vb, Vc, 11); (R2, Vc, Vd, Ve, Va, Vb, 12); (R2, Vb, Vc, Vd, Ve, Va, 13);
   (R2, Va, Vb, Vc, Vd, Ve, 14); (R2, Ve, Va, Vb, Vc, Vd, 15); (R2, Vd, Ve, Va, Vb, Vc, 0); (R2, Vc, Vd, Ve, Va, Vb, 1); (R2, Vb, Vc, Vd, Ve, Va, 2);
   (R2, Va, Vb, Vc, Vd, Ve, 3); (R2, Ve, Va, Vb, Vc, Vd, 4); (R2, Vd, Ve, Va, Vb, Vc, 5); (R2, Vc, Vd, Ve, Va, Vb, 6); (R2, Vb, Vc, Vd, Ve, Va, 7);
   (R3, Va, Vb, Vc, Vd, Ve, 8); (R3, Ve, Va, Vb, Vc, Vd, 9); (R3, Vd, Ve, Va, Vb, Vc, 10); (R3, Vc, Vd, Ve, Va, Vb, 11); (R3, Vb, Vc, Vd, Ve, Va, 12);
   (R3, Va, Vb, Vc, Vd, Ve, 13); (R3, Ve, Va, Vb, Vc, Vd, 14); (R3, Vd, Ve, Va, Vb, Vc, 15); (R3, Vc, Vd, Ve, Va, Vb, 0); (R3, Vb, Vc, Vd, Ve, Va, 1);
   (R3, Va, Vb, Vc, Vd, Ve, 2); (R3, Ve, Va, Vb, Vc, Vd, 3); (R3, Vd, Ve, Va, Vb, Vc, 4); (R3, Vc, Vd, Ve, Va, Vb, 5); (R3, Vb, Vc, Vd, Ve, Va, 6);
   (R3, Va, Vb, Vc, Vd, Ve, 7); (R3, Ve, Va, Vb, Vc, Vd, 8); (R3, Vd, Ve, Va, Vb, Vc, 9); (R3, Vc, Vd, Ve, Va, Vb, 10); (R3, Vb, Vc, Vd, Ve, Va, 11);
   (R4, Va, Vb, Vc, Vd, Ve, 12); (R4, Ve, Va, Vb, Vc, Vd, 13); (R4, Vd, Ve, Va, Vb, Vc, 14); (R4, Vc, Vd, Ve, Va, Vb, 15); (R4, Vb, Vc, Vd, Ve, Va, 0);
   (R4, Va, Vb, Vc, Vd, Ve, 1); (R4, Ve, Va, Vb, Vc, Vd, 2); (R4, Vd, Ve, Va, Vb, Vc, 3); (R4, Vc, Vd, Ve, Va, Vb, 4); (R4, Vb, Vc, Vd, Ve, Va, 5);
   (R4, Va, Vb, Vc, Vd, Ve, 6); (R4, Ve, Va, Vb, Vc, Vd, 7); (R4, Vd, Ve, Va, Vb, Vc, 8); (R4, Vc, Vd, Ve, Va, Vb, 9); (R4, Vb, Vc, Vd, Ve, Va, 10);
   (R4, Va, Vb, Vc, Vd, Ve, 11); (R4, Ve, Va, Vb, Vc, Vd, 12); (R4, Vd, Ve, Va, Vb, Vc, 13); (R4, Vc, Vd, Ve, Va, Vb, 14); (R4, Vb, Vc, Vd, Ve, Va, 15)
  ].

(* beast_sha1.hpp:118-215; digest is the array as five variables.  The block is changed too: finish goes on using it. *)
Definition transform (digest : vars) (block : list N) : vars * list N :=
  let (block, s) := fold_left (fun p c => match c with (r, v, w, x, y, z, i) => run_round r v w x y z i p end) rounds (block, digest) in
  (mk_vars (w32 (va digest + va s)) (w32 (vb digest + vb s)) (w32 (vc digest + vc s)) (w32 (vd digest + vd s)) (w32 (ve digest + ve s)), block).

(* beast_sha1.hpp:219-228; buflen and blocks are std::size_t *)
Record sha1_context := mk_ctx { buflen : nat; blocks : N; digest : vars; buf : list N }.

(* beast_sha1.hpp:230-241; the buffer keeps what was in it *)
Definition init (buf : list N) : sha1_context :=
  mk_ctx 0 0 (mk_vars 0x67452301 0xefcdab89 0x98badcfe 0x10325476 0xc3d2e1f0) buf.

(* std::memcpy into the buffer *)
Definition memcpy (dst : list N) (pos : nat) (src : list N) : list N := firstn pos dst ++ src ++ skipn (pos + length src) dst.

(* beast_sha1.hpp:243-266; each turn but the last takes at least one byte *)
Fixpoint update_loop (fuel : nat) (ctx : sha1_context) (p : list N) : sha1_context :=
  match fuel with
  | O => ctx
  | S f =>
      let n := Nat.min (length p) (64 - buflen ctx) in
      let buf := memcpy (buf ctx) (buflen ctx) (firstn n p) in
      let len := (buflen ctx + n)%nat in
      if Nat.eqb len 64
      then update_loop f (mk_ctx 0 ((blocks ctx + 1) mod 2 ^ 64) (fst (transform (digest ctx) (make_block buf))) buf) (skipn n p)
      else mk_ctx len (blocks ctx) (digest ctx) buf
  end.
Definition update (ctx : sha1_context) (message : list N) : sha1_context := update_loop (S (length message)) ctx message.

(* beast_sha1.hpp:297-302 *)
Definition word_bytes (x : N) : list N :=
  [N.land (N.shiftr x 24) 255; N.land (N.shiftr x 16) 255; N.land (N.shiftr x 8) 255; N.land x 255].

(* beast_sha1.hpp:268-304 *)
Definition finish (ctx : sha1_context) : list N :=
  let total_bits := ((blocks ctx * 64 + N.of_nat (buflen ctx)) mod 2 ^ 64 * 8) mod 2 ^ 64 in
  let len := S (buflen ctx) in
  let buf := memcpy (memcpy (buf ctx) (buflen ctx) [128]) len (repeat 0 (64 - len)) in
  let block := make_block buf in
  let (digest, block) :=
    if Nat.ltb 56 len
    then let (digest, block) := transform (digest ctx) block in (digest, repeat 0 14 ++ skipn 14 block)
    else (digest ctx, block) in
  let block := put_at block 15 (N.land total_bits 0xffffffff) in
  let block := put_at block 14 (w32 (N.shiftr total_bits 32)) in
  let digest := fst (transform digest block) in
  word_bytes (va digest) ++ word_bytes (vb digest) ++ word_bytes (vc digest) ++ word_bytes (vd digest) ++ word_bytes (ve digest).

(* ---- send_handshake_response.hpp ---- *)

Definition guid : list N := bs "258EAFA5-E914-47DA-95CA-C5AB0DC85B11".

(* send_handshake_response.hpp:27-42; ctx{} is zero *)
Definition generate_accept_token (key : list N) : res (list N) :=
  base64_encode (finish (update (update (init (repeat 0 64)) key) guid)).

(* send_handshake_response.hpp:52-56, 75-84: what the server writes *)
Definition handshake_response (info : handshake_info) : res (list N) :=
  let! accept_token := generate_accept_token (websocket_key info) in
  Ok ((bs "HTTP/1.1 101 Switching Protocols" ++ crlf ++ bs "Upgrade: websocket" ++ crlf ++ bs "Connection: Upgrade" ++ crlf
       ++ bs "Sec-WebSocket-Accept: ") ++ accept_token ++ (crlf ++ crlf)).

(* parse_handshake_response.hpp:18-34 *)
Definition parse_handshake_response (input : list N) : list N + outcome :=
  expect_equal (bs "HTTP/1.1 101 Switching Protocols" ++ crlf ++ bs "Upgrade: websocket" ++ crlf ++ bs "Connection: Upgrade" ++ crlf
                ++ bs "Sec-WebSocket-Accept: s3pPLMBiTxaQ9kYGzzhZRbK+xOo=" ++ crlf ++ crlf) input.
