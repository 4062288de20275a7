(* Model of the websocket handshake and its cookies: /repo/include/nbdl/websocket/detail/get_auth_token.hpp,
   parse_handshake_request.hpp, expect_equal.hpp, send_handshake_request.hpp, parse_handshake_response.hpp and
   /repo/include/nbdl/app/detail/cookie_parser.hpp.  Strings are lists of bytes. *)
From Coq Require Import String.
From Verif Require Import Base.
Open Scope N_scope.

Fixpoint starts_with (p s : list N) : bool :=
  match p, s with
  | [], _ => true
  | x :: p', y :: s' => (x =? y) && starts_with p' s'
  | _, [] => false
  end.

(* std::find of a character: the position, or the length *)
Fixpoint find_char (c : N) (s : list N) : nat :=
  match s with [] => 0%nat | x :: r => if x =? c then 0%nat else S (find_char c r) end.

(* ---- get_auth_token.hpp; an iterator into the header is the rest of the header from there ---- *)

(* get_auth_token.hpp:22-38 *)
Definition check_auth_cookie (begin : list N) : list N :=
  if starts_with (bs "nbdl_auth=") begin then skipn 10 begin else skipn (find_char 59 begin) begin.

(* get_auth_token.hpp:41-46 *)
Definition take_cookie_value (begin : list N) : list N := firstn (find_char 59 begin) begin.

(* get_auth_token.hpp:48-78: the token and whether the end iterator was dereferenced (line 59).  That is undefined; the
   terminating zero that is found there in practice is not ';'. *)
Fixpoint auth_loop (fuel : nat) (current : list N) : option (list N * bool) :=
  match fuel with
  | O => None
  | S f =>
      match current with
      | [] => Some ([], false)
      | _ =>
          let cur := check_auth_cookie current in
          match cur with
          | [] => Some (take_cookie_value cur, true)
          | c :: _ => if c =? 59
                      then if 2 <? N.of_nat (length cur) then auth_loop f (skipn 2 cur) else Some ([], false)
                      else Some (take_cookie_value cur, false)
          end
      end
  end.
Definition get_auth_token (cookies : list N) : option (list N * bool) := auth_loop (S (length cookies)) cookies.

(* ---- cookie_parser.hpp ---- *)

(* std::iswspace in the "C" locale *)
Definition iswspace (c : N) : bool := (c =? 32) || ((9 <=? c) && (c <=? 13)).

(* cookie_parser.hpp:14-19 *)
Fixpoint remove_leading_whitespace (x : list N) : list N :=
  match x with c :: r => if iswspace c then remove_leading_whitespace r else x | [] => [] end.

(* cookie_parser.hpp:21-29 *)
Definition skip_past (x : list N) (c : N) : list N :=
  let pos := find_char c x in if Nat.eqb pos (length x) then [] else skipn (S pos) x.

(* cookie_parser.hpp:41-60; find(...) == 0 says that the string starts with the text *)
Fixpoint session_loop (fuel : nat) (x : list N) : option (list N) :=
  match fuel with
  | O => None
  | S f =>
      match x with
      | [] => Some []
      | _ => let x := remove_leading_whitespace x in
             if starts_with (bs "NBDL_SESS=") x
             then let x := skip_past x 61 in Some (firstn (find_char 59 x) x)
             else session_loop f (skip_past (skip_past x 61) 59)
      end
  end.
Definition get_session_cookie (x : list N) : option (list N) := session_loop (S (length x)) x.

(* ---- parse_handshake_request.hpp ---- *)

Record handshake_info := mk_info { websocket_key : list N; cookies : list N }.

(* std::tolower of a char; undefined for a negative one *)
Definition tolower (c : N) : N := if (65 <=? c) && (c <=? 90) then c + 32 else c.

(* parse_handshake_request.hpp:45 and 52: from the first character that is not a space *)
Fixpoint skip_spaces (s : list N) : list N :=
  match s with c :: r => if c =? 32 then skip_spaces r else s | [] => [] end.

(* parse_handshake_request.hpp:33-57.  std::next of the end (lines 45, 52) is undefined. *)
Definition parse_header (info : handshake_info) (header : list N) : res handshake_info :=
  let token_pos := find_char 58 header in
  let name := firstn token_pos header in
  if existsb (fun c => 128 <=? c) name then UB
  else
    let name := map tolower name in
    if bytes_eqb name (bs "sec-websocket-key")
    then match skipn token_pos header with
         | [] => UB
         | _ :: r => Ok (mk_info (skip_spaces r) (cookies info))
         end
    else if bytes_eqb name (bs "cookies")
    then match skipn token_pos header with
         | [] => UB
         | _ :: r => Ok (mk_info (websocket_key info) (skip_spaces r))
         end
    else Ok info.

(* the position of the first CR LF *)
Fixpoint find_crlf (s : list N) : option nat :=
  match s with
  | a :: (b :: _) as r => if (a =? 13) && (b =? 10) then Some 0%nat else option_map S (find_crlf r)
  | _ => None
  end.

(* what a promise of the handshake does; Waiting: the peer has not sent enough yet *)
Inductive outcome :=
| Resolved (info : handshake_info) (buffer unread : list N)
| RejectError          (* a std::error_code *)
| RejectBadRequest     (* event::bad_request *)
| Undefined
| Waiting.

(* asio::async_read_until on dynamic_buffer(buffer, 256), parse_handshake_request.hpp:69-73.  The numbers are how much each
   read of the socket returns: at least one byte and no more than fits.  A full buffer without the delimiter is an error
   (asio::error::not_found), and so is the end of the stream. *)
Inductive read_result := Line (size : nat) (buffer unread : list N) (reads : list nat) | ReadError | ReadWaiting.
Fixpoint read_until (reads : list nat) (buffer unread : list N) : read_result :=
  match find_crlf buffer with
  | Some i => Line (i + 2) buffer unread reads
  | None =>
      if Nat.leb 256 (length buffer) then ReadError
      else match unread with
           | [] => ReadError
           | _ => match reads with
                  | [] => ReadWaiting
                  | n :: reads' => let n := Nat.max 1 (Nat.min n (256 - length buffer)) in
                                   read_until reads' (buffer ++ firstn n unread) (skipn n unread)
                  end
           end
  end.

(* read_headers::operator(), parse_handshake_request.hpp:64-95; each turn consumes at least three bytes *)
Fixpoint read_headers (fuel : nat) (reads : list nat) (info : handshake_info) (buffer unread : list N) : outcome :=
  match fuel with
  | O => Waiting
  | S f =>
      match read_until reads buffer unread with
      | ReadError => RejectError
      | ReadWaiting => Waiting
      | Line size buffer unread reads =>
          if Nat.ltb 2 size
          then match parse_header info (firstn (size - 2) buffer) with
               | UB => Undefined
               | Ok info => read_headers f reads info (skipn size buffer) unread
               end
          else Resolved info buffer unread
      end
  end.

(* expect_equal.hpp:23-47: reads as many bytes as expected; what is left when they are equal *)
Definition expect_equal (str input : list N) : list N + outcome :=
  if Nat.ltb (length input) (length str) then inr RejectError
  else if bytes_eqb str (firstn (length str) input) then inl (skipn (length str) input) else inr RejectBadRequest.

Definition crlf : list N := [13; 10].

(* parse_handshake_request.hpp:99-104 *)
Definition parse_handshake_request (reads : list nat) (input : list N) : outcome :=
  match expect_equal (bs "GET / HTTP/1.1" ++ crlf) input with
  | inl rest => read_headers (S (length rest)) reads (mk_info [] []) [] rest
  | inr o => o
  end.

(* send_handshake_request.hpp:33-60: what the client writes *)
Definition handshake_request (origin auth_token : list N) : list N :=
  (bs "GET / HTTP/1.1" ++ crlf ++ bs "Host: nbdl" ++ crlf ++ bs "Origin:")
  ++ origin
  ++ (crlf ++ bs "Upgrade: websocket" ++ crlf ++ bs "Connection: Upgrade" ++ crlf
      ++ bs "Sec-WebSocket-Key: dGhlIHNhbXBsZSBub25jZQ==" ++ crlf ++ bs "Sec-WebSocket-Version: 13" ++ crlf
      ++ bs "Cookies: nbdl_auth=")
  ++ auth_token
  ++ (bs ";" ++ crlf ++ crlf).
