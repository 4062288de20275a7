(* Small pieces of the application layer: the address of a client, the (de)serialiser, and the connecting promise. *)
From Coq Require Import String.
From Verif Require Import Base Base64Model JsonModel.
Open Scope N_scope.

(* ---- include/nbdl/app/client_connection.hpp:26-45 ---- *)

Fixpoint starts_with (pat s : bytes) : bool :=
  match pat, s with
  | [], _ => true
  | x :: pat', y :: s' => (x =? y) && starts_with pat' s'
  | _, _ => false
  end.
(* std::string_view::find: the position of the first occurrence *)
Fixpoint find_sub (pat s : bytes) : option nat :=
  if starts_with pat s then Some O else match s with [] => None | _ :: r => option_map S (find_sub pat r) end.

(* split_address: protocol, host, port.  substr and remove_prefix stay inside the view: pos is the position of something found *)
Definition split_address (address : bytes) : bytes * bytes * bytes :=
  let '(protocol, address) :=
    match find_sub (bs "://") address with
    | Some pos => (skipn pos address, skipn (pos + 3) address)        (* substr(pos); remove_prefix(pos + 3) *)
    | None => ([], address)
    end in
  match find_sub (bs ":") address with
  | Some pos => (protocol, firstn pos address, skipn (pos + 1) address)
  | None => (protocol, address, [])
  end.

(* init, lines 74-92: the host and the service beast_ws::connect is given *)
Definition connect_to (address : bytes) : bytes * bytes := let '(_, host, port) := split_address address in (host, port).

(* ---- include/nbdl/app/serializer.hpp ---- *)

(* what the continuation of the deserialiser is called with *)
Inductive resolution :=
| ParseError                         (* make_error("JSONCPP Parse Error") *)
| UnknownError                       (* make_error("Unknown Error") *)
| SystemError (v : value)            (* make_error(sys_msg) *)
| Message (i : nat) (v : value).     (* the i-th message type *)

(* message_api.hpp:31-56, variant.hpp: unresolved, the system message, the messages *)
Definition message_variant (sys : shape) (msgs : list shape) : shape := SVar (SEmpty :: sys :: msgs).

(* serializer::serialize, lines 41-46: the document; to_string prints it.  Variant(m) holds the alternative of m's type *)
Definition serialize (sys : shape) (msgs : list shape) (i : nat) (v : value) : res json :=
  write (message_variant sys msgs) (VVar (S (S i)) v).
Definition serialize_system (sys : shape) (msgs : list shape) (v : value) : res json := write (message_variant sys msgs) (VVar 1 v).

(* lines 69-83 *)
Definition match_message (var : value) : res (list resolution) :=
  match var with
  | VVar 0 _ => Ok [UnknownError]
  | VVar 1 v => Ok [SystemError v]
  | VVar (S (S i)) v => Ok [Message i v]
  | _ => UB
  end.

Section Deserializer.
Variable integral_of : N -> option Z.
Variable double_of : Z -> N.
(* Json::CharReader::parse *)
Variable parse : bytes -> option json.

(* from_string, binder/jsoncpp.hpp:338-355: an exception is None *)
Definition from_string (s : shape) (text : bytes) (old : value) : throws value :=
  match parse text with None => Ok None | Some j => read integral_of double_of s j old end.

(* deserializer_fn, lines 56-86: every call of resolve in order.  The catch does not return.  An exception leaves var as it
   was: the variant is assigned last (variant.hpp:185-188) *)
Definition deserialize (sys : shape) (msgs : list shape) (text : bytes) : res (list resolution) :=
  let s := message_variant sys msgs in
  let! r := from_string s text (default s) in
  match r with
  | Some var => match_message var
  | None => let! l := match_message (default s) in Ok (ParseError :: l)
  end.
End Deserializer.

(* ---- example/pipes/connect.hpp:28-64 ---- *)

Inductive outcome := Resolved | Rejected (attempts_ : Z) | Waiting | Overflow.

(* operator() and the callback, lines 45-63: the results of async_connect in turn (true: connected) give the outcome, the
   number of attempts made, the value of attempts_failed after it, and the results not used.  attempts_failed++ overflows an int *)
Fixpoint connect (limit : Z) (attempts_failed : Z) (results : list bool) (made : nat) : outcome * nat * Z * list bool :=
  match results with
  | [] => (Waiting, S made, attempts_failed, [])
  | true :: r => (Resolved, S made, attempts_failed, r)
  | false :: r =>
      if (attempts_failed =? 2147483647)%Z then (Overflow, S made, attempts_failed, r)
      else if (limit <=? attempts_failed)%Z then (Rejected limit, S made, (attempts_failed + 1)%Z, r)
      else connect limit (attempts_failed + 1) r (S made)
  end.

(* the same promise used again and again, as in a loop: attempts_failed is a member and is set to 0 only by the constructor
   (line 39).  The outcomes of the uses with the attempts each made *)
Fixpoint connects (limit : Z) (attempts_failed : Z) (results : list bool) (uses : nat) : list (outcome * nat) :=
  match uses with
  | O => []
  | S n => let '(o, k, f, r) := connect limit attempts_failed results 0 in
           (o, k) :: match o with Waiting | Overflow => [] | _ => connects limit f r n end
  end.
