(* Model of example/pipes/receive_messages_until.hpp with the sending side of example/pipes/main.cpp:137-147: messages of a
   variant type go as JSON texts with a length in front (FrameModel.v) over a connection, and are handed to an action until
   one of a given type arrives.
   Simplified: what follows a promise does not throw (the functions that call it are noexcept, promise.hpp:24-36); memory
   is never exhausted. *)
From Verif Require Import Base JsonModel AppModel FrameModel.
Open Scope N_scope.

(* what the promise is settled with: resolver.resolve(message) in line 47, resolver.reject(error) in line 54 with what
   from_string, the action or the socket gave; [Undefined]: reading the text is undefined behaviour *)
Inductive settlement := Done (v : value) | BadText | BadAction | BadSocket | Undefined.

Section Pip.
(* the alternatives of the message type after nbdl::unresolved, and which of them is the type Terminate *)
Variable alts : list shape.
Variable term : nat.
(* does the action throw for this message *)
Variable fails : value -> bool.
Variable integral_of : N -> option Z.
Variable double_of : Z -> N.
Variable parse : bytes -> option json.   (* Json::CharReader *)
Variable print : json -> bytes.          (* Json::StreamWriter *)

(* main.cpp:114-120, variant.hpp:139 *)
Definition message : shape := SVar (SEmpty :: alts).

Record world := { wire : state; acted : list value; settled : list settlement }.
Definition start : world := {| wire := init; acted := []; settled := [] |}.

(* lines 34-54, once read_raw_message resolved with [text]: the calls of action and the settlement, if the loop ends *)
Definition receive (text : bytes) : list value * list settlement :=
  match from_string integral_of double_of parse message text (default message) with
  | UB => ([], [Undefined])
  | Ok None => ([], [BadText])                                     (* 38, caught by try_ *)
  | Ok (Some (VVar O v)) => ([], [])                               (* 42, 48-51 *)
  | Ok (Some (VVar (S i) v)) =>                                    (* 43 *)
      if fails (VVar (S i) v) then ([VVar (S i) v], [BadAction])
      else ([VVar (S i) v], if Nat.eqb i term then [Done (VVar (S i) v)] else [])   (* 46-52 *)
  | Ok (Some _) => ([], [Undefined])
  end.

(* main.cpp:123-130: the text of a message *)
Definition text_of (i : nat) (v : value) : option bytes :=
  match write message (VVar (S i) v) with Ok j => Some (print j) | UB => None end.

Inductive event :=
| Say (i : nat) (v : value)      (* the client's pipeline sends a message *)
| Raw (t : bytes)                (* another program sends some text *)
| Net (l : label).               (* anything else that happens on the connection *)

Definition arrived (w : world) (s : state) : world :=
  match rphase (wire w), rev (delivered s) with
  | ReadBody _, t :: _ => let (a, r) := receive t in {| wire := s; acted := acted w ++ a; settled := settled w ++ r |}
  | _, _ => {| wire := s; acted := acted w; settled := settled w |}
  end.

Definition step (w : world) (e : event) : option world :=
  match e with
  | Say i v => match text_of i v with
               | Some t => option_map (fun s => {| wire := s; acted := acted w; settled := settled w |}) (FrameModel.step (wire w) (Send t))
               | None => None
               end
  | Raw t => option_map (fun s => {| wire := s; acted := acted w; settled := settled w |}) (FrameModel.step (wire w) (Send t))
  | Net (Send _) => None
  | Net ((Push _ | WriteDone | Close) as l) =>
      option_map (fun s => {| wire := s; acted := acted w; settled := settled w |}) (FrameModel.step (wire w) l)
  | Net l =>
      (* the receiver reads while its promise is not settled *)
      match settled w with
      | _ :: _ => None
      | [] => match l with
              | ReadDone => option_map (arrived w) (FrameModel.step (wire w) l)
              | ReadEof => option_map (fun s => {| wire := s; acted := acted w; settled := [BadSocket] |}) (FrameModel.step (wire w) l)
              | _ => option_map (fun s => {| wire := s; acted := acted w; settled := settled w |}) (FrameModel.step (wire w) l)
              end
      end
  end.

Fixpoint exec (w : world) (es : list event) : option world :=
  match es with [] => Some w | e :: r => match step w e with Some w' => exec w' r | None => None end end.
End Pip.
