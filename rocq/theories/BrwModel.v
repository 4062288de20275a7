(* Model of the serializer and the deserializer of a client in a browser, /repo/include/nbdl/app/serializer_js.hpp, with
   JSON.stringify and JSON.parse of client_connection_js.hpp:121-124, 147-157 around them.  Messages are values as in WireModel,
   JavaScript values as in JsbModel. *)
From Verif Require Import Base StoreModel NetModel.
From Verif Require Import Base64Model JsonModel AppModel WireModel JsbModel.
Open Scope N_scope.

Section Browser.
Variable box : shape -> N -> value.
Variable unbox : shape -> value -> N.
Variable api : list message_type.
Variable sys : shape.
Variable lenient : list N -> list N.
Variable other_number : jsv -> Z.
Variable like_bytes : list (list N * jsv) -> option (list N).
Variable stringify : jsv -> bytes.            (* JSON.stringify *)
Variable js_parse : bytes -> option jsv.      (* JSON.parse; None: it throws *)

(* serializer_js.hpp:32-37, client_connection_js.hpp:147-152 *)
Definition browser_text (m : msg) : bytes :=
  match locate box api m with
  | Some (i, v) => match bind_to lenient (message_variant sys (shapes api)) (VVar (S (S i)) v) with Ok j => stringify j | UB => [] end
  | None => []
  end.

(* deserializer_fn, serializer_js.hpp:46-71, on what JSON.parse gives (client_connection_js.hpp:121-124): unresolved and system
   messages are errors; nothing is caught *)
Definition browser_read (t : bytes) : incoming :=
  let s := message_variant sys (shapes api) in
  match js_parse t with
  | None => Thrown
  | Some j =>
      match bind_from lenient other_number like_bytes s j (default s) with
      | Ok None => Thrown
      | Ok (Some (VVar (S (S i)) v)) =>
          match nth_error api i with
          | Some ty => match message_of unbox ty v with Some m => NetModel.Message m | None => Twice end
          | None => Twice
          end
      | Ok (Some (VVar _ _)) => Refused
      | _ => Twice
      end
  end.
End Browser.
