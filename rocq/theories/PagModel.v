(* Model of pages kept by nbdl::webui::renderer as an actor of a context: /repo/include/nbdl/webui/renderer.hpp:73-187
   over the contexts of StoreModel.v (context.hpp:140-150 calls notify_state_change, which updates the page), alone or
   connected as in NetModel.v.  The page is rendered when the context is made, from empty stores.  (By C97 the renderer
   then reads stores which are not constructed; they are taken to be empty here.) *)
From Verif Require Import Base StoreModel NetModel UiModel.

(* what the renderer reads through its handle of the context: context.hpp:306-336, map_store.hpp:174-192 *)
Definition reads (stores : nat -> table) (p : path) : outcome := map_match (stores (ptype p)) p.

(* renderer.hpp:179-187: the stores as they are when actor [ren] is notified *)
Definition noted (ren : nat) (e : list (StoreModel.event table)) : list (nat -> table) :=
  flat_map (fun x => match x with Notify i _ st => if Nat.eqb i ren then [st] else [] | _ => [] end) e.

(* renderer.hpp:110-118, 131-145, 179-187: made for the element [el], then updated at each of [notes].  [see] is what the
   specification makes of the state it reads. *)
Definition page_after {st} (see : (path -> outcome) -> st) (s : spec st) (h : heap) (el : nat) (notes : list (nat -> table)) : out (heap * renderer st) :=
  match make_renderer s (see (reads (fun _ => []))) h el with
  | Fine (h0, r0) => live_through (map (fun x => Changed (see (reads x))) notes) h0 r0
  | Undefined => Undefined
  | Throws => Throws
  end.

Section Net.
Context {text : Type} (up_text : nat -> msg -> text) (up_read : text -> incoming) (down_text : msg -> text) (down_read : nat -> text -> incoming)
  {P : Type} (react : P -> msg -> P * list msg) (ssh : shape) (srv : nat) (csh : shape) (cli : nat).
(* the index of the renderer among the actors of a client's context *)
Variable ren : nat.
Notation step := (NetModel.step text up_text up_read down_text down_read P react ssh srv csh cli).
Notation net := (NetModel.net text P).

(* the notifications of the renderer of client i in one move: client.hpp:27-40 and the application push messages *)
Definition noted_in (n : net) (i : nat) (l : label text) : list (nat -> table) :=
  match nth_error (members _ _ n) i with
  | None => []
  | Some c =>
    match l with
    | Ask _ j m => if Nat.eqb j i then noted ren (snd (client_push csh (view _ c) m)) else []
    | Deliver _ j =>
        if Nat.eqb j i then
          match inbox _ c with
          | t :: _ => match down_read i t with Message m => noted ren (snd (client_push csh (view _ c) m)) | _ => [] end
          | [] => []
          end
        else []
    | _ => []
    end
  end.
Fixpoint noted_at (n : net) (i : nat) (ls : list (label text)) : list (nat -> table) :=
  match ls with
  | [] => []
  | l :: r => noted_in n i l ++ match step n l with Some n1 => noted_at n1 i r | None => [] end
  end.
End Net.
