(* Model of DOM event listeners: /repo/include/nbdl/webui/detail/dom_event_listener.hpp and event_receiver.hpp, with the
   part of the DOM they use (the listeners of an element and how an event is dispatched to them).
   Elements, event names, events and JavaScript functions are numbers.  Each listener has a JavaScript function of its own,
   made by init_event_receiver, whose number also stands for the C++ object.  The second constructor of dom_event_listener,
   which takes a ready JavaScript function, is used in dom_manips.hpp:729-733 only, with a function made just before; it has no receiver and
   calls nothing in C++, so it is left out. *)
From Verif Require Import Base.
Open Scope N_scope.

(* What a handler does, as far as its listener is concerned.  It looks at the event it was given (the parameter
   html::event_data, a reference to the js value in the receiver), or it sends a message, which changes the store and so
   can create and destroy listeners when the user interface is rendered again, and can cause further events. *)
Inductive use :=
| Look
| Send (l : list effect)
with effect :=
| Listen (el name : N) (h : N -> list use)   (* a new dom_event_listener; what its handler does with an event *)
| Drop (f : N)                               (* ~dom_event_listener *)
| Fire (el name ev : N).                     (* an event happens *)

Record listener := { l_el : N; l_name : N; l_fn : N; l_handler : N -> list use }.

Inductive note := Called (f ev : N) | Saw (f ev : N).

Record st := {
  dom : list (N * N * N);        (* what addEventListener was given: element, event name, function *)
  objects : list listener;       (* the dom_event_listener objects that are alive, in order of creation *)
  data : list (N * N);           (* event_receiver_vals::event_data of live receivers that were called *)
  next : N;                      (* the next new function *)
  trace : list note }.           (* what happened, newest first *)

Definition init : st := {| dom := []; objects := []; data := []; next := 0; trace := [] |}.

Definition entry_eqb (a b : N * N * N) : bool :=
  let '(e, n, f) := a in let '(e', n', f') := b in (e =? e') && (n =? n') && (f =? f').

(* EventTarget.addEventListener: nothing happens when the function listens already *)
Definition add_event_listener (x : N * N * N) (d : list (N * N * N)) : list (N * N * N) :=
  if existsb (entry_eqb x) d then d else d ++ [x].
(* EventTarget.removeEventListener *)
Definition remove_event_listener (x : N * N * N) (d : list (N * N * N)) : list (N * N * N) :=
  filter (fun y => negb (entry_eqb x y)) d.

(* dom_event_listener.hpp:26-47 with event_receiver.hpp:54-57, 80-115 *)
Definition listen (el name : N) (h : N -> list use) (s : st) : st :=
  {| dom := add_event_listener (el, name, next s) (dom s);
     objects := objects s ++ [{| l_el := el; l_name := name; l_fn := next s; l_handler := h |}];
     data := data s; next := next s + 1; trace := trace s |}.

Definition find_object (f : N) (s : st) : option listener := find (fun o => l_fn o =? f) (objects s).

(* dom_event_listener.hpp:62-69, then the members: the receiver with its event data is gone *)
Definition drop (f : N) (s : st) : st :=
  match find_object f s with
  | None => s
  | Some o => {| dom := remove_event_listener (l_el o, l_name o, f) (dom s);
                 objects := filter (fun o => negb (l_fn o =? f)) (objects s);
                 data := filter (fun d => negb (fst d =? f)) (data s); next := next s; trace := trace s |}
  end.

(* what is still to be done, innermost first *)
Inductive task :=
| Effects (l : list effect)
| Dispatch (el name : N) (fs : list N) (ev : N)   (* the functions that were listening when the event happened *)
| Handler (f : N) (l : list use).

(* DeadCall: the function of a destroyed receiver is called, event_receiver.hpp:119-123 with a dangling pointer.
   DeadUse: a handler uses its receiver after that was destroyed: the event data, or the store through send (62-68) *)
Inductive config := Run (s : st) (k : list task) | DeadCall | DeadUse.

Definition functions (el name : N) (d : list (N * N * N)) : list N :=
  map snd (filter (fun x => (fst (fst x) =? el) && (snd (fst x) =? name)) d).

Definition seen (f : N) (s : st) : option N := option_map snd (find (fun d => fst d =? f) (data s)).

Definition step (c : config) : option config :=
  match c with
  | DeadCall | DeadUse => None
  | Run s [] => None
  | Run s (Effects [] :: k) => Some (Run s k)
  | Run s (Effects (Listen el name h :: l) :: k) => Some (Run (listen el name h s) (Effects l :: k))
  | Run s (Effects (Drop f :: l) :: k) => Some (Run (drop f s) (Effects l :: k))
  | Run s (Effects (Fire el name ev :: l) :: k) => Some (Run s (Dispatch el name (functions el name (dom s)) ev :: Effects l :: k))
  | Run s (Dispatch _ _ [] _ :: k) => Some (Run s k)
  | Run s (Dispatch el name (f :: fs) ev :: k) =>
      (* the DOM skips a listener that was removed since *)
      if existsb (entry_eqb (el, name, f)) (dom s) then
        match find_object f s with
        | None => Some DeadCall
        | Some o =>
            (* event_receiver.hpp:87-99: the event is stored, then receive_event (59-75) runs the handler *)
            Some (Run {| dom := dom s; objects := objects s; data := (f, ev) :: filter (fun d => negb (fst d =? f)) (data s);
                         next := next s; trace := Called f ev :: trace s |}
                      (Handler f (l_handler o ev) :: Dispatch el name fs ev :: k))
        end
      else Some (Run s (Dispatch el name fs ev :: k))
  | Run s (Handler _ [] :: k) => Some (Run s k)
  | Run s (Handler f (Look :: l) :: k) =>
      match seen f s with
      | None => Some DeadUse
      | Some e => Some (Run {| dom := dom s; objects := objects s; data := data s; next := next s; trace := Saw f e :: trace s |} (Handler f l :: k))
      end
  | Run s (Handler f (Send l :: r) :: k) =>
      match find_object f s with
      | None => Some DeadUse
      | Some _ => Some (Run s (Effects l :: Handler f r :: k))
      end
  end.

Inductive reaches : config -> config -> Prop :=
| reach_refl c : reaches c c
| reach_step c c1 c2 : step c = Some c1 -> reaches c1 c2 -> reaches c c2.
