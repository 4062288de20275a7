(* include/nbdl/detail/params_view.hpp: a tuple of references and stateless values that stores only the addresses.
   The list of types is compile-time; here it is data.  None: the program does not compile. *)
From Verif Require Import Base.

(* what is appended: std::reference_wrapper<T> to an object, or an object of another type T in some state *)
Inductive param := Ref (T : nat) (address : N) | Val (T : nat) (st : N).
(* the state of T{} *)
Definition fresh : N := 0%N.

(* the entries of the type list: ref_placeholder<pos, T> (35-37) or the type of a value *)
Inductive entry := Placeholder (pos : nat) (T : nat) | Type_ (T : nat).

(* params_view<storage_size, mpdef::list<Xs...>> (86-100); with storage_size 0 there is no storage member *)
Record view := mk_view { storage_size : nat; xs : list entry; storage : option (list N) }.

(* make_params_view_fn (125-131) *)
Definition make_params_view : view := mk_view 0 [] None.

(* the constructor takes a std::array<void const*, storage_size> *)
Definition construct (n : nat) (l : list entry) (a : list N) : option view :=
  if Nat.eqb (length a) n then Some (mk_view n l (Some a)) else None.

(* params_view_append_fn (139-175) *)
Definition params_view_append (x : param) (p : view) : option view :=
  if (0 <? storage_size p)%nat then
    match storage p with
    | None => None
    | Some ptr =>
        match x with
        | Ref T a => construct (storage_size p + 1) (xs p ++ [Placeholder (storage_size p) T]) (ptr ++ [a])
        | Val T _ => construct (storage_size p) (xs p ++ [Type_ T]) ptr
        end
    end
  else
    match x with
    | Ref T a => construct 1 (xs p ++ [Placeholder 0 T]) [a]
    | Val T _ => Some (mk_view (storage_size p) (xs p ++ [Type_ T]) None)
    end.

(* params_view_get_storage (102-119): the storage, or an empty list if there is none *)
Definition get_storage (p : view) : list N := match storage p with Some a => a | None => [] end.

(* offset_ref_placholder (50-57), applied in 190-196 *)
Definition offset_entry (offset : nat) (y : entry) : entry :=
  match y with Placeholder pos T => Placeholder (pos + offset) T | Type_ T => Type_ T end.

(* params_view_concat_fn (179-212) *)
Definition params_view_concat (p1 p2 : view) : option view :=
  let s_1 := storage_size p1 in
  let s_2 := storage_size p2 in
  let l := xs p1 ++ map (offset_entry s_1) (xs p2) in
  if (0 <? s_1 + s_2)%nat then construct (s_1 + s_2) l (get_storage p1 ++ get_storage p2) else Some (mk_view 0 l None).

(* params_view_hydrate_value (59-80): T{} or the reference at pos; at_c outside of the array does not compile *)
Definition hydrate (p : view) (x : entry) : option param :=
  match x with
  | Type_ T => Some (Val T fresh)
  | Placeholder pos T => match storage p with Some a => option_map (Ref T) (nth_error a pos) | None => None end
  end.

(* unpack_impl (225-234): what the function is called with *)
Fixpoint all_some {A} (l : list (option A)) : option (list A) :=
  match l with [] => Some [] | None :: _ => None | Some x :: r => option_map (cons x) (all_some r) end.
Definition unpack (p : view) : option (list param) := all_some (map (hydrate p) (xs p)).

(* programs that build views *)
Inductive expr := Empty | Append (x : param) (e : expr) | Concat (e1 e2 : expr).
Fixpoint eval (e : expr) : option view :=
  match e with
  | Empty => Some make_params_view
  | Append x e => match eval e with Some p => params_view_append x p | None => None end
  | Concat e1 e2 => match eval e1, eval e2 with Some p1, Some p2 => params_view_concat p1 p2 | _, _ => None end
  end.
