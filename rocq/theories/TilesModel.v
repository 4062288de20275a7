(* Model of /repo/example/tiles/game.hpp. *)
From Verif Require Import Base.
Open Scope N_scope.

(* game.hpp:68-73.  width and height are ints; only non-negative values are modelled.  The board is the fixed array of 64 bytes. *)
Record game := { width : N; height : N; board : list N }.

Definition to_index (x : N) : N := x mod 256.      (* Index is unsigned char (game.hpp:75-80) *)

(* std::array::operator[]: out of range is undefined *)
Definition at_ (b : list N) (i : N) : res N :=
  match nth_error b (N.to_nat i) with Some x => Ok x | None => UB end.
Fixpoint set_nth (i : nat) (x : N) (b : list N) : list N :=
  match b, i with
  | [], _ => []
  | _ :: r, O => x :: r
  | y :: r, S j => y :: set_nth j x r
  end.

(* game.hpp:26-47  get_tile_swap_index; the conditions are evaluated in order, && short-circuits.
   [i - 1] is only evaluated when i is not 0. *)
Definition cond (c : bool) (r : res N) : res bool :=
  if c then (let! x := r in Ok (x =? 0)) else Ok false.

Definition get_tile_swap_index (g : game) (i : N) : res N :=
  let w := width g in let h := height g in let b := board g in
  if w =? 0 then UB else                                 (* i % 0 *)
  let! c0 := cond true (at_ b i) in
  if c0 then Ok i else                                   (* 31 *)
  let! c1 := cond (negb (i mod w =? 0)) (at_ b (i - 1)) in
  if c1 then Ok (to_index (i - 1)) else                  (* 33-34 *)
  let! c2 := cond (negb (i mod w =? w - 1)) (at_ b (i + 1)) in
  if c2 then Ok (to_index (i + 1)) else                  (* 36-37 *)
  let! c3 := cond (w <=? i) (at_ b (i - w)) in
  if c3 then Ok (to_index (i - w)) else                  (* 39-40 *)
  let! c4 := cond (i + w <=? h * w) (at_ b (i + w)) in   (* 42: i <= height * width - width, in ints *)
  if c4 then Ok (to_index (i + w)) else
  Ok i.

(* std::swap of two cells *)
Definition swap (b : list N) (i j : N) : res (list N) :=
  let! x := at_ b i in let! y := at_ b j in
  Ok (set_nth (N.to_nat j) x (set_nth (N.to_nat i) y b)).

(* game.hpp:49-65  apply_game_move; the move's index is an unsigned char *)
Definition apply_game_move (g : game) (i : N) : res (game * bool) :=
  if width g * height g <=? i then Ok (g, false) else
  let! i2 := get_tile_swap_index g i in
  if i2 =? i then Ok (g, false) else
  let! b := swap (board g) i i2 in
  Ok ({| width := width g; height := height g; board := b |}, true).

(* game.hpp:92-100  the initial game *)
Definition initial_game : game :=
  {| width := 3; height := 3; board := [3;4;6; 8;0;1; 2;5;7] ++ repeat 0 55 |}.

(* game.hpp:201-223  the store applies the moves of downstream create messages, in order; [run] is the game after
   a history of moves *)
Fixpoint run (g : game) (ms : list N) : res game :=
  match ms with
  | [] => Ok g
  | m :: r => let! gb := apply_game_move g m in run (fst gb) r
  end.
