(* What C49 talks about: the w x h board is the first w*h cells, row by row. *)
From Coq Require Export Permutation.
From Verif Require Import Base TilesModel.
Open Scope N_scope.

Definition wf (g : game) : Prop :=
  0 < width g /\ 0 < height g /\ width g * height g <= 64 /\ length (board g) = 64%nat.

Definition visible (g : game) : list N := firstn (N.to_nat (width g * height g)) (board g).
Definition cell (g : game) (x y : N) : option N :=
  if (x <? width g) && (y <? height g) then nth_error (visible g) (N.to_nat (y * width g + x)) else None.
(* orthogonally adjacent *)
Definition adjacent (x y x' y' : N) : Prop :=
  (y = y' /\ (x' = x + 1 \/ x = x' + 1)) \/ (x = x' /\ (y' = y + 1 \/ y = y' + 1)).

(* g' is g with the contents of two cells exchanged *)
Definition exchanged (g g' : game) (x y x' y' : N) : Prop :=
  width g' = width g /\ height g' = height g /\
  cell g' x y = cell g x' y' /\ cell g' x' y' = cell g x y /\
  forall u v, (u, v) <> (x, y) -> (u, v) <> (x', y') -> cell g' u v = cell g u v.

(* the lower left corner *)
Definition corner (g : game) : N := width g * (height g - 1).
