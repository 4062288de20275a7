(* Model of string concatenation: /repo/include/nbdl/detail/string_concat.hpp, /repo/include/nbdl/detail/string_concat_view.hpp
   and /repo/include/mpdef/string.hpp.  A string is the list of its characters; an iterator is a position in a string.
   Dereferencing an iterator at or after the end and moving one past the end are undefined behaviour, as in std::string.
   That the views outlive the characters they refer to is the caller's business and not modelled. *)
From Verif Require Import Base.
Open Scope N_scope.

(* string_concat_view, string_concat_view.hpp:63-173: a string_view or an array of views *)
Inductive view := Str (s : bytes) | Arr (l : list view).

Definition size_t (n : N) : N := n mod 2 ^ 64.

(* write one character through an iterator *)
Definition put (i : N) (c : N) (m : bytes) : res bytes :=
  if i <? N.of_nat (length m) then Ok (firstn (N.to_nat i) m ++ c :: skipn (S (N.to_nat i)) m) else UB.
(* read one *)
Definition get (i : N) (m : bytes) : res N := match nth_error m (N.to_nat i) with Some c => Ok c | None => UB end.
(* current += n *)
Definition advance (i n : N) (m : bytes) : res N := if i + n <=? N.of_nat (length m) then Ok (i + n) else UB.

(* std::copy *)
Fixpoint std_copy (s : bytes) (i : N) (m : bytes) : res bytes :=
  match s with [] => Ok m | c :: s' => let! m' := put i c m in std_copy s' (i + 1) m' end.
(* std::equal with three iterators *)
Fixpoint std_equal (s : bytes) (i : N) (m : bytes) : res bool :=
  match s with [] => Ok true | c :: s' => let! c' := get i m in if c =? c' then std_equal s' (i + 1) m else Ok false end.

(* the fold (x.length() + ... + 0), string_concat_view.hpp:163-169 *)
Definition sum_lengths (len : view -> N) := fix go (l : list view) : N := match l with [] => 0 | v :: r => size_t (len v + go r) end.
(* string_concat_view.hpp:80-83, 119-122 *)
Fixpoint vlength (v : view) : N := match v with Str s => N.of_nat (length s) | Arr l => sum_lengths vlength l end.

(* string_concat_view.hpp:137-145 *)
Definition copy_all (cp : view -> N -> bytes -> res bytes) := fix go (l : list view) (i : N) (m : bytes) : res bytes :=
  match l with [] => Ok m | v :: r => let! m' := cp v i m in let! i' := advance i (vlength v) m' in go r i' m' end.
(* string_concat_view.hpp:70-73 *)
Fixpoint copy (v : view) (i : N) (m : bytes) {struct v} : res bytes :=
  match v with Str s => std_copy s i m | Arr l => copy_all copy l i m end.

(* string_concat_view.hpp:147-161: the position is moved after a view that differs, too *)
Definition equal_all (eq : view -> N -> bytes -> res bool) := fix go (l : list view) (i : N) (m : bytes) (result : bool) : res bool :=
  match l with
  | [] => Ok result
  | v :: r => if result then let! b := eq v i m in let! i' := advance i (vlength v) m in go r i' m b else go r i m result
  end.
(* string_concat_view.hpp:75-78 *)
Fixpoint equal (v : view) (i : N) (m : bytes) {struct v} : res bool :=
  match v with Str s => std_equal s i m | Arr l => equal_all equal l i m true end.

(* string_concat_view.hpp:102-107 *)
Definition to_string (v : view) : res bytes := copy v 0 (repeat 0 (N.to_nat (vlength v))).

(* make_string_concat_view, string_concat_view.hpp:215-228, on arguments already turned into views *)
Definition make_string_concat_view (l : list view) : view := match l with [x] => x | _ => Arr l end.
(* string_concat_view{}, string_concat_view.hpp:93-95 *)
Definition empty_view : view := Str [].

(* to_string_view, string_concat.hpp:30-48, and to_string_concat_view, string_concat_view.hpp:177-211: std::string, String and
   hana::string come with their length, other strings end at a NUL *)
Inductive source := Sized (s : bytes) | CharPtr (s : bytes).
Fixpoint c_chars (s : bytes) : bytes := match s with [] => [] | c :: r => if c =? 0 then [] else c :: c_chars r end.
Definition chars (x : source) : bytes := match x with Sized s => s | CharPtr s => c_chars s end.

(* string_concat, string_concat.hpp:52-82 *)
Fixpoint total (l : list bytes) : N := match l with [] => 0 | s :: r => size_t (N.of_nat (length s) + total r) end.
Fixpoint concat_into (l : list bytes) (i : N) (m : bytes) : res bytes :=
  match l with [] => Ok m | s :: r => let! m' := std_copy s i m in let! i' := advance i (N.of_nat (length s)) m' in concat_into r i' m' end.
Definition string_concat (l : list source) : res bytes :=
  let views := map chars l in concat_into views 0 (repeat 0 (N.to_nat (total views))).

(* hana::intersperse *)
Fixpoint intersperse (d : bytes) (l : list bytes) : list bytes :=
  match l with [] => [] | [x] => [x] | x :: r => x :: d :: intersperse d r end.
(* mpdef::string_join, mpdef/string.hpp:31-47: fold_left without a state, of at least one string *)
Definition string_join (d : bytes) (s1 : bytes) (sN : list bytes) : bytes :=
  match intersperse d (s1 :: sN) with [] => [] | x :: r => fold_left (fun a b => a ++ b) r x end.
