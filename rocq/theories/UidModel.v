(* Model of /repo/include/nbdl/uid.hpp: the generators of identifiers.
   std::mt19937 is modelled by the recurrence of the C++ standard ([rand.eng.mers], [rand.predef]); that the model computes
   the value which the standard requires is checked in UidProps.v.  The bytes of a word are those of a machine which stores
   the lowest first (uid.hpp:106 reads the words as bytes).
   std::random_device gives 32 bits (uid.hpp:95-96: one call seeds the engine). *)
From Verif Require Import Base.
Open Scope N_scope.

(* ---- std::mt19937 ---- *)

Definition word : N := 2 ^ 32.

(* the words of the initial state: X(i) from X(i-1), for i = 1, 2, ... *)
Fixpoint seeded (n : nat) (i x : N) : list N :=
  match n with
  | O => []
  | S n' => let y := (1812433253 * N.lxor x (N.shiftr x 30) + i mod 624) mod word in y :: seeded n' (i + 1) y
  end.
Definition engine (seed : N) : list N := let x := seed mod word in x :: seeded 623 1 x.

(* the state is the last 624 words, the oldest one first *)
Definition twist (x0 x1 x397 : N) : N :=
  let y := N.lor (N.land x0 (2 ^ 31)) (N.land x1 (2 ^ 31 - 1)) in
  N.lxor (N.lxor x397 (N.shiftr y 1)) (if N.odd y then 2567483615 else 0).
Definition next (s : list N) : list N := tl s ++ [twist (nth 0 s 0) (nth 1 s 0) (nth 397 s 0)].

Definition temper (x : N) : N :=
  let y := N.lxor x (N.shiftr x 11) in
  let y := N.lxor y (N.land (N.shiftl y 7) 2636928640) in
  let y := N.lxor y (N.land (N.shiftl y 15) 4022730752) in
  N.lxor y (N.shiftr y 18).

(* mt(): the engine moves on; the value *)
Definition draw (s : list N) : list N * N := let s' := next s in (s', temper (last s' 0)).

(* ---- uid.hpp:92-109 ---- *)

Definition bytes_of (w : N) : list N := [w mod 256; w / 256 mod 256; w / 65536 mod 256; w / 16777216 mod 256].

(* the lambda: four words (uid.hpp:100-105: braced, so in order), as bytes *)
Definition generate (s : list N) : list N * list N :=
  let (s1, a) := draw s in
  let (s2, b) := draw s1 in
  let (s3, c) := draw s2 in
  let (s4, d) := draw s3 in
  (s4, bytes_of a ++ bytes_of b ++ bytes_of c ++ bytes_of d).

Fixpoint uids (n : nat) (s : list N) : list (list N) :=
  match n with O => [] | S n' => let (s', u) := generate s in u :: uids n' s' end.

(* make_uid_generator, with what rd() gave; the first n identifiers *)
Definition made_with (seed : N) (n : nat) : list (list N) := uids n (engine seed).

(* ---- uid.hpp:79-90: in the browser ---- *)

(* Math.random() is k / 2^53 with k < 2^53; emscripten_random() returns it as a float, which has 24 bits: rounded to the nearest,
   to even if there are two.  The value of the float, as a multiple of 2^-53. *)
Definition to_float (k : N) : N :=
  let e := N.size k - 24 in                        (* 0 for fewer than 24 bits *)
  let unit := 2 ^ e in
  let q := k / unit in let r := k mod unit in
  unit * (if (2 * r <? unit) || ((2 * r =? unit) && N.even q) then q else q + 1).

(* (uint8_t) (x * 256), line 86; None: the value is too large for a uint8_t, the conversion is undefined *)
Definition byte_of (k : N) : option N := let v := to_float k * 256 / 2 ^ 53 in if v <? 256 then Some v else None.

Fixpoint bytes_from (ks : list N) : option (list N) :=
  match ks with
  | [] => Some []
  | k :: r => match byte_of k, bytes_from r with Some b, Some bs => Some (b :: bs) | _, _ => None end
  end.
(* 16 calls of emscripten_random *)
Definition generate_in_browser (ks : list N) : option (list N) := bytes_from (firstn 16 ks).
