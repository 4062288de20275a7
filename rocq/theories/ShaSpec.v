(* SHA-1 as FIPS 180-4 defines it (sections 4.1.1, 4.2.1, 5.1.1, 5.3.1, 6.1.2), for messages that are bytes. *)
From Verif Require Import Base.
Open Scope N_scope.

Definition add32 (x y : N) : N := (x + y) mod 2 ^ 32.
Definition rotl (n x : N) : N := N.lor (N.shiftl x n mod 2 ^ 32) (N.shiftr x (32 - n)).

(* 4.1.1; ldiff z x is (not x) and z *)
Definition ch (x y z : N) : N := N.lxor (N.land x y) (N.ldiff z x).
Definition parity (x y z : N) : N := N.lxor (N.lxor x y) z.
Definition maj (x y z : N) : N := N.lxor (N.lxor (N.land x y) (N.land x z)) (N.land y z).
Definition f (t : nat) (x y z : N) : N :=
  if Nat.ltb t 20 then ch x y z else if Nat.ltb t 40 then parity x y z else if Nat.ltb t 60 then maj x y z else parity x y z.
(* 4.2.1 *)
Definition K (t : nat) : N :=
  if Nat.ltb t 20 then 0x5a827999 else if Nat.ltb t 40 then 0x6ed9eba1 else if Nat.ltb t 60 then 0x8f1bbcdc else 0xca62c1d6.

(* 5.1.1: one bit, the fewest zero bits, and the length in bits as 64 bits *)
Definition be64 (x : N) : list N := map (fun k => N.land (N.shiftr x (8 * k)) 255) [7; 6; 5; 4; 3; 2; 1; 0].
Definition pad (m : list N) : list N :=
  let len := N.of_nat (length m) in m ++ [128] ++ repeat 0 (N.to_nat ((119 - len mod 64) mod 64)) ++ be64 (8 * len).

(* 5.2.1 and the words of a block *)
Fixpoint words (p : list N) : list N :=
  match p with a :: b :: c :: d :: r => (((a * 256 + b) * 256 + c) * 256 + d) :: words r | _ => [] end.
Fixpoint blocks_of (n : nat) (m : list N) : list (list N) :=
  match n with O => [] | S n => words (firstn 64 m) :: blocks_of n (skipn 64 m) end.

(* 6.1.2, step 1: the message schedule, one word after another *)
Fixpoint extend (n : nat) (W : list N) : list N :=
  match n with
  | O => W
  | S n => let t := length W in
           extend n (W ++ [rotl 1 (N.lxor (N.lxor (N.lxor (nth (t - 3) W 0) (nth (t - 8) W 0)) (nth (t - 14) W 0)) (nth (t - 16) W 0))])
  end.
Definition schedule (M : list N) : list N := extend 64 M.

Record hash := mk_hash { ha : N; hb : N; hc : N; hd : N; he : N }.
(* 6.1.2, step 3 *)
Definition step (W : list N) (s : hash) (t : nat) : hash :=
  let T := (rotl 5 (ha s) + f t (hb s) (hc s) (hd s) + he s + K t + nth t W 0) mod 2 ^ 32 in
  mk_hash T (ha s) (rotl 30 (hb s)) (hc s) (hd s).
(* 6.1.2, steps 2 and 4 *)
Definition compress (H : hash) (M : list N) : hash :=
  let s := fold_left (step (schedule M)) (seq 0 80) H in
  mk_hash (add32 (ha s) (ha H)) (add32 (hb s) (hb H)) (add32 (hc s) (hc H)) (add32 (hd s) (hd H)) (add32 (he s) (he H)).

(* 5.3.1 *)
Definition H0 : hash := mk_hash 0x67452301 0xefcdab89 0x98badcfe 0x10325476 0xc3d2e1f0.
Definition be32 (x : N) : list N := map (fun k => N.land (N.shiftr x (8 * k)) 255) [3; 2; 1; 0].
Definition sha1 (m : list N) : list N :=
  let p := pad m in
  let H := fold_left compress (blocks_of (length p / 64) p) H0 in
  be32 (ha H) ++ be32 (hb H) ++ be32 (hc H) ++ be32 (hd H) ++ be32 (he H).
