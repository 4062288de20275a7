(* Which values JSON documents stand for, as relations, and which values can be written. *)
From Verif Require Import Base Base64Spec JsonModel.
Open Scope N_scope.

Section Reads.
Variable integral_of : N -> option Z.
Variable double_of : Z -> N.
(* what a buffer of a given size that held some bytes holds after some text was read into it *)
Variable Buf : option nat -> bytes -> bytes -> bytes -> Prop.

(* the number a document is *)
Definition Number (j : json) (z : Z) : Prop := j = JInt z \/ exists d, j = JReal d /\ integral_of d = Some z.
Definition IntNumber (j : json) (z : Z) : Prop := Number j z /\ (-2 ^ 31 <= z < 2 ^ 31)%Z.

(* y is x up to its first NUL *)
Definition CString (x y : bytes) : Prop := ~ In 0 y /\ (x = y \/ exists r, x = y ++ 0 :: r).

(* the documents of the members of a sequence: one member stands for itself *)
Definition Wraps (j : json) (js : list json) : Prop :=
  match js with [] => True | [x] => j = x | _ => j = JArray js end.

Definition Member (n : bytes) (j x : json) : Prop :=
  (j = JNull /\ x = JNull) \/
  (exists l, j = JObject l /\ match find (fun kv => bytes_eqb n (fst kv)) l with Some kv => x = snd kv | None => x = JNull end).

Inductive Reads : shape -> json -> value -> value -> Prop :=
| R_int j z o : IntNumber j z -> Reads SInt j o (VInt z)
| R_uint j z o : Number j z -> (0 <= z < 2 ^ 32)%Z -> Reads SUInt j o (VInt z)
| R_enum j z e o : Number j z -> (0 <= z < 2 ^ 32)%Z -> (-2 ^ 31 <= e < 2 ^ 31)%Z -> (e = z \/ e = z - 2 ^ 32)%Z -> Reads SEnum j o (VInt e)
| R_real d o : Reads SDouble (JReal d) o (VDouble d)
| R_real_int z o : Reads SDouble (JInt z) o (VDouble (double_of z))
| R_string x y o : CString x y -> Reads SString (JString x) o (VString y)
| R_buffer n x y b b' : CString x y -> Buf n y b b' -> Reads (SBuffer n) (JString x) (VBuffer b) (VBuffer b')
| R_empty j o : Reads SEmpty j o o
| R_seq l j js olds vs : Members l js olds vs -> Wraps j js -> Reads (SSeq l) j (VSeq olds) (VSeq vs)
| R_map l j olds vs : Fields l j olds vs -> Reads (SMap l) j (VSeq olds) (VSeq vs)
| R_cont s js olds vs : Elements s js vs -> Reads (SCont s) (JArray js) (VCont olds) (VCont (olds ++ vs))
(* a variant that holds nothing is its type id, another one its type id and its value; an unknown type id leaves it as it is *)
| R_var_empty l j i s o : IntNumber j (Z.of_nat i) -> nth_error l i = Some s -> s = SEmpty -> Reads (SVar l) j o (VVar i (default s))
| R_var l t x i s v o : IntNumber t (Z.of_nat i) -> nth_error l i = Some s -> s <> SEmpty -> Reads s x (default s) v -> Reads (SVar l) (JArray [t; x]) o (VVar i v)
| R_var_unknown l j t z o : IntNumber t z -> (j = t \/ exists x, j = JArray [t; x]) -> (z < 0 \/ Z.of_nat (length l) <= z)%Z -> Reads (SVar l) j o o
with Members : list shape -> list json -> list value -> list value -> Prop :=
| M_nil : Members [] [] [] []
| M_empty l js olds vs o : Members l js olds vs -> Members (SEmpty :: l) js (o :: olds) (o :: vs)
| M_cons s l j js o olds v vs : s <> SEmpty -> Reads s j o v -> Members l js olds vs -> Members (s :: l) (j :: js) (o :: olds) (v :: vs)
with Fields : list (bytes * shape) -> json -> list value -> list value -> Prop :=
| F_nil j : Fields [] j [] []
| F_cons n s l j x o olds v vs : Member n j x -> Reads s x o v -> Fields l j olds vs -> Fields ((n, s) :: l) j (o :: olds) (v :: vs)
with Elements : shape -> list json -> list value -> Prop :=
| E_nil s : Elements s [] []
| E_cons s j js v vs : Reads s j (default s) v -> Elements s js vs -> Elements s (j :: js) (v :: vs).
End Reads.

(* base64 text of the right length gives its bytes *)
Definition buffer_good (n : option nat) (x old new : bytes) : Prop :=
  WellFormed x /\ IsDecoding x new /\ match n with Some k => length new = k | None => True end.
(* other text is not to be read at all *)
Definition buffer_bad (n : option nat) (x old new : bytes) : Prop :=
  match n with Some k => length new = k | None => True end /\ ~ exists good, buffer_good n x old good.

(* v is a value of the shape *)
Fixpoint has_shape (s : shape) (v : value) : Prop :=
  match s, v with
  | (SInt | SUInt | SEnum), VInt _ => True
  | SDouble, VDouble _ => True
  | SString, VString _ => True
  | SBuffer None, VBuffer _ => True
  | SBuffer (Some n), VBuffer b => length b = n
  | SEmpty, VEmpty => True
  | SSeq l, VSeq vs => (fix go l vs := match l, vs with [], [] => True | s :: l', v :: vs' => has_shape s v /\ go l' vs' | _, _ => False end) l vs
  | SMap l, VSeq vs => (fix go l vs := match l, vs with [], [] => True | ns :: l', v :: vs' => has_shape (snd ns) v /\ go l' vs' | _, _ => False end) l vs
  | SCont s, VCont vs => (fix go vs := match vs with [] => True | v :: vs' => has_shape s v /\ go vs' end) vs
  | SVar l, VVar i v => (fix go l i := match l, i with [], _ => False | s :: _, O => has_shape s v | _ :: l', S i' => go l' i' end) l i
  | _, _ => False
  end.

(* v is a value of the shape that survives: numbers fit, strings have no NUL, containers are not empty, names are distinct *)
Fixpoint writable (s : shape) (v : value) : Prop :=
  match s, v with
  | SInt, VInt z => (-2 ^ 31 <= z < 2 ^ 31)%Z
  | SUInt, VInt z => (0 <= z < 2 ^ 32)%Z
  | SEnum, VInt z => (0 <= z < 2 ^ 31)%Z
  | SDouble, VDouble _ => True
  | SString, VString x => ~ In 0 x
  | SBuffer n, VBuffer b => all_bytes b /\ 4 * N.of_nat (length b) < 2 ^ 31 /\ match n with Some k => length b = k | None => True end
  | SEmpty, VEmpty => True
  | SSeq l, VSeq vs => (fix go l vs := match l, vs with [], [] => True | s :: l', v :: vs' => writable s v /\ go l' vs' | _, _ => False end) l vs
  | SMap l, VSeq vs => NoDup (map fst l) /\ (fix go l vs := match l, vs with [], [] => True | ns :: l', v :: vs' => writable (snd ns) v /\ go l' vs' | _, _ => False end) l vs
  | SCont s, VCont vs => vs <> [] /\ (fix go vs := match vs with [] => True | v :: vs' => writable s v /\ go vs' end) vs
  | SVar l, VVar i v => (Z.of_nat (length l) <= 2 ^ 31)%Z /\ (fix go l i := match l, i with [], _ => False | s :: _, O => writable s v | _ :: l', S i' => go l' i' end) l i
  | _, _ => False
  end.

(* the strings of a document are bytes and shorter than 700 MB *)
Fixpoint doc_ok (j : json) : Prop :=
  match j with
  | JString s => all_bytes s /\ 3 * N.of_nat (length s) < 2 ^ 31
  | JArray l => (fix go l := match l with [] => True | x :: r => doc_ok x /\ go r end) l
  | JObject l => (fix go l := match l with [] => True | kx :: r => doc_ok (snd kx) /\ go r end) l
  | _ => True
  end.

(* every variant in the shape has an alternative, as nbdl::variant always has: unresolved *)
Fixpoint proper (s : shape) : Prop :=
  match s with
  | SSeq l => (fix go l := match l with [] => True | s :: r => proper s /\ go r end) l
  | SMap l => (fix go l := match l with [] => True | ns :: r => proper (snd ns) /\ go r end) l
  | SCont s => proper s
  | SVar l => l <> [] /\ (fix go l := match l with [] => True | s :: r => proper s /\ go r end) l
  | _ => True
  end.

(* the member names of an object are distinct and a variant has no more alternatives than an int can number *)
Fixpoint sensible (s : shape) : Prop :=
  match s with
  | SSeq l => (fix go l := match l with [] => True | s :: r => sensible s /\ go r end) l
  | SMap l => NoDup (map fst l) /\ (fix go l := match l with [] => True | ns :: r => sensible (snd ns) /\ go r end) l
  | SCont s => sensible s
  | SVar l => (Z.of_nat (length l) <= 2 ^ 31)%Z /\ (fix go l := match l with [] => True | s :: r => sensible s /\ go r end) l
  | _ => True
  end.

(* what is in the buffers of a value are bytes *)
Fixpoint bytes_in (v : value) : Prop :=
  match v with
  | VBuffer b => all_bytes b
  | VSeq vs | VCont vs => (fix go vs := match vs with [] => True | v :: r => bytes_in v /\ go r end) vs
  | VVar _ v => bytes_in v
  | _ => True
  end.
(* and there are fewer than 2^29 of them *)
Fixpoint short_in (v : value) : Prop :=
  match v with
  | VBuffer b => all_bytes b /\ 4 * N.of_nat (length b) < 2 ^ 31
  | VSeq vs | VCont vs => (fix go vs := match vs with [] => True | v :: r => short_in v /\ go r end) vs
  | VVar _ v => short_in v
  | _ => True
  end.
