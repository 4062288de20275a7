(* Which JavaScript values stand for which values of C++ types. *)
From Verif Require Import Base Base64Spec JsonModel JsbModel.
Open Scope N_scope.

(* text without NUL and with nothing beyond ASCII *)
Definition ascii (s : list N) : Prop := Forall (fun c => 0 < c < 128) s.

(* one member stands for itself *)
Definition Wrapped (j : jsv) (js : list jsv) : Prop :=
  match js with [] => True | [x] => j = x | _ => j = Arr js end.

Inductive Doc : shape -> value -> jsv -> Prop :=
| D_int z : (-2 ^ 31 <= z < 2 ^ 31)%Z -> Doc SInt (VInt z) (Num z)
| D_enum z : (-2 ^ 31 <= z < 2 ^ 31)%Z -> Doc SEnum (VInt z) (Num z)
(* an unsigned number may be written as the int with the same bits *)
| D_uint z y : (0 <= z < 2 ^ 32)%Z -> (y = z \/ y = z - 2 ^ 32)%Z -> Doc SUInt (VInt z) (Num y)
(* of every unit of a text the low byte is taken; ASCII stands for itself *)
| D_string u : Doc SString (VString (map (fun c => c mod 256) u)) (Str u)
| D_buffer n b x : all_bytes b -> 4 * N.of_nat (length b) < 2 ^ 31 -> match n with Some k => length b = k | None => True end ->
    IsEncoding b x -> Doc (SBuffer n) (VBuffer b) (Str x)
| D_empty j : Doc SEmpty VEmpty j
| D_seq l vs js j : DMembers l vs js -> Wrapped j js -> Doc (SSeq l) (VSeq vs) j
| D_map l vs o j : DFields l vs o -> (l <> [] -> j = Obj o) -> Doc (SMap l) (VSeq vs) j
| D_cont s vs js : N.of_nat (length js) < 2 ^ 31 -> DElements s vs js -> Doc (SCont s) (VCont vs) (Arr js)
| D_var_empty l i : N.of_nat i < 2 ^ 31 -> nth_error l i = Some SEmpty -> Doc (SVar l) (VVar i VEmpty) (Num (Z.of_nat i))
| D_var l i s v j : N.of_nat i < 2 ^ 31 -> nth_error l i = Some s -> s <> SEmpty -> Doc s v j -> Doc (SVar l) (VVar i v) (Arr [Num (Z.of_nat i); j])
with DMembers : list shape -> list value -> list jsv -> Prop :=
| DM_nil : DMembers [] [] []
| DM_empty l vs js : DMembers l vs js -> DMembers (SEmpty :: l) (VEmpty :: vs) js
| DM_cons s l v vs j js : s <> SEmpty -> Doc s v j -> DMembers l vs js -> DMembers (s :: l) (v :: vs) (j :: js)
with DFields : list (list N * shape) -> list value -> list (list N * jsv) -> Prop :=
| DF_nil o : DFields [] [] o
| DF_cons n s l v vs j o : ascii n -> find (fun kv => bytes_eqb n (fst kv)) o = Some (n, j) -> Doc s v j -> DFields l vs o -> DFields ((n, s) :: l) (v :: vs) o
with DElements : shape -> list value -> list jsv -> Prop :=
| DE_nil s : DElements s [] []
| DE_cons s v vs j js : Doc s v j -> DElements s vs js -> DElements s (v :: vs) (j :: js).

(* values that can be written as JavaScript values: strings are texts; member names are distinct and ASCII *)
Fixpoint js_writable_as (text : list N -> Prop) (s : shape) (v : value) : Prop :=
  match s, v with
  | (SInt | SEnum), VInt z => (-2 ^ 31 <= z < 2 ^ 31)%Z
  | SUInt, VInt z => (0 <= z < 2 ^ 32)%Z
  | SString, VString x => text x
  | SBuffer n, VBuffer b => all_bytes b /\ 4 * N.of_nat (length b) < 2 ^ 31 /\ match n with Some k => length b = k | None => True end
  | SEmpty, VEmpty => True
  | SSeq l, VSeq vs => (fix go l vs := match l, vs with [], [] => True | s :: l', v :: vs' => js_writable_as text s v /\ go l' vs' | _, _ => False end) l vs
  | SMap l, VSeq vs => NoDup (map fst l) /\ Forall ascii (map fst l) /\
      (fix go l vs := match l, vs with [], [] => True | ns :: l', v :: vs' => js_writable_as text (snd ns) v /\ go l' vs' | _, _ => False end) l vs
  | SCont s, VCont vs => N.of_nat (length vs) < 2 ^ 31 /\ (fix go vs := match vs with [] => True | v :: vs' => js_writable_as text s v /\ go vs' end) vs
  | SVar l, VVar i v => N.of_nat (length l) <= 2 ^ 31 /\ (fix go l i := match l, i with [], _ => False | s :: _, O => js_writable_as text s v | _ :: l', S i' => go l' i' end) l i
  | _, _ => False
  end.

(* strings are ASCII *)
Definition js_writable : shape -> value -> Prop := js_writable_as ascii.

(* those that the JSON binder reads when a browser has written them: no unsigned number of 2^31 and more, no negative enumerator *)
Fixpoint small (s : shape) (v : value) : Prop :=
  match s, v with
  | SUInt, VInt z => (z < 2 ^ 31)%Z
  | SEnum, VInt z => (0 <= z)%Z
  | SSeq l, VSeq vs => (fix go l vs := match l, vs with s :: l', v :: vs' => small s v /\ go l' vs' | _, _ => True end) l vs
  | SMap l, VSeq vs => (fix go l vs := match l, vs with ns :: l', v :: vs' => small (snd ns) v /\ go l' vs' | _, _ => True end) l vs
  | SCont s, VCont vs => (fix go vs := match vs with [] => True | v :: vs' => small s v /\ go vs' end) vs
  | SVar l, VVar i v => (fix go l i := match l, i with [], _ => True | s :: _, O => small s v | _ :: l', S i' => go l' i' end) l i
  | _, _ => True
  end.

(* those that a browser reads when the JSON binder has written them: no empty container *)
Fixpoint filled (s : shape) (v : value) : Prop :=
  match s, v with
  | SSeq l, VSeq vs => (fix go l vs := match l, vs with s :: l', v :: vs' => filled s v /\ go l' vs' | _, _ => True end) l vs
  | SMap l, VSeq vs => (fix go l vs := match l, vs with ns :: l', v :: vs' => filled (snd ns) v /\ go l' vs' | _, _ => True end) l vs
  | SCont s, VCont vs => vs <> [] /\ (fix go vs := match vs with [] => True | v :: vs' => filled s v /\ go vs' end) vs
  | SVar l, VVar i v => (fix go l i := match l, i with [], _ => True | s :: _, O => filled s v | _ :: l', S i' => go l' i' end) l i
  | _, _ => True
  end.

(* code points that are characters, and not NUL; their texts *)
Definition scalar (c : N) : Prop := 0 < c < 1114112 /\ ~ (55296 <= c < 57344).
Definition utf8 (l : list N) : list N := flat_map utf8_char l.
Definition utf16 (l : list N) : list N := flat_map utf16_char l.
(* the same as in the standards: from the bits of the bytes, and of the units *)
Inductive Utf8 : list N -> list N -> Prop :=
| U8_nil : Utf8 [] []
| U8_1 c l x : c < 128 -> Utf8 l x -> Utf8 (c :: l) (c :: x)
| U8_2 a b l x : a < 32 -> b < 64 -> 128 <= a * 64 + b -> Utf8 l x -> Utf8 (a * 64 + b :: l) (192 + a :: 128 + b :: x)
| U8_3 a b c l x : a < 16 -> b < 64 -> c < 64 -> 2048 <= (a * 64 + b) * 64 + c -> Utf8 l x -> Utf8 ((a * 64 + b) * 64 + c :: l) (224 + a :: 128 + b :: 128 + c :: x)
| U8_4 a b c d l x : a < 8 -> b < 64 -> c < 64 -> d < 64 -> 65536 <= ((a * 64 + b) * 64 + c) * 64 + d -> Utf8 l x ->
    Utf8 (((a * 64 + b) * 64 + c) * 64 + d :: l) (240 + a :: 128 + b :: 128 + c :: 128 + d :: x).
Inductive Utf16 : list N -> list N -> Prop :=
| U16_nil : Utf16 [] []
| U16_1 c l u : c < 65536 -> Utf16 l u -> Utf16 (c :: l) (c :: u)
| U16_2 a b l u : a < 1024 -> b < 1024 -> Utf16 l u -> Utf16 (65536 + a * 1024 + b :: l) (55296 + a :: 56320 + b :: u).
Definition well_formed (x : list N) : Prop := exists l, Forall scalar l /\ Utf8 l x.

(* what a program in a browser has for a value: of the text the low bytes of its units in UTF-16 *)
Inductive Seen : value -> value -> Prop :=
| Seen_int z : Seen (VInt z) (VInt z)
| Seen_double d : Seen (VDouble d) (VDouble d)
| Seen_string l x u : Forall scalar l -> Utf8 l x -> Utf16 l u -> Seen (VString x) (VString (map (fun c => c mod 256) u))
| Seen_buffer b : Seen (VBuffer b) (VBuffer b)
| Seen_empty : Seen VEmpty VEmpty
| Seen_seq l l' : Forall2 Seen l l' -> Seen (VSeq l) (VSeq l')
| Seen_cont l l' : Forall2 Seen l l' -> Seen (VCont l) (VCont l')
| Seen_var i v v' : Seen v v' -> Seen (VVar i v) (VVar i v').

(* the text of a JavaScript value fits *)
Fixpoint js_doc_ok (j : jsv) : Prop :=
  match j with
  | Str u => 3 * N.of_nat (length u) < 2 ^ 31
  | Arr l => 3 * N.of_nat (length l) < 2 ^ 31 /\ (fix go l := match l with [] => True | x :: r => js_doc_ok x /\ go r end) l
  | Obj l => (fix go l := match l with [] => True | kx :: r => js_doc_ok (snd kx) /\ go r end) l
  | _ => True
  end.

(* the shapes the binder has code for *)
Fixpoint bindable (s : shape) : Prop :=
  match s with
  | SDouble => False
  | SSeq l => (fix go l := match l with [] => True | s :: r => bindable s /\ go r end) l
  | SMap l => (fix go l := match l with [] => True | ns :: r => bindable (snd ns) /\ go r end) l
  | SCont s => bindable s
  | SVar l => l <> [] /\ (fix go l := match l with [] => True | s :: r => bindable s /\ go r end) l
  | _ => True
  end.
