(* Model of the binder to JavaScript values, /repo/include/nbdl/binder/js.hpp, and of what happens to such values on the way between a
   browser and a program with the JSON binder (JsonModel): JSON.stringify, JSON.parse and JsonCpp's text reader and writer.
   Types are shapes as in JsonModel; double has no bind_to_impl and no bind_from_impl and does not compile.
   Simplified: numbers with a fraction are opaque; properties that objects inherit (an object without the member "constructor"
   still has one) are left out, and so is the special property "__proto__". *)
From Coq Require Import String.
From Verif Require Import Base Base64Model RouteModel JsonModel.
Open Scope N_scope.

(* a string is a list of UTF-16 code units *)
Inductive jsv :=
| Undef | Null
| Bool (b : bool)
| Num (z : Z)
| Real (d : N)
| Str (u : list N)
| Arr (l : list jsv)
| Obj (l : list (list N * jsv)).

(* ---- text ---- *)

Definition continues (b : N) : bool := (128 <=? b) && (b <? 192).
(* a code point in UTF-16 *)
Definition utf16_char (c : N) : list N := if c <? 65536 then [c] else [55296 + (c - 65536) / 1024; 56320 + (c - 65536) mod 1024].
(* UTF-8 to UTF-16, as far as it is well-formed *)
Fixpoint utf8_decode (s : list N) : option (list N) :=
  match s with
  | [] => Some []
  | a :: r =>
      if a <? 128 then option_map (cons a) (utf8_decode r)
      else match r with
      | b :: r2 =>
          if (194 <=? a) && (a <? 224) && continues b then option_map (app (utf16_char ((a - 192) * 64 + (b - 128)))) (utf8_decode r2)
          else match r2 with
          | c :: r3 =>
              let x := (a - 224) * 4096 + (b - 128) * 64 + (c - 128) in
              if (224 <=? a) && (a <? 240) && continues b && continues c && (2048 <=? x) && negb ((55296 <=? x) && (x <? 57344))
              then option_map (app (utf16_char x)) (utf8_decode r3)
              else match r3 with
              | d :: r4 =>
                  let y := (a - 240) * 262144 + (b - 128) * 4096 + (c - 128) * 64 + (d - 128) in
                  if (240 <=? a) && continues b && continues c && continues d && (65536 <=? y) && (y <=? 1114111)
                  then option_map (app (utf16_char y)) (utf8_decode r4) else None
              | [] => None
              end
          | [] => None
          end
      | [] => None
      end
  end.

(* a code point in UTF-8 *)
Definition utf8_char (c : N) : list N :=
  if c <? 128 then [c]
  else if c <? 2048 then [192 + c / 64; 128 + c mod 64]
  else if c <? 65536 then [224 + c / 4096; 128 + c / 64 mod 64; 128 + c mod 64]
  else [240 + c / 262144; 128 + c / 4096 mod 64; 128 + c / 64 mod 64; 128 + c mod 64].
(* UTF-16 to UTF-8; half of a pair alone is written like a code point *)
Fixpoint utf8_encode (u : list N) : list N :=
  match u with
  | [] => []
  | a :: r => match r with
              | b :: r' => if (55296 <=? a) && (a <? 56320) && (56320 <=? b) && (b <? 57344)
                           then utf8_char (65536 + (a - 55296) * 1024 + (b - 56320)) ++ utf8_encode r'
                           else utf8_char a ++ utf8_encode r
              | [] => utf8_char a
              end
  end.

Section Js.
Variable lenient : list N -> list N.           (* what malformed UTF-8 becomes *)
Variable other_number : jsv -> Z.              (* the number that a string, array, object or number with a fraction is for | *)
Variable like_bytes : list (list N * jsv) -> option (list N). (* what Uint8Array.set takes from an object with a length; None: throws *)

Definition text_of (s : list N) : list N := match utf8_decode s with Some u => u | None => lenient s end.
(* js.hpp:127, 253: UTF8ToString: up to the first NUL *)
Definition utf8_to_string (s : list N) : list N := text_of (c_str s).
(* js.hpp:304: stringToAscii, without the NUL behind *)
Definition string_to_ascii (u : list N) : list N := map (fun c => c mod 256) u.

(* js.hpp:141-147: what of an integer goes through EM_ASM: 32 bits with a sign *)
Definition wrap32 (z : Z) : Z := let m := (z mod 4294967296)%Z in if (m <? 2147483648)%Z then m else (m - 4294967296)%Z.
(* js.hpp:325-330: EM_ASM_INT: the result | 0 *)
Definition to_int32 (j : jsv) : Z :=
  match j with
  | Undef | Null => 0
  | Bool b => if b then 1 else 0
  | Num z => wrap32 z
  | _ => wrap32 (other_number j)
  end.

(* ---- bind_to ---- *)
Fixpoint prop_set (k : list N) (j : jsv) (l : list (list N * jsv)) : list (list N * jsv) :=
  match l with [] => [(k, j)] | (k', j') :: r => if bytes_eqb k k' then (k, j) :: r else (k', j') :: prop_set k j r end.

(* js.hpp:166-202: none, one and more members *)
Definition to_sequence (l : list jsv) : jsv := match l with [x] => x | _ => Arr l end.
Definition to_members (w : shape -> value -> res jsv) := fix go (l : list shape) (vs : list value) : res (list jsv) :=
  match l, vs with
  | s :: l', v :: vs' => if is_empty s then go l' vs' else let! j := w s v in let! r := go l' vs' in Ok (j :: r)
  | [], [] => Ok []
  | _, _ => UB
  end.
Definition to_fields (w : shape -> value -> res jsv) := fix go (l : list (list N * shape)) (vs : list value) (acc : list (list N * jsv)) : res (list (list N * jsv)) :=
  match l, vs with
  | (n, s) :: l', v :: vs' => let! j := w s v in go l' vs' (prop_set (utf8_to_string n) j acc)
  | [], [] => Ok acc
  | _, _ => UB
  end.
Definition to_elements (w : value -> res jsv) := fix go (vs : list value) : res (list jsv) :=
  match vs with v :: vs' => let! j := w v in let! r := go vs' in Ok (j :: r) | [] => Ok [] end.

Fixpoint bind_to (s : shape) (v : value) {struct s} : res jsv :=
  match s, v with
  | (SInt | SUInt | SEnum), VInt z => Ok (Num (wrap32 z))                                       (* 136-164 *)
  | SString, VString x => Ok (Str (utf8_to_string x))                                           (* 121-134 *)
  | SBuffer _, VBuffer b => let! t := base64_encode b in Ok (Str (utf8_to_string t))            (* 227-235 *)
  | SEmpty, VEmpty => Ok (Arr [])
  | SSeq l, VSeq vs => let! js := to_members bind_to l vs in Ok (to_sequence js)                (* 166-202 *)
  | SMap l, VSeq vs => let! o := to_fields bind_to l vs [] in Ok (Obj o)                        (* 237-263 *)
  | SCont s, VCont vs => let! js := to_elements (bind_to s) vs in Ok (Arr js)                   (* 204-225 *)
  | SVar l, VVar i v =>                                                                         (* 265-276 *)
      alternative (fun s => if is_empty s then Ok (Num (wrap32 (Z.of_nat i)))
                            else let! j := bind_to s v in Ok (Arr [Num (wrap32 (Z.of_nat i)); j])) UB l i
  | _, _ => UB (* does not compile or is not a value of the shape *)
  end.

(* ---- bind_from ---- *)
Fixpoint prop (k : list N) (l : list (list N * jsv)) : jsv :=
  match l with [] => Undef | (k', j) :: r => if bytes_eqb k k' then j else prop k r end.

(* js.hpp:289-294, 399-404: v.length as an int; None: null and undefined have no properties, TypeError *)
Definition js_length (j : jsv) : option Z :=
  match j with
  | Undef | Null => None
  | Str u => Some (wrap32 (Z.of_nat (length u)))
  | Arr l => Some (wrap32 (Z.of_nat (length l)))
  | Obj l => Some (to_int32 (prop (bs "length") l))
  | _ => Some 0%Z
  end.
(* js.hpp:373-377, 414-418: v[i] *)
Definition js_index (i : nat) (j : jsv) : option jsv :=
  match j with
  | Undef | Null => None
  | Str u => Some (match nth_error u i with Some c => Str [c] | None => Undef end)
  | Arr l => Some (nth i l Undef)
  | Obj l => Some (prop (dec (N.of_nat i)) l)
  | _ => Some Undef
  end.
(* js.hpp:455-459: v[name] *)
Definition js_member (k : list N) (j : jsv) : option jsv :=
  match j with
  | Undef | Null => None
  | Str u => Some (if bytes_eqb k (bs "length") then Num (Z.of_nat (length u)) else Undef)
  | Arr l => Some (if bytes_eqb k (bs "length") then Num (Z.of_nat (length l)) else Undef)
  | Obj l => Some (prop k l)
  | _ => Some Undef
  end.

(* js.hpp:282-317; a number or a boolean has no length: the empty string *)
Definition from_string (j : jsv) : option (list N) :=
  match j with
  | Undef | Null => None
  | Str u => Some (string_to_ascii u)
  | Arr l => Some (map (fun x => Z.to_N (to_int32 x mod 256)) l)
  | Obj l => like_bytes l
  | _ => Some []
  end.

(* js.hpp:99-114 *)
Definition get_variant_type_id (j : jsv) : Z := to_int32 (match j with Arr l => nth 0 l Undef | _ => j end).

(* js.hpp:349-390: [i] counts the members that are not empty *)
Definition from_members (r : shape -> jsv -> value -> throws value) (n : nat) (j : jsv) :=
  fix go (l : list shape) (olds : list value) (i : nat) : throws (list value) :=
  match l, olds with
  | s :: l', o :: olds' =>
      if is_empty s then thenr (go l' olds' i) (fun vs => Ok (Some (o :: vs)))
      else match (if Nat.eqb n 1 then Some j else js_index i j) with
           | None => Ok None
           | Some x => thenr (r s x o) (fun v => thenr (go l' olds' (S i)) (fun vs => Ok (Some (v :: vs))))
           end
  | [], [] => Ok (Some [])
  | _, _ => UB
  end.
(* js.hpp:443-469 *)
Definition from_fields (r : shape -> jsv -> value -> throws value) (j : jsv) := fix go (l : list (list N * shape)) (olds : list value) : throws (list value) :=
  match l, olds with
  | (n, s) :: l', o :: olds' =>
      match js_member (utf8_to_string n) j with
      | None => Ok None
      | Some x => thenr (r s x o) (fun v => thenr (go l' olds') (fun vs => Ok (Some (v :: vs))))
      end
  | [], [] => Ok (Some [])
  | _, _ => UB
  end.
(* js.hpp:407-430 *)
Definition from_elements (r : jsv -> throws value) := fix go (js : list (option jsv)) : throws (list value) :=
  match js with
  | Some x :: js' => thenr (r x) (fun v => thenr (go js') (fun vs => Ok (Some (v :: vs))))
  | None :: _ => Ok None
  | [] => Ok (Some [])
  end.

(* the value after reading into [old]; None: an exception.  A container or string of a negative length is one of more than
   2^31 elements: std::length_error *)
Fixpoint bind_from (s : shape) (j : jsv) (old : value) {struct s} : throws value :=
  match s with
  | SInt | SEnum => Ok (Some (VInt (to_int32 j)))                                               (* 319-347 *)
  | SUInt => Ok (Some (VInt (to_int32 j mod 4294967296)))
  | SDouble => UB
  | SString => Ok (option_map VString (from_string j))
  | SBuffer n =>                                                                                (* 432-441 *)
      match from_string j, old with
      | Some x, VBuffer b => let! r := base64_decode2 (match n with Some _ => Fixed | None => Dynamic end) x b in Ok (Some (VBuffer (snd r)))
      | Some _, _ => UB
      | None, _ => Ok None
      end
  | SEmpty => Ok (Some old)
  | SSeq l => match old with VSeq olds => thenr (from_members bind_from (count_nonempty l) j l olds O) (fun vs => Ok (Some (VSeq vs))) | _ => UB end
  | SMap l => match old with VSeq olds => thenr (from_fields bind_from j l olds) (fun vs => Ok (Some (VSeq vs))) | _ => UB end
  | SCont s =>                                                                                  (* 392-430 *)
      match js_length j with
      | None => Ok None
      | Some n => if (n <? 0)%Z then Ok None
                  else thenr (from_elements (fun x => bind_from s x (default s)) (map (fun i => js_index i j) (seq 0 (Z.to_nat n)))) (fun vs => Ok (Some (VCont vs)))
      end
  | SVar l =>                                                                                   (* 471-486 with variant.hpp:76-85, 180-190 *)
      let id := get_variant_type_id j in
      if negb ((0 <=? id)%Z && (id <? Z.of_nat (length l))%Z) then Ok (Some old)
      else alternative (fun s =>
             if is_empty s then Ok (Some (VVar (Z.to_nat id) (default s)))
             else match js_index 1 j with
                  | None => Ok None
                  | Some x => thenr (bind_from s x (default s)) (fun v => Ok (Some (VVar (Z.to_nat id) v)))
                  end) UB l (Z.to_nat id)
  end.

(* ---- on the way: JSON.stringify and Json::Reader, Json::Writer and JSON.parse ---- *)
Fixpoint to_document (j : jsv) : json :=
  match j with
  | Undef | Null => JNull
  | Bool b => JBool b
  | Num z => JInt z
  | Real d => JReal d
  | Str u => JString (utf8_encode u)
  | Arr l => JArray (map to_document l)
  | Obj l => JObject (map (fun kj => (utf8_encode (fst kj), to_document (snd kj))) l)
  end.
Fixpoint from_document (j : json) : jsv :=
  match j with
  | JNull => Null
  | JBool b => Bool b
  | JInt z => Num z
  | JReal d => Real d
  | JString s => Str (text_of s)
  | JArray l => Arr (map from_document l)
  | JObject l => Obj (map (fun kj => (text_of (fst kj), from_document (snd kj))) l)
  end.
End Js.
