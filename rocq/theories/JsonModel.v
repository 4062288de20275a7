(* Model of the JSON binder, /repo/include/nbdl/binder/jsoncpp.hpp, on documents (Json::Value); turning documents into text
   and back is JsonCpp's.  A type is modelled by its shape.  Json::Value is modelled as JsonCpp 1.9 documents it: isIntegral is
   also true of reals without a fraction, asInt and asUInt throw when the number does not fit. *)
From Verif Require Import Base Base64Model.
Open Scope N_scope.

Inductive json :=
| JNull
| JBool (b : bool)
| JInt (z : Z)                       (* intValue and uintValue *)
| JReal (d : N)                      (* a double, by its bits *)
| JString (s : bytes)
| JArray (l : list json)
| JObject (l : list (bytes * json)).

(* the types the binder can read and write.  bool, char and the integers that are neither int nor unsigned do not compile
   when reading: bind_member sends them to bind_unsigned and bind_signed, which take unsigned& and int& (jsoncpp.hpp:91-96) *)
Inductive shape :=
| SInt | SUInt | SEnum | SDouble | SString
| SBuffer (n : option nat)           (* ContiguousByteContainer: std::vector<unsigned char>, or n bytes as in nbdl::uid *)
| SEmpty                             (* an empty type *)
| SSeq (l : list shape)              (* BindableSequence *)
| SMap (l : list (bytes * shape))    (* BindableMap: named members *)
| SCont (s : shape)                  (* Container *)
| SVar (l : list shape).             (* nbdl::variant, all its alternatives in order *)

Inductive value :=
| VInt (z : Z) | VDouble (d : N) | VString (s : bytes) | VBuffer (b : bytes) | VEmpty
| VSeq (l : list value)
| VCont (l : list value)
| VVar (type_id : nat) (v : value).

Definition is_empty (s : shape) : bool := match s with SEmpty => true | _ => false end.

(* T{} *)
Fixpoint default (s : shape) : value :=
  match s with
  | SInt | SUInt | SEnum => VInt 0
  | SDouble => VDouble 0
  | SString => VString []
  | SBuffer n => VBuffer (match n with Some n => repeat 0 n | None => [] end)
  | SEmpty => VEmpty
  | SSeq l => VSeq (map default l)
  | SMap l => VSeq (map (fun ns => default (snd ns)) l)
  | SCont _ => VCont []
  | SVar l => VVar 0 (match l with [] => VEmpty | s :: _ => default s end)
  end.

(* ---- writer ---- *)

(* the value a std::string writes; base64_encode overflows for buffers of half a gigabyte *)
Definition encode_or (b : bytes) : res json := let! s := base64_encode b in Ok (JString s).

(* json_val[name] in the writer *)
Fixpoint obj_set (k : bytes) (j : json) (l : list (bytes * json)) : list (bytes * json) :=
  match l with [] => [(k, j)] | (k', j') :: r => if bytes_eqb k k' then (k, j) :: r else (k', j') :: obj_set k j r end.

(* writer::bind_sequence with no, one and more elements, jsoncpp.hpp:236-258 *)
Definition bind_sequence_write (l : list json) : json :=
  match l with [] => JNull | [x] => x | _ => JArray l end.

(* the members of a sequence that are not empty (filter_empties.hpp:31-46), in order *)
Definition write_seq (w : shape -> value -> res json) := fix go (l : list shape) (vs : list value) : res (list json) :=
  match l, vs with
  | s :: l', v :: vs' => if is_empty s then go l' vs' else let! j := w s v in let! r := go l' vs' in Ok (j :: r)
  | [], [] => Ok []
  | _, _ => UB
  end.
(* bind_named_member, jsoncpp.hpp:230-234 *)
Definition write_map (w : shape -> value -> res json) := fix go (l : list (bytes * shape)) (vs : list value) (acc : list (bytes * json)) : res (list (bytes * json)) :=
  match l, vs with
  | (n, s) :: l', v :: vs' => let! j := w s v in go l' vs' (obj_set n j acc)
  | [], [] => Ok acc
  | _, _ => UB
  end.
(* bind_container, jsoncpp.hpp:213-222 *)
Definition write_cont (w : value -> res json) := fix go (vs : list value) : res (list json) :=
  match vs with v :: vs' => let! j := w v in let! r := go vs' in Ok (j :: r) | [] => Ok [] end.
(* what belongs to the n-th alternative *)
Definition alternative {R} (f : shape -> R) (none : R) := fix go (l : list shape) (n : nat) : R :=
  match l, n with s :: _, O => f s | _ :: l', S n' => go l' n' | [], _ => none end.

(* bind_jsoncpp_fn with a writer, jsoncpp.hpp:189-329 *)
Fixpoint write (s : shape) (v : value) {struct s} : res json :=
  match s, v with
  | (SInt | SUInt | SEnum), VInt z => Ok (JInt z)                               (* 200-204 *)
  | SDouble, VDouble d => Ok (JReal d)
  | SString, VString x => Ok (JString x)                                        (* 224-228 *)
  | SBuffer _, VBuffer b => encode_or b                                         (* 206-211 *)
  | SEmpty, VEmpty => Ok JNull                                                  (* an empty sequence *)
  | SSeq l, VSeq vs => let! js := write_seq write l vs in Ok (bind_sequence_write js)               (* 300-308 *)
  | SMap l, VSeq vs => let! o := write_map write l vs [] in Ok (match o with [] => JNull | _ => JObject o end) (* 264-276 *)
  | SCont s, VCont vs => let! js := write_cont (write s) vs in Ok (match js with [] => JNull | _ => JArray js end)
  | SVar l, VVar i v =>                                                         (* 278-298 with variant.hpp:192-199 *)
      alternative (fun s => if is_empty s then Ok (JInt (Z.of_nat i)) else let! j := write s v in Ok (JArray [JInt (Z.of_nat i); j])) UB l i
  | _, _ => UB (* not a value of the shape *)
  end.

(* ---- reader ---- *)

(* an exception is None *)
Notation throws A := (res (option A)).

Section Reader.
Variable integral_of : N -> option Z.  (* the integer a double is, if it has no fraction and fits 64 bits *)
Variable double_of : Z -> N.           (* conversion of an integer to double *)

(* Json::Value::isIntegral *)
Definition integral (j : json) : option Z :=
  match j with JInt z => Some z | JReal d => integral_of d | _ => None end.

(* isIntegral then asInt / asUInt *)
Definition as_int (j : json) : option Z :=
  match integral j with Some z => if ((-2147483648 <=? z) && (z <=? 2147483647))%Z then Some z else None | None => None end.
Definition as_uint (j : json) : option Z :=
  match integral j with Some z => if ((0 <=? z) && (z <=? 4294967295))%Z then Some z else None | None => None end.

(* conversion of an unsigned to an enum whose underlying type is int *)
Definition to_enum (z : Z) : Z := if (z <=? 2147483647)%Z then z else (z - 4294967296)%Z.

(* String{json_val.asCString()}, jsoncpp.hpp:129-135: up to the first NUL *)
Fixpoint c_str (s : bytes) : bytes := match s with [] => [] | c :: r => if c =? 0 then [] else c :: c_str r end.

(* json_val[name] of a const Json::Value: null when there is no such member, throws when it is no object *)
Fixpoint lookup (k : bytes) (l : list (bytes * json)) : json :=
  match l with [] => JNull | (k', j) :: r => if bytes_eqb k k' then j else lookup k r end.
Definition member (k : bytes) (j : json) : option json :=
  match j with JNull => Some JNull | JObject l => Some (lookup k l) | _ => None end.

(* get_variant_type_id, jsoncpp.hpp:173-186 *)
Definition variant_id (j : json) : option Z :=
  match integral j with
  | Some _ => as_int j
  | None => match j with JArray [a; _] => match integral a with Some _ => as_int a | None => None end | _ => None end
  end.

Definition thenr {A B} (r : throws A) (f : A -> throws B) : throws B :=
  match r with Ok (Some a) => f a | Ok None => Ok None | UB => UB end.

(* *iter++ *)
Definition element (l : list json) (i : nat) : res json := match nth_error l i with Some j => Ok j | None => UB end.

Definition count_nonempty (l : list shape) : nat := length (filter (fun s => negb (is_empty s)) l).

(* bind_sequence, jsoncpp.hpp:149-171.  [j] is read for the only member, the elements of [js] for several *)
Definition read_seq (r : shape -> json -> value -> throws value) (n : nat) (j : json) (js : list json) :=
  fix go (l : list shape) (olds : list value) (i : nat) : throws (list value) :=
  match l, olds with
  | s :: l', o :: olds' =>
      if is_empty s then thenr (go l' olds' i) (fun vs => Ok (Some (o :: vs)))
      else let! x := (if Nat.eqb n 1 then Ok j else element js i) in
           thenr (r s x o) (fun v => thenr (go l' olds' (S i)) (fun vs => Ok (Some (v :: vs))))
  | [], [] => Ok (Some [])
  | _, _ => UB
  end.
(* bind_named_member, jsoncpp.hpp:137-141 *)
Definition read_map (r : shape -> json -> value -> throws value) (j : json) := fix go (l : list (bytes * shape)) (olds : list value) : throws (list value) :=
  match l, olds with
  | (n, s) :: l', o :: olds' =>
      match member n j with
      | None => Ok None
      | Some x => thenr (r s x o) (fun v => thenr (go l' olds') (fun vs => Ok (Some (v :: vs))))
      end
  | [], [] => Ok (Some [])
  | _, _ => UB
  end.
(* bind_container, jsoncpp.hpp:105-119 *)
Definition read_cont (r : json -> throws value) := fix go (js : list json) : throws (list value) :=
  match js with
  | x :: js' => thenr (r x) (fun v => thenr (go js') (fun vs => Ok (Some (v :: vs))))
  | [] => Ok (Some [])
  end.

(* jsoncpp.hpp:159: what the elements are read from *)
Definition elements (n : nat) (j : json) : option (list json) :=
  match n with
  | O | 1%nat => Some []
  | _ => match j with JArray js => if Nat.eqb (length js) n then Some js else None | _ => None end
  end.

(* bind_jsoncpp_fn with a reader, jsoncpp.hpp:32-187, 262-329: the value after reading into [old].  Members that were read
   before an exception keep what was read; the model says nothing of the value then. *)
Fixpoint read (s : shape) (j : json) (old : value) {struct s} : throws value :=
  match s with
  | SInt => Ok (option_map VInt (as_int j))                                     (* 58-63 *)
  | SUInt => Ok (option_map VInt (as_uint j))                                   (* 51-56 *)
  | SEnum => Ok (option_map (fun z => VInt (to_enum z)) (as_uint j))            (* 65-70 *)
  | SDouble => Ok (match j with JReal d => Some (VDouble d) | JInt z => Some (VDouble (double_of z)) | _ => None end) (* 72-77 *)
  | SString => Ok (match j with JString x => Some (VString (c_str x)) | _ => None end)
  | SBuffer n =>                                                                (* 121-127: the result of base64_decode is not looked at *)
      match j, old with
      | JString x, VBuffer b => let! r := base64_decode2 (match n with Some _ => Fixed | None => Dynamic end) (c_str x) b in Ok (Some (VBuffer (snd r)))
      | JString _, _ => UB
      | _, _ => Ok None
      end
  | SEmpty => Ok (Some old)                                                     (* 143-147 *)
  | SSeq l =>
      match old with
      | VSeq olds =>
          let n := count_nonempty l in
          match elements n j with
          | None => Ok None
          | Some js => thenr (read_seq read n j js l olds O) (fun vs => Ok (Some (VSeq vs)))
          end
      | _ => UB
      end
  | SMap l =>
      match old with VSeq olds => thenr (read_map read j l olds) (fun vs => Ok (Some (VSeq vs))) | _ => UB end
  | SCont s =>
      match j, old with
      | JArray js, VCont olds => thenr (read_cont (fun x => read s x (default s)) js) (fun vs => Ok (Some (VCont (olds ++ vs))))
      | JArray _, _ => UB
      | _, _ => Ok None
      end
  | SVar l =>                                                                   (* 278-298 with variant.hpp:76-85, 180-190 *)
      match variant_id j with
      | None => Ok None
      | Some id =>
          if negb ((0 <=? id)%Z && (id <? Z.of_nat (length l))%Z) then Ok (Some old)
          else alternative (fun s =>
                 if is_empty s then Ok (option_map (fun _ => VVar (Z.to_nat id) (default s)) (as_int j))
                 else match j with
                      | JArray [i; x] => match as_int i with
                                         | Some _ => thenr (read s x (default s)) (fun v => Ok (Some (VVar (Z.to_nat id) v)))
                                         | None => Ok None
                                         end
                      | _ => Ok None
                      end) UB l (Z.to_nat id)
      end
  end.
End Reader.
