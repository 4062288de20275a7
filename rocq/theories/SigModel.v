(* Model of the signature of an interface: /repo/include/nbdl/api_signature.hpp and detail/bind_tag_of.hpp, with what the JSON
   binder (JsonModel) makes of the same types.
   __PRETTY_FUNCTION__ and the names of types are clang's; its text is modelled as it is for the digests that
   /repo/test/nbdl/core/api_signature.cpp expects, which this model computes (SigProps.v).
   Simplified: constants are int or bool; of containers there are std::vector, std::list and std::array; a hana::map that is empty and
   keys of a hana::map other than hana::string are left out; no class counts as one byte large, so an array of empty objects is taken for
   a container and not for a buffer; qualifiers are left out; messages, std::tuple and other types that say
   themselves how they are bound are like hana::tuple. *)
From Coq Require Import String.
From Verif Require Import Base ShaModel RouteModel JsonModel.
Open Scope N_scope.

(* ---- types ---- *)

(* the fundamental types, by their names *)
Inductive fund := FBool | FChar | FSChar | FUChar | FShort | FUShort | FInt | FUInt | FLong | FULong | FLongLong | FULongLong | FFloat | FDouble.
Definition fund_name (f : fund) : list N :=
  match f with
  | FBool => bs "bool" | FChar => bs "char" | FSChar => bs "signed char" | FUChar => bs "unsigned char"
  | FShort => bs "short" | FUShort => bs "unsigned short" | FInt => bs "int" | FUInt => bs "unsigned int"
  | FLong => bs "long" | FULong => bs "unsigned long" | FLongLong => bs "long long" | FULongLong => bs "unsigned long long"
  | FFloat => bs "float" | FDouble => bs "double"
  end.

Inductive const := CoInt (z : Z) | CoBool (b : bool).

Inductive ckind := Vector | List | Array (n : nat).

Inductive ctype :=
| CFund (f : fund)
| COther (name : list N)                     (* an enumeration, or a class that no concept knows and that has members *)
| CEmpty (name : list N)                     (* a class that no concept knows, without members *)
| CTypeOf (name : list N)                    (* hana::type of the type with that name *)
| CConst (c : const)                         (* hana::integral_constant, std::integral_constant *)
| CChars (s : list N)                        (* hana::string *)
| CTuple (l : list ctype)                    (* hana::tuple *)
| CPair (a b : ctype)                        (* std::pair, hana::pair *)
| CJust (t : ctype)                          (* hana::optional of something *)
| CEntity (name : list N) (l : list (list N * ctype)) (* NBDL_ENTITY: the members *)
| CMap (l : list (list N * ctype))           (* hana::map *)
| CVariant (l : list ctype)                  (* nbdl::variant *)
| CCont (k : ckind) (t : ctype)
| CString                                    (* std::string *)
| CText                                      (* nbdl::string *)
| CUid.                                      (* nbdl::uid *)

(* concept/Container.hpp:26-28: sizeof(value_type) == 1; std::vector<bool> has no data() *)
Definition one_byte (t : ctype) : bool := match t with CFund (FChar | FSChar | FUChar) => true | _ => false end.
Definition one_byte_array (t : ctype) : bool := match t with CFund FBool => true | _ => one_byte t end.

(* ---- detail/bind_tag_of.hpp ---- *)

(* bind_tag_of.hpp:32-61 *)
Inductive tag :=
| GSeq (l : list tag)
| GMap (l : list (list N * tag))             (* map_node of ct_string and the member *)
| GVar (l : list tag)
| GConst (c : const)
| GType (name : list N)
| GChars (s : list N)
| GCont (g : tag)
| GBuffer | GString | GDynamic
| GName (name : list N).                     (* a type that is its own tag *)

Definition tags (f : ctype -> option tag) := fix go (l : list ctype) : option (list tag) :=
  match l with
  | [] => Some []
  | t :: l' => match f t, go l' with Some g, Some gs => Some (g :: gs) | _, _ => None end
  end.
Definition member_tags (f : ctype -> option tag) := fix go (l : list (list N * ctype)) : option (list (list N * tag)) :=
  match l with
  | [] => Some []
  | (n, t) :: l' => match f t, go l' with Some g, Some gs => Some ((n, g) :: gs) | _, _ => None end
  end.

(* bto, bind_tag_of.hpp:65-150; None: does not compile *)
Fixpoint bind_tag_of (t : ctype) : option tag :=
  match t with
  | CFund f => Some (GName (fund_name f))                            (* 70-75 *)
  | CEmpty n => Some (GName n)
  | COther _ => None                                                 (* 73: the static_assert *)
  | CTypeOf n => Some (GType n)                                      (* 80-84 *)
  | CTuple l => option_map GSeq (tags bind_tag_of l)                 (* 86-97 *)
  | CPair a b => match bind_tag_of a, bind_tag_of b with Some x, Some y => Some (GSeq [x; y]) | _, _ => None end
  | CJust t => option_map (fun g => GSeq [g]) (bind_tag_of t)
  | CVariant l => option_map GVar (tags bind_tag_of l)               (* 99-109 *)
  | CEntity _ _ => None                 (* 93, 121: a BindableSequence and a BindableMap, neither specialization is the more specialized *)
  | CMap l => option_map GMap (member_tags bind_tag_of l)            (* 111-124 *)
  | CConst c => Some (GConst c)                                      (* 126-130 *)
  | CChars s => Some (GChars s)                                      (* 132-135 *)
  | CCont Vector t => if one_byte t then Some GDynamic else option_map GCont (bind_tag_of t)   (* 137-140, 152-155 *)
  | CCont List t => option_map GCont (bind_tag_of t)
  | CCont (Array _) t => if one_byte_array t then Some GBuffer else option_map GCont (bind_tag_of t)   (* 142-145 *)
  | CString => Some GDynamic
  | CText => Some GString                                            (* 147-150 *)
  | CUid => Some GBuffer
  end.

(* ---- the text ---- *)

Definition hex (n : N) : N := if n <? 10 then 48 + n else 55 + n.
(* clang's text of a char as a template argument: escaped as in a literal *)
Definition escaped (c : N) : list N :=
  if c =? 39 then [92; 39] else if c =? 92 then [92; 92] else if c =? 34 then [92; 34]
  else if c =? 9 then [92; 116] else if c =? 10 then [92; 110]
  else if (32 <=? c) && (c <? 127) then [c]
  else [92; 120; hex (c / 16); hex (c mod 16)].
Definition char_text (c : N) : list N := [39] ++ escaped c ++ [39].
Definition const_text (c : const) : list N :=
  match c with CoInt z => std_to_string z | CoBool true => bs "true" | CoBool false => bs "false" end.

Fixpoint comma_separated (l : list (list N)) : list N :=
  match l with [] => [] | [x] => x | x :: r => x ++ bs ", " ++ comma_separated r end.
Definition template (name : list N) (args : list (list N)) : list N := bs "nbdl::_b::tag::" ++ name ++ bs "<" ++ comma_separated args ++ bs ">".

Fixpoint tag_text (g : tag) : list N :=
  match g with
  | GSeq l => template (bs "sequence") (map tag_text l)
  | GMap l => template (bs "map") (map (fun m => template (bs "map_node") [template (bs "ct_string") (map char_text (fst m)); tag_text (snd m)]) l)
  | GVar l => template (bs "variant") (map tag_text l)
  | GConst c => template (bs "constant") [const_text c]
  | GType n => template (bs "type") [n]
  | GChars s => template (bs "ct_string") (map char_text s)
  | GCont g => template (bs "container") [tag_text g]
  | GBuffer => bs "nbdl::_b::tag::buffer"
  | GString => bs "nbdl::_b::tag::string"
  | GDynamic => bs "nbdl::_b::tag::dynamic_buffer"
  | GName n => n
  end.

(* api_signature.hpp:20-24: __PRETTY_FUNCTION__ of api_signature_helper *)
Definition helper_text (args : list tag) : list N :=
  bs "const char *nbdl::detail::api_signature_helper(T...) [T = <" ++ comma_separated (map tag_text args) ++ bs ">]".

(* api_signature.hpp:33-36: the text for a format (a hana::string) and a type *)
Definition signed_text (format : list N) (t : ctype) : option (list N) :=
  match bind_tag_of (CChars format), bind_tag_of t with Some f, Some g => Some (helper_text [f; g]) | _, _ => None end.

(* api_signature.hpp:27-46; ctx{} is zero *)
Definition api_signature (format : list N) (t : ctype) : option (list N) :=
  option_map (fun type_str => finish (update (init (repeat 0 64)) type_str)) (signed_text format t).

(* ---- how the JSON binder binds the type ---- *)

Definition shapes (f : ctype -> option shape) := fix go (l : list ctype) : option (list shape) :=
  match l with
  | [] => Some []
  | t :: l' => match f t, go l' with Some s, Some r => Some (s :: r) | _, _ => None end
  end.
Definition member_shapes (f : ctype -> option shape) := fix go (l : list (list N * ctype)) : option (list (list N * shape)) :=
  match l with
  | [] => Some []
  | (n, t) :: l' => match f t, go l' with Some s, Some r => Some ((n, s) :: r) | _, _ => None end
  end.

(* a container of empty types is left out *)
Definition elements_of (s : option shape) : option shape := match s with Some SEmpty | None => None | Some s => Some (SCont s) end.

(* binder/jsoncpp.hpp:262-329 for reading and writing; None: does not compile.  Types that are std::is_empty are SEmpty; on their own and
   as members of a map they compile only as hana::string and hana::tuple<>. *)
Fixpoint shape_of (t : ctype) : option shape :=
  match t with
  | CFund FInt => Some SInt
  | CFund FUInt => Some SUInt
  | CFund FDouble => Some SDouble
  | CFund _ => None
  | COther _ => None
  | CEmpty _ | CTypeOf _ | CConst _ | CChars _ => Some SEmpty
  | CTuple [] => Some SEmpty
  | CTuple l => option_map SSeq (shapes shape_of l)
  | CPair a b => match shape_of a, shape_of b with Some x, Some y => Some (SSeq [x; y]) | _, _ => None end
  | CJust t => option_map (fun s => SSeq [s]) (shape_of t)
  | CEntity _ l | CMap l => option_map SMap (member_shapes shape_of l)   (* 264-276: binds as map when possible *)
  | CVariant l => option_map SVar (shapes shape_of l)
  | CCont Vector t => if one_byte t then Some (SBuffer None) else elements_of (shape_of t)
  | CCont List t => elements_of (shape_of t)
  | CCont (Array n) t => if one_byte_array t then Some (SBuffer (Some n)) else None   (* 117: std::array has no insert *)
  | CString => Some (SBuffer None)
  | CText => Some SString
  | CUid => Some (SBuffer (Some 16%nat))
  end.
