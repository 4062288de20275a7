(* Model of the messages of an API as JSON documents: the bindings of /repo/include/nbdl/message.hpp:742-770, with nbdl::app's serializers
   (AppModel), between the contexts of NetModel.  Texts are what JsonCpp prints and parses.
   In StoreModel keys, uids and entities are numbers that stand for values of some type; [box] and [unbox] say for which. *)
From Verif Require Import Base StoreModel NetModel.
From Verif Require Import Base64Model JsonModel AppModel.
Open Scope N_scope.

(* the type of a payload: an entity, or one of the empty tags (tags.hpp) *)
Inductive content := CEntity (s : shape) | CNotFound | CNotInSet.
(* the types of the elements of a message's storage after the path.  (is_confirmed is a bool, which the binder does not read.) *)
Inductive element := EUid (s : shape) | EPayload (c : content) | EPrivate (s : shape) | ENoImpl.
(* a message type: the template and its arguments, message.hpp:78-358; [t_create]: its path is a create_path *)
Record message_type := MType { t_kind : kind; t_id : N; t_path : nat; t_create : bool; t_keys : list shape; t_rest : list element }.

Section Wire.
Variable box : shape -> N -> value.
Variable unbox : shape -> value -> N.

Definition element_shape (e : element) : shape :=
  match e with EUid s | EPayload (CEntity s) | EPrivate s => s | EPayload _ | ENoImpl => SEmpty end.
(* a path is a hana::tuple; one without keys is std::is_empty, one with keys has a member, storage_.  A create_path has a member
   and binds as the parent's path (message.hpp:762-770) *)
Definition no_keys (t : message_type) : bool := negb (t_create t) && match t_keys t with [] => true | _ => false end.
Definition path_shape (t : message_type) : shape := if no_keys t then SEmpty else SSeq (t_keys t).
(* message.hpp:743-748: a message binds as its storage *)
Definition type_shape (t : message_type) : shape := SSeq (path_shape t :: map element_shape (t_rest t)).

(* the keys as values; None: not a path of that type *)
Fixpoint box_all (l : list shape) (ns : list N) : option (list value) :=
  match l, ns with
  | [], [] => Some []
  | s :: l', n :: ns' => option_map (cons (box s n)) (box_all l' ns')
  | _, _ => None
  end.
Definition path_value (t : message_type) (p : mpath) : option value :=
  match p with
  | PPath q => if negb (t_create t) && Nat.eqb (ptype q) (t_path t)
               then option_map (fun vs => if no_keys t then VEmpty else VSeq vs) (box_all (t_keys t) (keys q)) else None
  | PCreate ty ks => if t_create t && Nat.eqb ty (t_path t) then option_map VSeq (box_all (t_keys t) ks) else None
  end.
Definition element_value (e : element) (f : field) : option value :=
  match e, f with
  | EUid s, FUid n => Some (box s n)
  | EPayload (CEntity s), FPayload (Entity n) => Some (box s n)
  | EPayload CNotFound, FPayload NotFound => Some VEmpty
  | EPayload CNotInSet, FPayload NotInSet => Some VEmpty
  | EPrivate s, FPrivate n => Some (box s n)
  | ENoImpl, NoImpl => Some VEmpty
  | _, _ => None
  end.
Fixpoint element_values (l : list element) (fs : list field) : option (list value) :=
  match l, fs with
  | [], [] => Some []
  | e :: l', f :: fs' => match element_value e f, element_values l' fs' with Some v, Some vs => Some (v :: vs) | _, _ => None end
  | _, _ => None
  end.
Definition kind_eqb (a b : kind) : bool :=
  match a, b with
  | UpCreate, UpCreate | UpRead, UpRead | UpUpdate, UpUpdate | UpDelete, UpDelete
  | DownCreate, DownCreate | DownRead, DownRead | DownUpdate, DownUpdate | DownDelete, DownDelete => true
  | _, _ => false
  end.
(* a message of the type as a value; None: it has another type *)
Definition value_of (t : message_type) (m : msg) : option value :=
  if kind_eqb (t_kind t) (mkind m) && N.eqb (t_id t) (mtype m) then
    match storage m with
    | FPath p :: fs => match path_value t p, element_values (t_rest t) fs with Some v, Some vs => Some (VSeq (v :: vs)) | _, _ => None end
    | _ => None
    end
  else None.

(* and back *)
Fixpoint unbox_all (l : list shape) (vs : list value) : list N :=
  match l, vs with s :: l', v :: vs' => unbox s v :: unbox_all l' vs' | _, _ => [] end.
Definition path_of_value (t : message_type) (v : value) : mpath :=
  let ks := match v with VSeq vs => unbox_all (t_keys t) vs | _ => [] end in
  if t_create t then PCreate (t_path t) ks else PPath (mk_path (t_path t) ks).
Definition field_of (e : element) (v : value) : field :=
  match e with
  | EUid s => FUid (unbox s v)
  | EPayload (CEntity s) => FPayload (Entity (unbox s v))
  | EPayload CNotFound => FPayload NotFound
  | EPayload CNotInSet => FPayload NotInSet
  | EPrivate s => FPrivate (unbox s v)
  | ENoImpl => NoImpl
  end.
Fixpoint fields_of (l : list element) (vs : list value) : list field :=
  match l, vs with e :: l', v :: vs' => field_of e v :: fields_of l' vs' | _, _ => [] end.
Definition message_of (t : message_type) (v : value) : option msg :=
  match v with
  | VSeq (p :: vs) => Some (mk_msg (t_kind t) (t_id t) (FPath (path_of_value t p) :: fields_of (t_rest t) vs))
  | _ => None
  end.

(* def/builder/message_api.hpp: the message types of one direction, in the order of the variant's alternatives *)
Variable api : list message_type.
Variable sys : shape.
Definition shapes : list shape := map type_shape api.
(* the alternative that Variant(m) holds: the one of m's type *)
Fixpoint locate (l : list message_type) (m : msg) : option (nat * value) :=
  match l with
  | [] => None
  | t :: l' => match value_of t m with Some v => Some (O, v) | None => option_map (fun iv => (S (fst iv), snd iv)) (locate l' m) end
  end.

Variable integral_of : N -> option Z.
Variable double_of : Z -> N.
Variable print : json -> bytes.                (* Json::writeString *)
Variable parse : bytes -> option json.         (* Json::CharReader::parse *)

(* serializer.hpp:41-46.  A message of no type of the API does not compile *)
Definition text_of (m : msg) : bytes :=
  match locate api m with
  | Some (i, v) => match serialize sys shapes i v with Ok j => print j | UB => [] end
  | None => []
  end.
(* deserializer_fn, serializer.hpp:56-86, as NetModel sees it: one resolution with a message or with an error, or two (C57) *)
Definition read_text (t : bytes) : incoming :=
  match deserialize integral_of double_of parse sys shapes t with
  | Ok [AppModel.Message i v] =>
      match nth_error api i with
      | Some ty => match message_of ty v with Some m => NetModel.Message m | None => Twice end
      | None => Twice
      end
  | Ok [_] => Refused
  | _ => Twice
  end.
End Wire.
