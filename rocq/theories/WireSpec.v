(* Which messages JSON carries. *)
From Verif Require Import Base StoreModel NetModel.
From Verif Require Import Base64Model JsonModel JsonSpec AppModel WireModel.
Open Scope N_scope.

Section Spec.
Variable box : shape -> N -> value.
Variable unbox : shape -> value -> N.

(* the number stands for a value of the shape that survives (C43) *)
Definition travels (s : shape) (n : N) : Prop := writable s (box s n) /\ unbox s (box s n) = n.

Definition field_travels (e : element) (f : field) : Prop :=
  match e, f with
  | EUid s, FUid n | EPayload (CEntity s), FPayload (Entity n) | EPrivate s, FPrivate n => travels s n
  | EPayload CNotFound, FPayload NotFound | EPayload CNotInSet, FPayload NotInSet | ENoImpl, NoImpl => True
  | _, _ => False
  end.
Definition path_travels (t : message_type) (p : mpath) : Prop :=
  match p with
  | PPath q => t_create t = false /\ ptype q = t_path t /\ Forall2 travels (t_keys t) (keys q)
  | PCreate ty ks => t_create t = true /\ ty = t_path t /\ Forall2 travels (t_keys t) ks
  end.
(* a message of one of the types, all of whose parts survive *)
Definition carried (api : list message_type) (m : msg) : Prop :=
  exists t, In t api /\ mkind m = t_kind t /\ mtype m = t_id t /\
    exists p fs, storage m = FPath p :: fs /\ path_travels t p /\ Forall2 field_travels (t_rest t) fs.

(* a message of the type, whatever its parts *)
Definition of_type (t : message_type) (m : msg) : Prop :=
  mkind m = t_kind t /\ mtype m = t_id t /\ exists p fs, storage m = FPath p :: fs /\
    match p with
    | PPath q => t_create t = false /\ ptype q = t_path t /\ length (keys q) = length (t_keys t)
    | PCreate ty ks => t_create t = true /\ ty = t_path t /\ length ks = length (t_keys t)
    end /\
    Forall2 (fun e f => match e, f with
                        | EUid _, FUid _ | EPayload (CEntity _), FPayload (Entity _) | EPayload CNotFound, FPayload NotFound
                        | EPayload CNotInSet, FPayload NotInSet | EPrivate _, FPrivate _ | ENoImpl, NoImpl => True
                        | _, _ => False
                        end) (t_rest t) fs.
(* the type of a message is known *)
Definition one_type (api : list message_type) : Prop := forall t t' m, In t api -> In t' api -> of_type t m -> of_type t' m -> t = t'.
(* an int numbers the alternatives *)
Definition numbered (api : list message_type) : Prop := (Z.of_nat (length api) + 2 <= 2 ^ 31)%Z.
End Spec.

(* JsonCpp parses what it printed *)
Definition prints (print : json -> bytes) (parse : bytes -> option json) : Prop := forall j, parse (print j) = Some j.

(* all that was said in the net could be said *)
Definition all_carried {text P} (box : shape -> N -> value) (unbox : shape -> value -> N) (up_api down_api : list message_type) (n : net text P) : Prop :=
  Forall (carried box unbox down_api) (told _ _ n) /\
  forall i c, nth_error (members _ _ n) i = Some c -> Forall (carried box unbox up_api) (asked _ c).

(* the number stands for a value of the shape, and no other value for that number; buffers have fewer than 2^29 bytes *)
Definition stands (box : shape -> N -> value) (unbox : shape -> value -> N) (s : shape) (n : N) : Prop :=
  has_shape s (box s n) /\ short_in (box s n) /\ forall v, has_shape s v -> (unbox s v = n <-> v = box s n).
(* a message of the type whose parts stand for values *)
Definition meant (box : shape -> N -> value) (unbox : shape -> value -> N) (t : message_type) (m : msg) : Prop :=
  mkind m = t_kind t /\ mtype m = t_id t /\ exists p fs, storage m = FPath p :: fs /\
    match p with
    | PPath q => t_create t = false /\ ptype q = t_path t /\ Forall2 (stands box unbox) (t_keys t) (keys q)
    | PCreate ty ks => t_create t = true /\ ty = t_path t /\ Forall2 (stands box unbox) (t_keys t) ks
    end /\
    Forall2 (fun e f => match e, f with
                        | EUid s, FUid n | EPayload (CEntity s), FPayload (Entity n) | EPrivate s, FPrivate n => stands box unbox s n
                        | EPayload CNotFound, FPayload NotFound | EPayload CNotInSet, FPayload NotInSet | ENoImpl, NoImpl => True
                        | _, _ => False
                        end) (t_rest t) fs.
(* the types of the parts of a message have distinct names and variants with alternatives *)
Definition part_shapes (t : message_type) : list shape :=
  t_keys t ++ flat_map (fun e => match e with EUid s | EPayload (CEntity s) | EPrivate s => [s] | _ => [] end) (t_rest t).
Definition decent (t : message_type) : Prop := Forall (fun s => sensible s /\ proper s) (part_shapes t).
