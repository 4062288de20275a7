(* Which messages travel between a browser and a server. *)
From Verif Require Import Base StoreModel NetModel.
From Verif Require Import Base64Model JsonModel JsonSpec WireModel WireSpec JsbModel JsbSpec.
Open Scope N_scope.

Section Spec.
Variable fits : shape -> value -> Prop.
Variable box : shape -> N -> value.
Variable unbox : shape -> value -> N.
Definition fit (s : shape) (n : N) : Prop := fits s (box s n) /\ unbox s (box s n) = n.
Definition field_fits (e : element) (f : field) : Prop :=
  match e, f with
  | EUid s, FUid n | EPayload (CEntity s), FPayload (Entity n) | EPrivate s, FPrivate n => fit s n
  | EPayload CNotFound, FPayload NotFound | EPayload CNotInSet, FPayload NotInSet | ENoImpl, NoImpl => True
  | _, _ => False
  end.
Definition path_fits (t : message_type) (p : mpath) : Prop :=
  match p with
  | PPath q => t_create t = false /\ ptype q = t_path t /\ Forall2 fit (t_keys t) (keys q)
  | PCreate ty ks => t_create t = true /\ ty = t_path t /\ Forall2 fit (t_keys t) ks
  end.
(* a message of one of the types, of parts that fit *)
Definition made_of (api : list message_type) (m : msg) : Prop :=
  exists t, In t api /\ mkind m = t_kind t /\ mtype m = t_id t /\
    exists p fs, storage m = FPath p :: fs /\ path_fits t p /\ Forall2 field_fits (t_rest t) fs.
End Spec.

(* the parts a browser can write, with text of any characters; those of them the server reads; those of which a browser reads anything when
   the server wrote them; and those which it reads as they are: text that is not ASCII it reads as another *)
Definition sayable (s : shape) (v : value) : Prop := js_writable_as well_formed s v.
Definition fits_up (s : shape) (v : value) : Prop := sayable s v /\ small s v.
Definition legible (s : shape) (v : value) : Prop := sayable s v /\ filled s v.
Definition fits_down (s : shape) (v : value) : Prop := js_writable s v /\ filled s v.

(* what a message of the server is for a browser: another of the same type, whose text is seen as JsbSpec says *)
Section Sight.
Variable box : shape -> N -> value.
Variable unbox : shape -> value -> N.
Definition part_seen (s : shape) (n n' : N) : Prop := exists v, Seen (box s n) v /\ n' = unbox s v.
Fixpoint parts_seen (l : list shape) (ns ns' : list N) : Prop :=
  match l, ns, ns' with [], [], [] => True | s :: l', n :: r, n' :: r' => part_seen s n n' /\ parts_seen l' r r' | _, _, _ => False end.
Definition field_seen (e : element) (f f' : field) : Prop :=
  match e, f, f' with
  | EUid s, FUid n, FUid n' | EPayload (CEntity s), FPayload (Entity n), FPayload (Entity n') | EPrivate s, FPrivate n, FPrivate n' => part_seen s n n'
  | EPayload CNotFound, FPayload NotFound, FPayload NotFound | EPayload CNotInSet, FPayload NotInSet, FPayload NotInSet | ENoImpl, NoImpl, NoImpl => True
  | _, _, _ => False
  end.
Fixpoint fields_seen (l : list element) (fs fs' : list field) : Prop :=
  match l, fs, fs' with [], [], [] => True | e :: l', f :: r, f' :: r' => field_seen e f f' /\ fields_seen l' r r' | _, _, _ => False end.
Definition path_seen (t : message_type) (p p' : mpath) : Prop :=
  match p, p' with
  | PPath q, PPath q' => ptype q' = ptype q /\ parts_seen (t_keys t) (keys q) (keys q')
  | PCreate ty ks, PCreate ty' ks' => ty' = ty /\ parts_seen (t_keys t) ks ks'
  | _, _ => False
  end.
Definition seen_as (api : list message_type) (m m' : msg) : Prop :=
  exists t, In t api /\ of_type t m /\ mkind m' = mkind m /\ mtype m' = mtype m /\
    exists p fs p' fs', storage m = FPath p :: fs /\ storage m' = FPath p' :: fs' /\ path_seen t p p' /\ fields_seen (t_rest t) fs fs'.
End Sight.

(* the two sides understand each other's texts *)
Definition understood (lenient : list N -> list N) (stringify : jsv -> bytes) (parse : bytes -> option json) (print : json -> bytes) (js_parse : bytes -> option jsv) : Prop :=
  (forall j, parse (stringify j) = Some (to_document j)) /\ (forall d, js_parse (print d) = Some (from_document lenient d)).

(* the types of the messages have values *)
Definition api_proper (sys : shape) (api : list message_type) : Prop := proper sys /\ Forall (fun t => proper (type_shape t)) api.

(* all that was said in the net could be written, and what the clients said can be read: [browser] says which of the clients are in
   browsers; the others are as those of C101 *)
Definition all_said {text P} (box : shape -> N -> value) (unbox : shape -> value -> N) (up_api down_api : list message_type) (browser : nat -> bool) (n : net text P) : Prop :=
  forall i c, nth_error (members _ _ n) i = Some c ->
    if browser i then Forall (made_of sayable box unbox down_api) (told _ _ n) /\ Forall (made_of fits_up box unbox up_api) (asked _ c)
    else Forall (carried box unbox down_api) (told _ _ n) /\ Forall (carried box unbox up_api) (asked _ c).

(* the elements of a list of which something holds, in their order, each as it is seen *)
Inductive only {A} (Q : A -> Prop) (R : A -> A -> Prop) : list A -> list A -> Prop :=
| only_nil : only Q R [] []
| only_keep x y l k : Q x -> R x y -> only Q R l k -> only Q R (x :: l) (y :: k)
| only_drop x l k : ~ Q x -> only Q R l k -> only Q R (x :: l) k.
