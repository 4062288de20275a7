(* Which types have the same signature, which have none, and where the sizes of buffers are. *)
From Coq Require Import String.
From Verif Require Import Base JsonModel SigModel.
Open Scope N_scope.

(* u is t or a part of t *)
Inductive Part (u : ctype) : ctype -> Prop :=
| P_self : Part u u
| P_tuple t l : In t l -> Part u t -> Part u (CTuple l)
| P_first a b : Part u a -> Part u (CPair a b)
| P_second a b : Part u b -> Part u (CPair a b)
| P_just t : Part u t -> Part u (CJust t)
| P_entity n k t l : In (k, t) l -> Part u t -> Part u (CEntity n l)
| P_map k t l : In (k, t) l -> Part u t -> Part u (CMap l)
| P_variant t l : In t l -> Part u t -> Part u (CVariant l)
| P_element k t : Part u t -> Part u (CCont k t).

(* names: of one word, and not that of a tag; the classes that are not known to any concept are not fundamental types *)
Definition type_name (n : list N) : Prop := n <> [] /\ all_bytes n /\ Forall (fun c => c <> 44 /\ c <> 60 /\ c <> 62) n.
Definition class_name (n : list N) : Prop := type_name n /\ (forall r, n <> bs "nbdl::_b::tag::" ++ r) /\ forall f, n <> fund_name f.

(* the names that occur in the type are names *)
Definition named (t : ctype) : Prop :=
  (forall n, Part (CEmpty n) t -> class_name n) /\ (forall n, Part (CTypeOf n) t -> type_name n) /\
  (forall s, Part (CChars s) t -> all_bytes s) /\ (forall l, Part (CMap l) t -> forall k u, In (k, u) l -> all_bytes k).

(* ---- types that are bound alike ---- *)

(* sequences, by their members *)
Inductive Sequence : ctype -> list ctype -> Prop :=
| Q_tuple l : Sequence (CTuple l) l
| Q_pair a b : Sequence (CPair a b) [a; b]
| Q_just t : Sequence (CJust t) [t].

(* bytes: as many as there are, and always the same number *)
Definition char_type (t : ctype) : Prop := In t [CFund FChar; CFund FSChar; CFund FUChar].
Inductive Bytes : ctype -> Prop :=
| B_string : Bytes CString
| B_vector t : char_type t -> Bytes (CCont Vector t).
Inductive FixedBytes : ctype -> nat -> Prop :=
| X_uid : FixedBytes CUid 16
| X_array n t : char_type t \/ t = CFund FBool -> FixedBytes (CCont (Array n) t) n.

Inductive Alike : ctype -> ctype -> Prop :=
| A_fund f : Alike (CFund f) (CFund f)
| A_empty n : Alike (CEmpty n) (CEmpty n)
| A_type n : Alike (CTypeOf n) (CTypeOf n)
| A_const c : Alike (CConst c) (CConst c)
| A_chars s : Alike (CChars s) (CChars s)
| A_text : Alike CText CText
| A_bytes t u : Bytes t -> Bytes u -> Alike t u
| A_fixed t u n m : FixedBytes t n -> FixedBytes u m -> Alike t u
| A_seq t u l m : Sequence t l -> Sequence u m -> Forall2 Alike l m -> Alike t u
| A_map l m : Forall2 (fun a b => fst a = fst b) l m -> Forall2 Alike (map snd l) (map snd m) -> Alike (CMap l) (CMap m)
| A_variant l m : Forall2 Alike l m -> Alike (CVariant l) (CVariant m)
| A_cont k j t u : ~ Bytes (CCont k t) -> ~ Bytes (CCont j u) -> (forall n, ~ FixedBytes (CCont k t) n) -> (forall n, ~ FixedBytes (CCont j u) n) ->
    Alike t u -> Alike (CCont k t) (CCont j u).

(* the sizes of the buffers of fixed size that occur, in order *)
Fixpoint sizes (t : ctype) : list nat :=
  match t with
  | CUid => [16%nat]
  | CCont (Array n) (CFund (FChar | FSChar | FUChar | FBool)) => [n]
  | CCont _ t => sizes t
  | CTuple l | CVariant l => flat_map sizes l
  | CPair a b => sizes a ++ sizes b
  | CJust t => sizes t
  | CEntity _ l | CMap l => flat_map (fun m => sizes (snd m)) l
  | _ => []
  end.

(* how a character is written in a literal *)
Inductive Literal : N -> list N -> Prop :=
| L_marked c : In c (bs "'\""") -> Literal c (bs "\" ++ [c])
| L_tab : Literal 9 (bs "\t")
| L_newline : Literal 10 (bs "\n")
| L_plain c : 32 <= c <= 126 -> ~ In c (bs "'\""") -> Literal c [c]
| L_hex h k a b : nth_error (bs "0123456789ABCDEF") h = Some a -> nth_error (bs "0123456789ABCDEF") k = Some b ->
    let c := N.of_nat (16 * h + k) in c <> 9 -> c <> 10 -> ~ 32 <= c <= 126 -> Literal c (bs "\x" ++ [a; b]).

(* ---- how the JSON binder treats a type ---- *)
Inductive BoundAs : ctype -> shape -> Prop :=
| J_int : BoundAs (CFund FInt) SInt
| J_uint : BoundAs (CFund FUInt) SUInt
| J_double : BoundAs (CFund FDouble) SDouble
| J_text : BoundAs CText SString
| J_empty t : (exists n, t = CEmpty n \/ t = CTypeOf n \/ t = CChars n) \/ (exists c, t = CConst c) \/ t = CTuple [] -> BoundAs t SEmpty
| J_bytes t : Bytes t -> BoundAs t (SBuffer None)
| J_fixed t n : FixedBytes t n -> BoundAs t (SBuffer (Some n))
| J_seq t l r : Sequence t l -> l <> [] -> Forall2 BoundAs l r -> BoundAs t (SSeq r)
| J_members t l r : (t = CMap l \/ exists n, t = CEntity n l) -> Forall2 (fun a b => fst a = fst b) l r -> Forall2 BoundAs (map snd l) (map snd r) -> BoundAs t (SMap r)
| J_variant l r : Forall2 BoundAs l r -> BoundAs (CVariant l) (SVar r)
| J_cont k t s : k = Vector /\ ~ char_type t \/ k = List -> BoundAs t s -> s <> SEmpty -> BoundAs (CCont k t) (SCont s).
