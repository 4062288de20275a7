(* C85 the signature of an interface stands for how its types are bound; C86 programs with the same signature understand each other. *)
From Coq Require Import String.
From Verif Require Import Base Base64Model Base64Spec Base64Props ShaModel ShaSpec JsonModel JsonSpec JsonProps JsbModel JsbSpec JsbProps SigModel SigSpec SigProofs.
Open Scope N_scope.

(* C85: what is signed for two formats and types is the same text exactly when the formats are the same and the types are bound alike *)
Theorem C85_text f f' t u m m' : all_bytes f -> all_bytes f' -> named t -> named u ->
  signed_text f t = Some m -> signed_text f' u = Some m' -> (m = m' <-> f = f' /\ Alike t u).
Proof. apply same_text. Qed.
Print Assumptions C85_text.

(* C85: the text of a character of a hana::string is that of a literal *)
Theorem C85_characters c : is_byte c -> exists x, Literal c x /\
  signed_text [] (CChars [c]) = Some (bs "const char *nbdl::detail::api_signature_helper(T...) [T = <nbdl::_b::tag::ct_string<>, nbdl::_b::tag::ct_string<'" ++ x ++ bs "'>>]").
Proof.
  intros B. exists (escaped c). split; [exact (escaped_literal c B)|].
  unfold signed_text, helper_text. cbn -[escaped bs]. unfold char_text, template. cbn -[escaped bs]. f_equal.
  generalize (escaped c). intros x. cbn. rewrite <- !app_assoc. reflexivity.
Qed.
Print Assumptions C85_characters.
Example C85_characters_ex : signed_text [] (CChars [97; 39; 10; 200]) =
  Some (bs "const char *nbdl::detail::api_signature_helper(T...) [T = <nbdl::_b::tag::ct_string<>, nbdl::_b::tag::ct_string<'a', '\'', '\n', '\xC8'>>]").
Proof. vm_compute. reflexivity. Qed.

(* C85: types that are bound alike have the same signature, in every format *)
Theorem C85_alike f t u : Alike t u -> api_signature f t = api_signature f u.
Proof.
  intros A. unfold api_signature, signed_text. cbn [bind_tag_of]. destruct (bind_tag_of t) as [g|] eqn:E.
  - now rewrite (alike_tag t u A g E).
  - destruct (bind_tag_of u) as [g|] eqn:E'; [|reflexivity]. pose proof (alike_tag u t (alike_sym t u A) g E'). congruence.
Qed.
Print Assumptions C85_alike.

(* C85: the signature is the SHA-1 digest of the text, so types with the same signature are bound alike unless their texts collide.
   Full statement: types with the same signature are bound alike.  It is false, see below. *)
Theorem C85_signature_partial f f' t u d m m' : all_bytes f -> all_bytes f' -> named t -> named u ->
  api_signature f t = Some d -> api_signature f' u = Some d ->
  signed_text f t = Some m -> signed_text f' u = Some m' -> N.of_nat (length m) < 2 ^ 61 -> N.of_nat (length m') < 2 ^ 61 ->
  d = sha1 m /\ d = sha1 m' /\ ((f = f' /\ Alike t u) \/ m <> m').
Proof.
  intros Bf Bf' Nt Nu E E' T T' L L'. rewrite (signature_sha1 f t m Bf Nt T L) in E. rewrite (signature_sha1 f' u m' Bf' Nu T' L') in E'.
  set (x := sha1 m) in *. set (x' := sha1 m') in *. clearbody x x'. injection E as <-. injection E' as ->. split; [reflexivity|]. split; [reflexivity|].
  destruct (bytes_eqb_spec m m') as [D|D]; [left|right; assumption]. exact (proj1 (same_text f f' t u m m' Bf Bf' Nt Nu T T') D).
Qed.
Print Assumptions C85_signature_partial.

(* twenty bytes cannot stand for everything: in each format there are types that are not bound alike and have the same signature *)
Theorem C85_unique_refuted f : exists t u d, named t /\ named u /\ ~ Alike t u /\ api_signature f t = Some d /\ api_signature f u = Some d.
Proof. apply two_alike_by_chance. Qed.
Print Assumptions C85_unique_refuted.

(* C85: a type has a signature, of twenty bytes, exactly when no part of it is an entity, an enumeration or a class that is not known *)
Theorem C85_exists_partial f t :
  (exists d, api_signature f t = Some d /\ length d = 20%nat /\ all_bytes d) <->
  forall u, Part u t -> (forall n, u <> COther n) /\ forall n l, u <> CEntity n l.
Proof.
  assert (A : (exists d, api_signature f t = Some d /\ length d = 20%nat /\ all_bytes d) <-> exists g, bind_tag_of t = Some g).
  { unfold api_signature, signed_text. cbn [bind_tag_of]. destruct (bind_tag_of t) as [g|]; split; intros H.
    - eauto.
    - eexists. split; [reflexivity|]. apply finish_bytes.
    - destruct H as (d & E & _). discriminate.
    - destruct H as (d & E). discriminate. }
  rewrite A, tag_exists. split.
  - intros H u P. split.
    + intros n ->. apply (H _ P). left. eauto.
    + intros n l ->. apply (H _ P). right. eauto.
  - intros H u P [(n & E)|(n & l & E)]; destruct (H u P) as [H1 H2]; [exact (H1 n E)|exact (H2 n l E)].
Qed.
Print Assumptions C85_exists_partial.

(* an entity has none although it is bound to JSON as the hana::map with the same members is, which has one *)
Theorem C85_entity_refuted f n l s : shape_of (CMap l) = Some s -> (forall u, Part u (CMap l) -> (forall n, u <> COther n) /\ forall n l, u <> CEntity n l) ->
  shape_of (CEntity n l) = Some s /\ (exists d, api_signature f (CMap l) = Some d) /\ api_signature f (CEntity n l) = None.
Proof.
  intros S H. split; [exact S|]. split; [|reflexivity]. destruct (proj2 (C85_exists_partial f (CMap l)) H) as (d & E & _). eauto.
Qed.
Print Assumptions C85_entity_refuted.

(* the digests that test/nbdl/core/api_signature.cpp expects *)
Definition signature_text (t : ctype) : option (list N) :=
  match api_signature (bs "json") t with Some d => match base64_encode d with Ok s => Some s | UB => None end | None => None end.
Example C85_test_ex :
  let c n := CConst (CoInt n) in
  signature_text (c 12345%Z) = Some (bs "hC2CGB8MPHXgcXPVLsFwK2lN+Y8=") /\
  signature_text (c 123456%Z) = Some (bs "Oow0uBtBxbh+hUf8+h4Nm9DDGK4=") /\
  signature_text (c 54321%Z) = Some (bs "82J9C34K+Xm5lnc7z1cnb8iuEWo=") /\
  signature_text (CTuple [c 12345; c 123456; c 54321]%Z) = Some (bs "3TJmnZgDFCPXmFWNs30cE6i020k=").
Proof. vm_compute. repeat split. Qed.
(* the tags that test/nbdl/core/detail/bind_tag_of.cpp expects *)
Example C85_tags_ex :
  bind_tag_of (CTuple [CFund FInt; CFund FFloat; CCont Vector CText; CCont List (CPair (CFund FInt) CString); CTypeOf (bs "int"); CTypeOf (bs "nbdl::string");
    CText; CConst (CoInt 42); CMap [(bs "foo", CFund FInt)]; CMap []; CTuple []; CTuple [CConst (CoInt 42)]; CTuple [CFund FInt; CFund FFloat]; CEmpty (bs "foo_tag");
    CVariant [CEmpty (bs "foo_tag"); CText]])
  = Some (GSeq [GName (bs "int"); GName (bs "float"); GCont GString; GCont (GSeq [GName (bs "int"); GDynamic]); GType (bs "int"); GType (bs "nbdl::string");
    GString; GConst (CoInt 42); GMap [(bs "foo", GName (bs "int"))]; GMap []; GSeq []; GSeq [GConst (CoInt 42)]; GSeq [GName (bs "int"); GName (bs "float")]; GName (bs "foo_tag");
    GVar [GName (bs "foo_tag"); GString]]).
Proof. vm_compute. reflexivity. Qed.
(* all the fundamental types, and constants of both kinds *)
Example C85_names_ex :
  signed_text (bs "json") (CTuple (map CFund [FBool; FChar; FSChar; FUChar; FShort; FUShort; FInt; FUInt; FLong; FULong; FLongLong; FULongLong; FFloat; FDouble])) =
    Some (bs "const char *nbdl::detail::api_signature_helper(T...) [T = <nbdl::_b::tag::ct_string<'j', 's', 'o', 'n'>, nbdl::_b::tag::sequence<bool, char, signed char, unsigned char, short, unsigned short, int, unsigned int, long, unsigned long, long long, unsigned long long, float, double>>]").
Proof. vm_compute. reflexivity. Qed.
Example C85_text_ex :
  signed_text (bs "json") (CMap [(bs "it's", CCont Vector (CFund FUInt))]) =
    Some (bs "const char *nbdl::detail::api_signature_helper(T...) [T = <nbdl::_b::tag::ct_string<'j', 's', 'o', 'n'>, nbdl::_b::tag::map<nbdl::_b::tag::map_node<nbdl::_b::tag::ct_string<'i', 't', '\'', 's'>, nbdl::_b::tag::container<unsigned int>>>>]") /\
  Alike (CCont Vector (CPair (CFund FInt) CString)) (CCont List (CTuple [CFund FInt; CCont Vector (CFund FChar)])) /\
  ~ Alike (CFund FInt) (CFund FUInt) /\ named (CMap [(bs "it's", CCont Vector (CEmpty (bs "foo")))]).
Proof.
  split; [vm_compute; reflexivity|]. split; [|split].
  - apply A_cont; try (intros B; inversion B as [|? C]; destruct C as [C|[C|[C|[]]]]; discriminate C); try (intros ? B; inversion B).
    eapply A_seq; [constructor|constructor|]. constructor; [constructor|]. constructor; [|constructor]. apply A_bytes; constructor. left. reflexivity.
  - intros A. inversion A; subst; try (match goal with H : Bytes _ |- _ => inversion H end); try (match goal with H : FixedBytes _ _ |- _ => inversion H end); match goal with H : Sequence _ _ |- _ => inversion H end.
  - assert (P : forall u, Part u (CMap [(bs "it's", CCont Vector (CEmpty (bs "foo")))]) ->
      u = CMap [(bs "it's", CCont Vector (CEmpty (bs "foo")))] \/ u = CCont Vector (CEmpty (bs "foo")) \/ u = CEmpty (bs "foo")).
    { intros u H. inversion H as [| | | | | |k t l I H1| |]; subst; auto. destruct I as [I|[]]. injection I as <- <-. inversion H1 as [| | | | | | | |k t H2]; subst; auto. inversion H2; auto. }
    refine (conj _ (conj _ (conj _ _))).
    + intros n H. destruct (P _ H) as [E|[E|E]]; try discriminate E. injection E as ->. split; [|split].
      * split; [discriminate|]. split; [exact (bs_bytes "foo")|]. apply plain_bs. vm_compute. reflexivity.
      * intros r E. discriminate E.
      * intros f. destruct f; discriminate.
    + intros n H. destruct (P _ H) as [E|[E|E]]; discriminate E.
    + intros n H. destruct (P _ H) as [E|[E|E]]; discriminate E.
    + intros l H. destruct (P _ H) as [E|[E|E]]; try discriminate E. injection E as ->. intros k u [I|[]]. injection I as <- <-. exact (bs_bytes "it's").
Qed.
Example C85_exists_ex : api_signature (bs "json") (CEntity (bs "person") [(bs "name", CText)]) = None /\ shape_of (CEntity (bs "person") [(bs "name", CText)]) = Some (SMap [(bs "name", SString)]) /\
  api_signature (bs "json") (CMap [(bs "name", CText)]) <> None.
Proof. split; [reflexivity|]. split; [reflexivity|]. vm_compute. discriminate. Qed.

(* C86: what a program writes as JSON for a value of its type is read as the same value by a program that has another type with the same signature,
   if the same text was signed and the buffers of fixed size have the same sizes in both (numbers that fit and the like: writable, as in C43).
   Full statement: whenever the signatures are the same.  It is false, see below. *)
Theorem C86_read_partial integral_of double_of f t u m s s' v : all_bytes f -> named t -> named u ->
  signed_text f t = Some m -> signed_text f u = Some m -> sizes t = sizes u -> shape_of t = Some s -> shape_of u = Some s' -> writable s v ->
  exists j, write s v = Ok j /\ read integral_of double_of s' j (default s') = Ok (Some v).
Proof.
  intros Bf Nt Nu E E' Z S S' W. destruct (proj1 (same_text f f t u m m Bf Bf Nt Nu E E') eq_refl) as [_ A].
  pose proof (alike_shape t u A s s' Z S S') as <-. apply C43_round_trip_partial. exact W.
Qed.
Print Assumptions C86_read_partial.

(* C86: and a program in a browser reads it as the same value, and is understood *)
Theorem C86_browser_partial lenient other_number like_bytes integral_of double_of f t u m s s' v old : all_bytes f -> named t -> named u ->
  signed_text f t = Some m -> signed_text f u = Some m -> sizes t = sizes u -> shape_of t = Some s -> shape_of u = Some s' -> js_writable_as well_formed s v ->
  (js_writable s v -> filled s v -> JsonSpec.proper s -> has_shape s' old ->
    exists j, write s v = Ok j /\ bind_from lenient other_number like_bytes s' (from_document lenient j) old = Ok (Some v)) /\
  (small s v -> exists j, bind_to lenient s v = Ok j /\ read integral_of double_of s' (to_document j) (default s') = Ok (Some v)).
Proof.
  intros Bf Nt Nu E E' Z S S' W. destruct (proj1 (same_text f f t u m m Bf Bf Nt Nu E E') eq_refl) as [_ A].
  pose proof (alike_shape t u A s s' Z S S') as <-. split; intros.
  - now apply C75_to_browser_partial.
  - now apply C75_from_browser_partial.
Qed.
Print Assumptions C86_browser_partial.

(* buffers of any two sizes have the same signature; the identifier that one program writes the other reads as zeros, without an exception *)
Theorem C86_sizes_refuted :
  (forall f n m, api_signature f (CCont (Array n) (CFund FUChar)) = api_signature f (CCont (Array m) (CFund FUChar)) /\
                 api_signature f (CCont (Array n) (CFund FUChar)) = api_signature f CUid) /\
  exists v j, shape_of CUid = Some (SBuffer (Some 16%nat)) /\ writable (SBuffer (Some 16%nat)) v /\ write (SBuffer (Some 16%nat)) v = Ok j /\
    shape_of (CCont (Array 20) (CFund FUChar)) = Some (SBuffer (Some 20%nat)) /\
    forall io d, read io d (SBuffer (Some 20%nat)) j (default (SBuffer (Some 20%nat))) = Ok (Some (VBuffer (repeat 0 20))).
Proof.
  split; [intros; split; reflexivity|].
  exists (VBuffer [1; 2; 3; 4; 5; 6; 7; 8; 9; 10; 11; 12; 13; 14; 15; 16]). eexists. split; [reflexivity|]. split; [|split; [vm_compute; reflexivity|split; [reflexivity|]]].
  - cbn. repeat split; try lia; repeat constructor; unfold is_byte; lia.
  - intros io d. vm_compute. reflexivity.
Qed.
Print Assumptions C86_sizes_refuted.

(* a std::vector of pairs here, a std::list of tuples there *)
Example C86_read_ex : let t := CCont Vector (CPair (CFund FInt) CText) in let u := CCont List (CTuple [CFund FInt; CText]) in
  signed_text (bs "json") t = signed_text (bs "json") u /\ signed_text (bs "json") t <> None /\ sizes t = sizes u /\ shape_of t = Some (SCont (SSeq [SInt; SString])) /\
  shape_of u = Some (SCont (SSeq [SInt; SString])) /\
  write (SCont (SSeq [SInt; SString])) (VCont [VSeq [VInt 7; VString (bs "seven")]]) = Ok (JArray [JArray [JInt 7; JString (bs "seven")]]).
Proof. repeat split; try reflexivity. vm_compute. discriminate. Qed.

(* C86: which types the JSON binder can bind, and as what: numbers, texts, bytes, sequences, members by name, alternatives, containers *)
Theorem C86_bound_as t s : shape_of t = Some s <-> BoundAs t s.
Proof. apply shape_bound. Qed.
Print Assumptions C86_bound_as.
Example C86_bound_as_ex : BoundAs (CCont List (CEntity (bs "p") [(bs "a", CUid); (bs "b", CJust (CFund FInt))])) (SCont (SMap [(bs "a", SBuffer (Some 16%nat)); (bs "b", SSeq [SInt])]))
  /\ (forall n t s, ~ (char_type t \/ t = CFund FBool) -> ~ BoundAs (CCont (Array n) t) s) /\ forall s, ~ BoundAs (CFund FBool) s.
Proof.
  split; [apply C86_bound_as; reflexivity|]. split.
  - intros n t s H B. inversion B; tear; exfalso; auto.
  - intros s B. apply C86_bound_as in B. discriminate.
Qed.

(* C86: which numbers can be read for the integral types, and what is written for texts and for bytes *)
Theorem C86_leaves :
  (forall io d z, exists s, shape_of (CFund FInt) = Some s /\ write s (VInt z) = Ok (JInt z) /\ (read io d s (JInt z) (default s) = Ok (Some (VInt z)) <-> - 2 ^ 31 <= z < 2 ^ 31)%Z) /\
  (forall io d z, exists s, shape_of (CFund FUInt) = Some s /\ write s (VInt z) = Ok (JInt z) /\ (read io d s (JInt z) (default s) = Ok (Some (VInt z)) <-> 0 <= z < 2 ^ 32)%Z) /\
  (exists s, shape_of CText = Some s /\ forall x, write s (VString x) = Ok (JString x)) /\
  (forall t b, t = CString \/ t = CCont Vector (CFund FUChar) \/ t = CCont (Array (length b)) (CFund FUChar) \/ (t = CUid /\ length b = 16%nat) ->
     all_bytes b -> 4 * N.of_nat (length b) < 2 ^ 31 -> exists s x, shape_of t = Some s /\ write s (VBuffer b) = Ok (JString x) /\ IsEncoding b x).
Proof.
  split; [|split; [|split]].
  - intros io d z. eexists. split; [reflexivity|]. split; [reflexivity|]. cbn. unfold as_int. cbn.
    destruct ((-2147483648 <=? z) && (z <=? 2147483647))%Z eqn:E; split; try discriminate; try reflexivity; try lia.
  - intros io d z. eexists. split; [reflexivity|]. split; [reflexivity|]. cbn. unfold as_uint. cbn.
    destruct ((0 <=? z) && (z <=? 4294967295))%Z eqn:E; split; try discriminate; try reflexivity; try lia.
  - eexists. split; [reflexivity|]. reflexivity.
  - intros t b Ht B L. destruct (C02_base64_encode_is_rfc4648 b B L) as (x & E & X & _).
    assert (W : forall n, write (SBuffer n) (VBuffer b) = Ok (JString x)) by (intros n; cbn; unfold encode_or; rewrite E; reflexivity).
    destruct Ht as [ ->|[ ->|[ ->|[ -> _]]]]; eexists; exists x; (split; [reflexivity|]); split; auto.
Qed.
Print Assumptions C86_leaves.
Example C86_leaves_ex : forall io d, read io d SUInt (JInt 3000000000) (default SUInt) = Ok (Some (VInt 3000000000)) /\ read io d SInt (JInt 3000000000) (default SInt) <> Ok (Some (VInt 3000000000)) /\
  write SString (VString (bs "Ma")) = Ok (JString (bs "Ma")) /\ write (SBuffer None) (VBuffer (bs "Ma")) = Ok (JString (bs "TWE=")).
Proof. intros. split; [reflexivity|]. split; [discriminate|]. split; reflexivity. Qed.
