(* C43 JSON round trips; C44 reading any document. *)
From Coq Require Import String.
From Verif Require Import Base Base64Model Base64Spec Base64Proofs Base64Props JsonModel JsonSpec JsonProofs.
Open Scope N_scope.

Section Props.
Variable integral_of : N -> option Z.
Variable double_of : Z -> N.

(* What is written for a value whose numbers fit, whose strings have no NUL, whose containers are not empty and whose member
   names are distinct is read back into a new object as the same value.
   Full statement: for every value of the shape.  It is false, see below. *)
Theorem C43_round_trip_partial : forall s v, writable s v ->
  exists j, write s v = Ok j /\ read integral_of double_of s j (default s) = Ok (Some v).
Proof. intros s v W. exact (round_trip integral_of double_of s v W). Qed.

(* two values that are written alike are the same *)
Theorem C43_injective_partial : forall s v w j, writable s v -> writable s w -> write s v = Ok j -> write s w = Ok j -> v = w.
Proof.
  intros s v w j Wv Ww Ev Ew. destruct (round_trip integral_of double_of s v Wv) as (j1 & E1 & R1).
  destruct (round_trip integral_of double_of s w Ww) as (j2 & E2 & R2). congruence.
Qed.

(* The conditions are exact: of the values of a type whose member names are distinct and whose variants an int can number, those
   and no others come back as what they were. *)
Theorem C43_exact : forall s v, sensible s -> has_shape s v -> bytes_in v ->
  ((exists j, write s v = Ok j /\ read integral_of double_of s j (default s) = Ok (Some v)) <-> writable s v).
Proof.
  intros s v Sn Sh B. split; [|exact (C43_round_trip_partial s v)]. intros (j & E & R). exact (round_trip_only integral_of double_of s Sn v j Sh B E R).
Qed.

(* Whatever the document: reading stays inside it and either throws, or gives a value of the type that the document stands
   for; it throws only if there is no such value.  Text in place of a buffer counts as standing for any bytes when it is not
   the base64 form of a buffer of that size; the statement without that is false, see below. *)
Theorem C44_read_partial : forall s j old, proper s -> doc_ok j -> has_shape s old ->
  match read integral_of double_of s j old with
  | Ok (Some v) => Reads integral_of double_of buffer_any s j old v /\ has_shape s v
  | Ok None => forall v, ~ Reads integral_of double_of buffer_any s j old v
  | UB => False
  end.
Proof. intros s j old Hp Hd Hs. exact (read_sound integral_of double_of s Hp j old Hd Hs). Qed.

(* a shape without buffers *)
Fixpoint bufferless (s : shape) : Prop :=
  match s with
  | SBuffer _ => False
  | SSeq l | SVar l => (fix go l := match l with [] => True | s :: r => bufferless s /\ go r end) l
  | SMap l => (fix go l := match l with [] => True | ns :: r => bufferless (snd ns) /\ go r end) l
  | SCont s => bufferless s
  | _ => True
  end.

Scheme reads_ind := Induction for Reads Sort Prop
  with members_ind := Induction for Members Sort Prop
  with fields_ind := Induction for Fields Sort Prop
  with elements_ind := Induction for Elements Sort Prop.

Lemma reads_bufferless B B' s j o v : Reads integral_of double_of B s j o v -> bufferless s -> Reads integral_of double_of B' s j o v.
Proof.
  intros R. induction R using reads_ind with
    (P0 := fun l js os vs _ => (fix go l := match l with [] => True | s :: r => bufferless s /\ go r end) l -> Members integral_of double_of B' l js os vs)
    (P1 := fun l j os vs _ => (fix go l := match l with [] => True | ns :: r => bufferless (snd ns) /\ go r end) l -> Fields integral_of double_of B' l j os vs)
    (P2 := fun s js vs _ => bufferless s -> Elements integral_of double_of B' s js vs); intros HB; try (econstructor; eauto; fail); try contradiction.
  - econstructor; eauto. apply IHR. cbn in HB. clear - HB e. revert i e. induction l as [|a l IH]; intros [|i] E; cbn in *; try discriminate.
    + injection E as ->. tauto. + eapply IH; [tauto|exact E].
  - destruct HB. constructor; auto.
  - destruct HB. constructor; auto.
  - destruct HB. econstructor; eauto.
Qed.

(* without buffers there is nothing to add: reading gives what the document stands for or throws *)
Theorem C44_bufferless : forall s j old, proper s -> bufferless s -> doc_ok j -> has_shape s old ->
  (forall v, read integral_of double_of s j old = Ok (Some v) -> Reads integral_of double_of buffer_good s j old v) /\
  ((forall v, ~ Reads integral_of double_of buffer_good s j old v) -> read integral_of double_of s j old = Ok None).
Proof.
  intros s j old Hp HB Hd Hs. pose proof (C44_read_partial s j old Hp Hd Hs) as T. split.
  - intros v E. rewrite E in T. eapply reads_bufferless; [apply T|exact HB].
  - intros N. destruct (read integral_of double_of s j old) as [[v|]|]; [|reflexivity|contradiction].
    destruct T as [T _]. exfalso. eapply N. eapply reads_bufferless; eauto.
Qed.

(* a type id that no alternative has leaves the variant as it was: unresolved, if it is new *)
Theorem C44_unknown_variant : forall l j old z, l <> [] -> (z < 0 \/ Z.of_nat (length l) <= z)%Z ->
  (IntNumber integral_of j z \/ exists t x, j = JArray [t; x] /\ IntNumber integral_of t z) ->
  read integral_of double_of (SVar l) j old = Ok (Some old).
Proof.
  intros l j old z _ Hz Hj. cbn [read].
  assert (variant_id integral_of j = Some z) as -> by (apply variant_id_iff; destruct Hj as [Hj|(t & x & -> & Hj)]; eauto).
  destruct (Z.leb_spec 0 z); destruct (Z.ltb_spec z (Z.of_nat (length l))); try reflexivity. lia.
Qed.
End Props.

(* Whether they come back or not, different values are written differently. *)
Theorem C43_injective : forall s v w j, sensible s -> has_shape s v -> has_shape s w -> bytes_in v -> bytes_in w -> write s v = Ok j -> write s w = Ok j -> v = w.
Proof. intros s v w j Sn Sv Sw Bv Bw Ev Ew. exact (write_apart s Sn v w j Sv Sw Bv Bw Ev Ew). Qed.
(* Every value is written, if its buffers are shorter than 2^29 bytes. *)
Theorem C43_written : forall s v, has_shape s v -> short_in v -> exists j, write s v = Ok j.
Proof. exact write_total. Qed.
Print Assumptions C43_exact.
Print Assumptions C43_injective.
Print Assumptions C43_written.
Print Assumptions C43_round_trip_partial.
Print Assumptions C43_injective_partial.
Print Assumptions C44_read_partial.
Print Assumptions C44_bufferless.
Print Assumptions C44_unknown_variant.

Definition none_integral (d : N) : option Z := None.
Definition zero_double (z : Z) : N := 0.
Notation rd0 := (read none_integral zero_double).

(* C43 is false in general: an empty container is written as null, which is not an array and does not read back; a string
   with a NUL is cut there; a negative enumerator throws *)
Theorem C43_empty_container_refuted : exists s v j, has_shape s v /\ write s v = Ok j /\ forall io d, read io d s j (default s) = Ok None.
Proof. exists (SCont SInt), (VCont []), JNull. repeat split. Qed.
Theorem C43_nul_refuted : exists s v j v', has_shape s v /\ write s v = Ok j /\ v <> v' /\ forall io d, read io d s j (default s) = Ok (Some v').
Proof. exists SString, (VString [97; 0; 98]), (JString [97; 0; 98]), (VString [97]). repeat split. discriminate. Qed.
Theorem C43_negative_enum_refuted : exists v j, has_shape SEnum v /\ write SEnum v = Ok j /\ forall io d, read io d SEnum j (default SEnum) = Ok None.
Proof. exists (VInt (-1)), (JInt (-1)). repeat split. Qed.
(* two members of one name: both are read as what was written last *)
Theorem C43_names_refuted : forall n x y, (-2 ^ 31 <= y < 2 ^ 31)%Z ->
  exists j, write (SMap [(n, SInt); (n, SInt)]) (VSeq [VInt x; VInt y]) = Ok j /\
    forall io d, read io d (SMap [(n, SInt); (n, SInt)]) j (default (SMap [(n, SInt); (n, SInt)])) = Ok (Some (VSeq [VInt y; VInt y])).
Proof.
  intros n x y H. eexists. cbn. rewrite bytes_eqb_refl. split; [reflexivity|]. intros io d. assert (E : as_int io (JInt y) = Some y) by (apply as_int_iff; split; [now left|exact H]).
  cbn -[as_int]. rewrite bytes_eqb_refl. cbn -[as_int]. rewrite E. reflexivity.
Qed.
Print Assumptions C43_names_refuted.
(* so different values are written alike *)
Theorem C43_injective_refuted : exists s v w j, has_shape s v /\ has_shape s w /\ v <> w /\ write s v = Ok j /\ write s w = Ok j.
Proof. exists (SMap [(bs "a", SInt); (bs "a", SInt)]), (VSeq [VInt 1; VInt 3]), (VSeq [VInt 2; VInt 3]). eexists. repeat split; discriminate. Qed.
Print Assumptions C43_injective_refuted.
(* an empty container among the members of an object: the whole object is lost; a value that fits is not *)
Definition ex_list := SMap [(bs "name", SString); (bs "items", SCont SInt)].
Example C43_ex_exact : sensible ex_list /\ has_shape ex_list (VSeq [VString (bs "x"); VCont []]) /\ bytes_in (VSeq [VString (bs "x"); VCont []]) /\
  ~ writable ex_list (VSeq [VString (bs "x"); VCont []]) /\ writable ex_list (VSeq [VString (bs "x"); VCont [VInt 1]]).
Proof.
  assert (D : NoDup [bs "name"; bs "items"]) by (repeat constructor; cbn; intuition discriminate).
  split; [split; [exact D|cbn; tauto]|]. split; [cbn; tauto|]. split; [cbn; tauto|]. split.
  - intros (_ & _ & (H & _) & _). now apply H.
  - split; [exact D|]. cbn. repeat split; try discriminate. intuition discriminate.
Qed.
(* and an object that is not new keeps the elements it has *)
Theorem C43_reused_object_refuted : exists s v old j, writable s v /\ has_shape s old /\ write s v = Ok j /\ forall io d, read io d s j old <> Ok (Some v).
Proof. exists (SCont SInt), (VCont [VInt 1]), (VCont [VInt 2]), (JArray [JInt 1]). cbn. repeat split; try discriminate; lia. Qed.

(* C44 is false for buffers: text that is not base64 is taken without an error *)
Theorem C44_bad_base64_refuted : exists n x old new, doc_ok (JString x) /\ has_shape (SBuffer n) (VBuffer old) /\
  (forall io d v, ~ Reads io d buffer_good (SBuffer n) (JString x) (VBuffer old) v) /\
  forall io d, read io d (SBuffer n) (JString x) (VBuffer old) = Ok (Some (VBuffer new)).
Proof.
  exists (Some 3%nat), (bs "****"%string), [7; 8; 9], [7; 8; 9]. split; [split; [|reflexivity]|].
  { repeat (constructor; [vm_compute; reflexivity|]). constructor. }
  split; [reflexivity|]. split; [|intros; vm_compute; reflexivity].
  intros io d v R. inversion R; subst. match goal with X : CString _ _ |- _ => apply CString_inj in X; subst end.
  match goal with X : buffer_good _ _ _ _ |- _ => destruct X as (W & _) end. apply validate_complete in W. vm_compute in W. discriminate.
Qed.
(* nor is every document read: with a text of 2^31/3 characters or more that 3*n of the decoder overflows *)
Lemma c_str_id s : ~ In 0 s -> c_str s = s.
Proof. induction s as [|c s IH]; intros H; [reflexivity|]. cbn. destruct (c =? 0) eqn:E; [apply N.eqb_eq in E; subst; destruct H; left; reflexivity|]. rewrite IH; [reflexivity|]. intros X. apply H. right. exact X. Qed.
Theorem C44_long : forall io d n x old, all_bytes x -> ~ In 0 x -> 2 ^ 31 <= 3 * N.of_nat (non_pad_count x) -> N.of_nat (non_pad_count x) < 2 ^ 31 ->
  read io d (SBuffer n) (JString x) (VBuffer old) = UB.
Proof. intros io d n x old Hb Hz L U. cbn [read]. rewrite (c_str_id x Hz), (C03_long x _ old Hb L U). reflexivity. Qed.
Theorem C44_long_refuted : ~ (forall io d n x old, all_bytes x -> has_shape (SBuffer n) (VBuffer old) -> read io d (SBuffer n) (JString x) (VBuffer old) <> UB).
Proof.
  intros H. assert (G : exists n, N.of_nat n = 715827883) by (exists (N.to_nat 715827883); apply N2Nat.id). destruct G as (n & Hn).
  apply (H (fun _ => None) (fun _ => 0) None (repeat 65 n) []); [apply all_bytes_repeat; reflexivity|exact I|].
  apply C44_long; [apply all_bytes_repeat; reflexivity|intros X; apply repeat_spec in X; discriminate| |]; rewrite non_pad_repeat, Hn; [discriminate|reflexivity].
Qed.
Print Assumptions C44_long.
Print Assumptions C44_long_refuted.

(* a new buffer then holds zeros *)
Theorem C44_bad_base64_zeros_refuted : exists x new, forall io d, ~ WellFormed x /\
  read io d (SBuffer None) (JString x) (VBuffer []) = Ok (Some (VBuffer new)) /\ new <> [].
Proof.
  exists (bs "****"%string), [0; 0; 0]. intros io d. split; [|split; [vm_compute; reflexivity|discriminate]].
  intros W. apply validate_complete in W. vm_compute in W. discriminate.
Qed.
Print Assumptions C43_empty_container_refuted.
Print Assumptions C43_nul_refuted.
Print Assumptions C43_negative_enum_refuted.
Print Assumptions C43_reused_object_refuted.
Print Assumptions C44_bad_base64_refuted.
Print Assumptions C44_bad_base64_zeros_refuted.

Definition ex_shape := SMap [(bs "id"%string, SInt); (bs "key"%string, SBuffer (Some 2%nat));
                            (bs "list"%string, SCont (SVar [SEmpty; SSeq [SUInt; SEmpty; SString]; SSeq [SEnum]]))].
Definition ex_value := VSeq [VInt (-5); VBuffer [1; 255]; VCont [VVar 1 (VSeq [VInt 7; VEmpty; VString (bs "x"%string)]); VVar 0 VEmpty; VVar 2 (VSeq [VInt 3])]].

Example C43_ex : writable ex_shape ex_value /\
  write ex_shape ex_value = Ok (JObject [(bs "id"%string, JInt (-5)); (bs "key"%string, JString (bs "Af8="%string));
    (bs "list"%string, JArray [JArray [JInt 1; JArray [JInt 7; JString (bs "x"%string)]]; JInt 0; JArray [JInt 2; JInt 3]])]) /\
  rd0 ex_shape (JObject [(bs "more"%string, JNull); (bs "list"%string, JArray [JInt 0; JInt 9]); (bs "key"%string, JString (bs "Af8="%string)); (bs "id"%string, JInt 4)]) (default ex_shape)
  = Ok (Some (VSeq [VInt 4; VBuffer [1; 255]; VCont [VVar 0 VEmpty; VVar 0 VEmpty]])).
Proof.
  split; [|split; vm_compute; reflexivity]. cbn. repeat split; try lia; try discriminate.
  - repeat constructor; cbn; intuition discriminate.
  - repeat constructor.
Qed.

Example C44_ex : rd0 ex_shape (JObject [(bs "id"%string, JInt (2 ^ 31)); (bs "key"%string, JString []); (bs "list"%string, JArray [])]) (default ex_shape) = Ok None /\
  rd0 (SSeq [SInt; SInt]) (JArray [JInt 1]) (default (SSeq [SInt; SInt])) = Ok None /\ rd0 (SSeq [SInt]) (JArray [JInt 1]) (default (SSeq [SInt])) = Ok None /\
  rd0 (SVar [SEmpty; SInt]) (JInt 1) (default (SVar [SEmpty; SInt])) = Ok None.
Proof. vm_compute. repeat split. Qed.
