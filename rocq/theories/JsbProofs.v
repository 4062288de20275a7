From Coq Require Import String.
From Verif Require Import Base Base64Model Base64Spec Base64Proofs JsonModel JsonSpec JsonProofs JsbModel JsbSpec.
Open Scope N_scope.

(* ---- text ---- *)
Lemma decode_char c r : scalar c -> utf8_decode (utf8_char c ++ r) = option_map (app (utf16_char c)) (utf8_decode r).
Proof.
  intros [Hc Hs]. unfold utf8_char. destruct (N.ltb_spec c 128) as [H1|H1].
  { cbn [app utf8_decode]. assert ((c <? 128) = true) as -> by lia. unfold utf16_char. assert ((c <? 65536) = true) as -> by lia. reflexivity. }
  destruct (N.ltb_spec c 2048) as [H2|H2].
  { cbn [app utf8_decode]. assert ((192 + c / 64 <? 128) = false) as -> by lia.
    unfold continues. assert (((194 <=? 192 + c / 64) && (192 + c / 64 <? 224) && ((128 <=? 128 + c mod 64) && (128 + c mod 64 <? 192))) = true) as -> by lia.
    assert ((192 + c / 64 - 192) * 64 + (128 + c mod 64 - 128) = c) as -> by lia. reflexivity. }
  destruct (N.ltb_spec c 65536) as [H3|H3].
  { cbn [app utf8_decode]. assert ((224 + c / 4096 <? 128) = false) as -> by lia.
    assert (((194 <=? 224 + c / 4096) && (224 + c / 4096 <? 224) && continues (128 + c / 64 mod 64)) = false) as -> by lia.
    assert ((224 + c / 4096 - 224) * 4096 + (128 + c / 64 mod 64 - 128) * 64 + (128 + c mod 64 - 128) = c) as -> by lia.
    unfold continues. match goal with |- (if ?b then _ else _) = _ => assert (b = true) as -> by lia end. reflexivity. }
  cbn [app utf8_decode]. assert ((240 + c / 262144 <? 128) = false) as -> by lia.
  assert (((194 <=? 240 + c / 262144) && (240 + c / 262144 <? 224) && continues (128 + c / 4096 mod 64)) = false) as -> by lia.
  match goal with |- (if ?b then _ else _) = _ => assert (b = false) as -> end.
  { assert ((240 + c / 262144 <? 240) = false) as -> by lia. now rewrite andb_false_r. }
  assert ((240 + c / 262144 - 240) * 262144 + (128 + c / 4096 mod 64 - 128) * 4096 + (128 + c / 64 mod 64 - 128) * 64 + (128 + c mod 64 - 128) = c) as -> by lia.
  unfold continues. match goal with |- (if ?b then _ else _) = _ => assert (b = true) as -> by lia end. reflexivity.
Qed.

Lemma decode_utf8 l : Forall scalar l -> utf8_decode (utf8 l) = Some (utf16 l).
Proof.
  induction 1 as [|c l Hc Hl IH]; [reflexivity|]. unfold utf8, utf16 in *. cbn [flat_map]. rewrite decode_char by exact Hc. rewrite IH. reflexivity.
Qed.

Lemma decode_ascii x : ascii x -> utf8_decode x = Some x.
Proof. induction 1 as [|c x Hc Hx IH]; [reflexivity|]. cbn [utf8_decode]. assert ((c <? 128) = true) as -> by lia. now rewrite IH. Qed.

Lemma ascii_no_nul x : ascii x -> ~ In 0 x.
Proof. intros H HI. eapply Forall_forall in H; [|exact HI]. lia. Qed.

Lemma encode_ascii x : ascii x -> utf8_encode x = x.
Proof.
  induction 1 as [|c x Hc Hx IH]; [reflexivity|]. cbn [utf8_encode]. unfold utf8_char. assert ((c <? 128) = true) as -> by lia.
  destruct x as [|d x]; [reflexivity|]. assert (((55296 <=? c) && (c <? 56320) && (56320 <=? d) && (d <? 57344)) = false) as -> by lia. now rewrite IH.
Qed.

Lemma to_ascii_ascii x : ascii x -> string_to_ascii x = x.
Proof. induction 1 as [|c x Hc Hx IH]; [reflexivity|]. cbn. fold (string_to_ascii x). rewrite IH. f_equal. lia. Qed.

Lemma utf16_length c : scalar c -> (length (utf16_char c) <= length (utf8_char c) /\ ((128 <= c)%N -> length (utf16_char c) < length (utf8_char c)))%nat.
Proof.
  intros [Hc _]. unfold utf16_char, utf8_char. destruct (N.ltb_spec c 128), (N.ltb_spec c 2048), (N.ltb_spec c 65536); cbn; lia.
Qed.

Lemma utf16_shorter l : Forall scalar l -> (length (utf16 l) <= length (utf8 l) /\ (length (utf16 l) = length (utf8 l) -> Forall (fun c => (c < 128)%N) l))%nat.
Proof.
  induction 1 as [|c l Hc Hl [IH1 IH2]]; [split; [cbn; lia|constructor]|]. unfold utf16, utf8 in *. cbn [flat_map]. rewrite !app_length.
  destruct (utf16_length c Hc) as [L1 L2]. split; [lia|]. intros E. destruct (N.ltb_spec c 128); [constructor; [lia|apply IH2; lia]|]. specialize (L2 H). lia.
Qed.

Lemma utf8_ascii l : Forall scalar l -> Forall (fun c => c < 128) l -> utf8 l = l /\ ascii l.
Proof.
  induction 1 as [|c l Hc Hl IH]; intros H; [split; [reflexivity|constructor]|]. inversion H as [|? ? H1 H2]; subst. destruct (IH H2) as [E A].
  unfold utf8 in *. cbn [flat_map]. rewrite E. unfold utf8_char. assert ((c <? 128) = true) as -> by lia. split; [reflexivity|]. constructor; [|exact A]. destruct Hc. lia.
Qed.

Lemma no_nul_utf8 l : Forall scalar l -> ~ In 0 (utf8 l).
Proof.
  intros Hl HI. unfold utf8 in HI. apply in_flat_map in HI as (c & Hc & HI). pose proof (proj1 (Forall_forall _ _) Hl c Hc) as [H _].
  unfold utf8_char in HI. repeat match type of HI with context [if ?b then _ else _] => destruct b end; cbn [In] in HI; lia.
Qed.

(* any characters *)
Lemma low_ascii x : ascii x -> map (fun c => c mod 256) x = x.
Proof. apply to_ascii_ascii. Qed.
Lemma utf8_unique l x : Forall scalar l -> Utf8 l x -> x = utf8 l.
Proof.
  intros Hl H. induction H as [|c l x A H IH|a b l x A B C H IH|a b c l x A B C D H IH|a b c d l x A B C D F H IH]; [reflexivity|..];
    inversion Hl as [|? ? Hc Hl']; subst; unfold utf8 in *; cbn [flat_map]; rewrite <- (IH Hl'); unfold utf8_char.
  - destruct (N.ltb_spec c 128); [reflexivity|lia].
  - destruct (N.ltb_spec (a * 64 + b) 128); [lia|]. destruct (N.ltb_spec (a * 64 + b) 2048); [|lia]. cbn [app]. repeat f_equal; lia.
  - destruct (N.ltb_spec ((a * 64 + b) * 64 + c) 128); [lia|]. destruct (N.ltb_spec ((a * 64 + b) * 64 + c) 2048); [lia|].
    destruct (N.ltb_spec ((a * 64 + b) * 64 + c) 65536); [|lia]. cbn [app]. repeat f_equal; lia.
  - destruct (N.ltb_spec (((a * 64 + b) * 64 + c) * 64 + d) 128); [lia|]. destruct (N.ltb_spec (((a * 64 + b) * 64 + c) * 64 + d) 2048); [lia|].
    destruct (N.ltb_spec (((a * 64 + b) * 64 + c) * 64 + d) 65536); [lia|]. cbn [app]. repeat f_equal; lia.
Qed.
Lemma utf8_exists l : Forall scalar l -> Utf8 l (utf8 l).
Proof.
  induction 1 as [|c l [Hc _] _ IH]; [constructor|]. unfold utf8 in *. cbn [flat_map]. unfold utf8_char.
  destruct (N.ltb_spec c 128); [now constructor|]. destruct (N.ltb_spec c 2048); [|destruct (N.ltb_spec c 65536)]; cbn [app].
  - assert (E : c = c / 64 * 64 + c mod 64) by lia. rewrite E at 1. apply U8_2; auto; lia.
  - assert (E : c = (c / 4096 * 64 + c / 64 mod 64) * 64 + c mod 64) by lia. rewrite E at 1. apply U8_3; auto; lia.
  - assert (E : c = ((c / 262144 * 64 + c / 4096 mod 64) * 64 + c / 64 mod 64) * 64 + c mod 64) by lia. rewrite E at 1. apply U8_4; auto; lia.
Qed.
Lemma utf16_unique l u : Forall scalar l -> Utf16 l u -> u = utf16 l.
Proof.
  intros Hl H. induction H as [|c l x A H IH|a b l x A B H IH]; [reflexivity|..];
    inversion Hl as [|? ? Hc Hl']; subst; unfold utf16 in *; cbn [flat_map]; rewrite <- (IH Hl'); unfold utf16_char.
  - destruct (N.ltb_spec c 65536); [reflexivity|lia].
  - destruct (N.ltb_spec (65536 + a * 1024 + b) 65536); [lia|]. cbn [app]. repeat f_equal; lia.
Qed.
Lemma utf16_exists l : Forall scalar l -> Utf16 l (utf16 l).
Proof.
  induction 1 as [|c l [Hc _] _ IH]; [constructor|]. unfold utf16 in *. cbn [flat_map]. unfold utf16_char. destruct (N.ltb_spec c 65536); [now constructor|]. cbn [app].
  assert (E : c = 65536 + (c - 65536) / 1024 * 1024 + (c - 65536) mod 1024) by lia. rewrite E at 1. apply U16_2; auto; lia.
Qed.
Lemma encode_char c u : scalar c -> utf8_encode (utf16_char c ++ u) = utf8_char c ++ utf8_encode u.
Proof.
  intros [Hc Hs]. unfold utf16_char. destruct (N.ltb_spec c 65536); cbn [app utf8_encode].
  - destruct u as [|d u]; [cbn; now rewrite app_nil_r|]. assert (((55296 <=? c) && (c <? 56320) && (56320 <=? d) && (d <? 57344)) = false) as -> by lia. reflexivity.
  - match goal with |- (if ?b then _ else _) = _ => assert (b = true) as -> by lia end. f_equal. f_equal. lia.
Qed.
Lemma encode_utf16 l : Forall scalar l -> utf8_encode (utf16 l) = utf8 l.
Proof. induction 1 as [|c l Hc _ IH]; [reflexivity|]. unfold utf16, utf8 in *. cbn [flat_map]. now rewrite encode_char, IH. Qed.
Lemma ascii_utf8 x : ascii x -> Utf8 x x /\ Utf16 x x /\ Forall scalar x.
Proof. induction 1 as [|c x H _ (A & B & C)]; repeat split; constructor; auto; try lia. split; lia. Qed.
Lemma ascii_well_formed x : ascii x -> well_formed x.
Proof. intros H. exists x. split; now apply ascii_utf8. Qed.
Lemma well_formed_text x : well_formed x -> exists u, utf8_decode x = Some u /\ utf8_encode u = x /\ ~ In 0 x.
Proof.
  intros (l & Hl & U). apply utf8_unique in U as ->; [|exact Hl]. exists (utf16 l). rewrite decode_utf8, encode_utf16 by exact Hl. repeat split. now apply no_nul_utf8.
Qed.
Fixpoint garbled (v : value) : value :=
  match v with
  | VString x => VString (match utf8_decode x with Some u => string_to_ascii u | None => [] end)
  | VSeq l => VSeq (map garbled l)
  | VCont l => VCont (map garbled l)
  | VVar i v => VVar i (garbled v)
  | _ => v
  end.

(* ---- numbers ---- *)
Lemma wrap32_id z : (-2 ^ 31 <= z < 2 ^ 31)%Z -> wrap32 z = z.
Proof. intros H. unfold wrap32. destruct (Z.ltb_spec (z mod 4294967296) 2147483648); lia. Qed.
Lemma wrap32_mod z : (wrap32 z mod 4294967296 = z mod 4294967296)%Z.
Proof. unfold wrap32. destruct (Z.ltb_spec (z mod 4294967296) 2147483648); lia. Qed.
Lemma wrap32_range z : (-2 ^ 31 <= wrap32 z < 2 ^ 31)%Z.
Proof. unfold wrap32. destruct (Z.ltb_spec (z mod 4294967296) 2147483648); lia. Qed.
Lemma wrap32_cases z : (0 <= z < 2 ^ 32)%Z -> (wrap32 z = z \/ wrap32 z = z - 2 ^ 32)%Z.
Proof. intros H. unfold wrap32. destruct (Z.ltb_spec (z mod 4294967296) 2147483648); lia. Qed.

(* ---- base64 text is ASCII ---- *)
Lemma encoding_ascii b x : IsEncoding b x -> ascii x.
Proof.
  intros (ds & z & p & Hd & _ & _ & _ & -> & _). apply Forall_app. split.
  - apply Forall_map. eapply Forall_impl; [|exact Hd]. cbn. intros d H. unfold digit_char. repeat match goal with |- context [if ?b then _ else _] => destruct b eqn:? end; lia.
  - apply Forall_forall. intros c H. apply repeat_spec in H as ->. unfold pad_char. lia.
Qed.

Lemma encode_exists b : all_bytes b -> 4 * N.of_nat (length b) < 2 ^ 31 -> exists x, base64_encode b = Ok x /\ IsEncoding b x.
Proof.
  intros Hb Hl. destruct (base64_round_trip b Hb Hl) as (s & E & _). exists s. split; [exact E|]. eapply encode_is_encoding; eauto.
Qed.

Lemma decode_encoding n b x old : all_bytes b -> 4 * N.of_nat (length b) < 2 ^ 31 -> match n with Some k => length b = k | None => True end -> IsEncoding b x ->
  match n with Some k => length old = k | None => True end ->
  exists ok, base64_decode2 (match n with Some _ => Fixed | None => Dynamic end) x old = Ok (ok, b).
Proof.
  intros Hb Hl Hn HE Ho. destruct (base64_round_trip b Hb Hl) as (s & E & _ & D & F).
  assert (s = x) as -> by (eapply encoding_unique; [eapply encode_is_encoding; eauto|exact HE]). exists true. destruct n as [k|]; [apply F; congruence|apply D].
Qed.

Section Js.
Variable lenient : list N -> list N.
Variable other_number : jsv -> Z.
Variable like_bytes : list (list N * jsv) -> option (list N).
Notation bto := (bind_to lenient).
Notation jsw := (js_writable_as well_formed).
Notation bfrom := (bind_from lenient other_number like_bytes).

Lemma text_ascii x : ascii x -> text_of lenient x = x.
Proof. intros H. unfold text_of. now rewrite decode_ascii. Qed.
Lemma to_string_ascii x : ascii x -> utf8_to_string lenient x = x.
Proof. intros H. unfold utf8_to_string. rewrite c_str_same by now apply ascii_no_nul. now apply text_ascii. Qed.

(* ---- reading what stands for a value ---- *)
Scheme Doc_mut := Induction for Doc Sort Prop
  with DMembers_mut := Induction for DMembers Sort Prop
  with DFields_mut := Induction for DFields Sort Prop
  with DElements_mut := Induction for DElements Sort Prop.
Combined Scheme Doc_all from Doc_mut, DMembers_mut, DFields_mut, DElements_mut.

Lemma shaped_seq l vs : has_shape (SSeq l) (VSeq vs) <-> all_shaped l vs. Proof. reflexivity. Qed.
Lemma shaped_map l vs : has_shape (SMap l) (VSeq vs) <-> all_named l vs. Proof. reflexivity. Qed.

Lemma prop_find n o : prop n o = match find (fun kv => bytes_eqb n (fst kv)) o with Some kv => snd kv | None => Undef end.
Proof. induction o as [|[k j] o IH]; cbn; [reflexivity|]. destruct (bytes_eqb n k); auto. Qed.

Lemma indices_arr js : forall pre, map (fun i => js_index i (Arr (pre ++ js))) (seq (length pre) (length js)) = map Some js.
Proof.
  induction js as [|x js IH]; intros pre; [reflexivity|]. cbn [length seq map]. f_equal.
  - cbn. now rewrite app_nth2, Nat.sub_diag by lia.
  - specialize (IH (pre ++ [x])). rewrite app_length, Nat.add_1_r, <- app_assoc in IH. exact IH.
Qed.

Lemma read_doc :
  (forall s v j, Doc s v j -> proper s -> forall old, has_shape s old -> bfrom s j old = Ok (Some v)) /\
  (forall l vs js, DMembers l vs js -> all_proper l -> length js = count_nonempty l /\ forall n j olds i, all_shaped l olds ->
     (forall k x, nth_error js k = Some x -> (if Nat.eqb n 1 then Some j else js_index (i + k) j) = Some x) ->
     from_members bfrom n j l olds i = Ok (Some vs)) /\
  (forall l vs o, DFields l vs o -> all_nproper l -> forall olds, all_named l olds -> from_fields lenient bfrom (Obj o) l olds = Ok (Some vs)) /\
  (forall s vs js, DElements s vs js -> proper s -> from_elements (fun x => bfrom s x (default s)) (map Some js) = Ok (Some vs)).
Proof.
  apply Doc_all.
  - intros z H _ old _. cbn. now rewrite wrap32_id.
  - intros z H _ old _. cbn. now rewrite wrap32_id.
  - intros z y H Hy _ old _. cbn [bind_from to_int32]. rewrite wrap32_mod. do 3 f_equal. lia.
  - intros u _ old _. reflexivity.
  - intros n b x Hb Hl Hn HE _ old Ho. cbn [bind_from from_string]. rewrite to_ascii_ascii by (eapply encoding_ascii; eauto).
    assert (exists c, old = VBuffer c /\ match n with Some k => length c = k | None => True end) as (c & -> & Hc).
    { destruct old, n; cbn in Ho; try contradiction; eauto. }
    destruct (decode_encoding n b x c Hb Hl Hn HE Hc) as (ok & ->). reflexivity.
  - intros j _ old Ho. destruct old; cbn in Ho; try contradiction. reflexivity.
  - intros l vs js j HM IH HW Hp old Ho. destruct old; cbn in Ho; try contradiction. destruct (IH Hp) as [L R]. cbn [bind_from].
    rewrite (R (count_nonempty l) j l0 0%nat Ho); [reflexivity|]. intros k x Hk. rewrite <- L.
    destruct js as [|a [|b js]]; cbn [length Nat.eqb].
    + destruct k; discriminate.
    + cbn in HW. subst j. destruct k as [|[|]]; cbn in Hk; congruence.
    + cbn in HW. subst j. cbn [plus js_index]. f_equal. now apply nth_error_nth.
  - intros l vs o j HF IH Hj Hp old Ho. destruct old; cbn in Ho; try contradiction. cbn [bind_from]. destruct l as [|[n s] l].
    + destruct l0; [|contradiction]. cbn. inversion HF. reflexivity.
    + rewrite Hj by discriminate. rewrite (IH Hp l0 Ho). reflexivity.
  - intros s vs js HL HE IH Hp old Ho. cbn [bind_from js_length]. rewrite wrap32_id by lia.
    assert ((Z.of_nat (length js) <? 0)%Z = false) as -> by lia. rewrite Nat2Z.id.
    pose proof (indices_arr js []) as X. cbn [app length] in X. rewrite X. rewrite (IH Hp). reflexivity.
  - intros l i Hi Hn Hp old Ho. cbn [bind_from]. unfold get_variant_type_id. cbn [to_int32]. rewrite wrap32_id by lia.
    assert (i < length l)%nat by (apply nth_error_Some; congruence).
    assert (negb ((0 <=? Z.of_nat i)%Z && (Z.of_nat i <? Z.of_nat (length l))%Z) = false) as -> by lia.
    rewrite Nat2Z.id, alternative_nth, Hn. reflexivity.
  - intros l i s v j Hi Hn Hs HD IH [_ Hp] old Ho. cbn [bind_from]. unfold get_variant_type_id. cbn [nth to_int32]. rewrite wrap32_id by lia.
    assert (i < length l)%nat by (apply nth_error_Some; congruence).
    assert (negb ((0 <=? Z.of_nat i)%Z && (Z.of_nat i <? Z.of_nat (length l))%Z) = false) as -> by lia.
    rewrite Nat2Z.id, alternative_nth, Hn. destruct (is_empty s) eqn:EM; [apply is_empty_iff in EM; contradiction|].
    pose proof (all_proper_nth l i s Hp Hn) as Hps. cbn [js_index nth]. rewrite (IH Hps (default s) (default_shape s Hps)). reflexivity.
  - intros _. split; [reflexivity|]. intros n j [|o olds] i Ho _; [reflexivity|contradiction].
  - intros l vs js HM IH Hp. destruct Hp as [_ Hp]. destruct (IH Hp) as [L R]. split; [exact L|]. intros n j [|o olds] i Ho Hk; [contradiction|].
    cbn in Ho. destruct Ho as [Ho Hos]. destruct o; try contradiction. cbn [from_members is_empty]. fold (from_members bfrom n j). rewrite (R n j olds i Hos Hk). reflexivity.
  - intros s l v vs j js Hs HD IHD HM IH Hp. destruct Hp as [Hps Hp]. destruct (IH Hp) as [L R].
    assert (EM : is_empty s = false) by (destruct (is_empty s) eqn:EM; [apply is_empty_iff in EM; contradiction|reflexivity]).
    split; [unfold count_nonempty in *; cbn [filter length]; rewrite EM; cbn; now rewrite L|].
    intros n j0 [|o olds] i Ho Hk; [contradiction|]. cbn in Ho. destruct Ho as [Ho Hos]. cbn [from_members]. rewrite EM.
    pose proof (Hk 0%nat j eq_refl) as X. rewrite Nat.add_0_r in X. rewrite X. rewrite (IHD Hps o Ho). cbn [thenr]. fold (from_members bfrom n j0).
    rewrite (R n j0 olds (S i) Hos); [reflexivity|]. intros k x Hx. specialize (Hk (S k) x Hx). now rewrite Nat.add_succ_r in Hk.
  - intros o _ [|x olds] Ho; [reflexivity|contradiction].
  - intros n s l v vs j o Hn Hf HD IHD HF IH Hp. destruct Hp as [Hps Hp]. intros [|x olds] Ho; [contradiction|]. cbn in Ho. destruct Ho as [Ho Hos].
    cbn [from_fields js_member]. rewrite to_string_ascii by exact Hn. rewrite prop_find, Hf. cbn [snd]. rewrite (IHD Hps x Ho). cbn [thenr].
    fold (from_fields lenient bfrom (Obj o)). rewrite (IH Hp olds Hos). reflexivity.
  - intros s _. reflexivity.
  - intros s v vs j js HD IHD HE IH Hp. cbn [map from_elements]. rewrite (IHD Hp (default s) (default_shape s Hp)). cbn [thenr].
    fold (from_elements (fun x => bfrom s x (default s))). rewrite (IH Hp). reflexivity.
Qed.

(* ---- writing ---- *)
Lemma prop_set_fresh k j l : ~ In k (map fst l) -> prop_set k j l = l ++ [(k, j)].
Proof.
  induction l as [|[k' j'] l IH]; cbn; intros H; [reflexivity|]. destruct (bytes_eqb_spec k k') as [->|]; [tauto|]. rewrite IH by tauto. reflexivity.
Qed.
Lemma find_fresh {A} n (o : list (list N * A)) j post : ~ In n (map fst o) -> find (fun kv => bytes_eqb n (fst kv)) (o ++ (n, j) :: post) = Some (n, j).
Proof.
  induction o as [|[k x] o IH]; cbn; intros H; [now rewrite bytes_eqb_refl|]. destruct (bytes_eqb_spec n k) as [->|]; [tauto|]. apply IH. tauto.
Qed.

Definition writes (s : shape) : Prop := forall v, jsw s v -> exists j, bto s v = Ok j /\ Doc s (garbled v) j.

Lemma js_var_writable l i v : (fix go l i := match l, i with [], _ => False | s :: _, O => jsw s v | _ :: l', S i' => go l' i' end) l i ->
  exists s, nth_error l i = Some s /\ jsw s v.
Proof. revert i; induction l as [|s l IH]; intros [|i] H; cbn in *; try contradiction; eauto. Qed.

Lemma members_written l : Forall writes l -> forall vs, jsw (SSeq l) (VSeq vs) -> exists js, to_members bto l vs = Ok js /\ DMembers l (map garbled vs) js.
Proof.
  induction 1 as [|s l Hs Hl IH]; intros vs W; destruct vs as [|v vs]; try contradiction.
  - exists []. split; [reflexivity|constructor].
  - cbn in W. destruct W as [Wv Wvs]. destruct (IH vs Wvs) as (js & E & D). cbn [to_members]. fold (to_members bto). destruct (is_empty s) eqn:EM.
    + apply is_empty_iff in EM as ->. destruct v; cbn in Wv; try contradiction. exists js. split; [exact E|]. now constructor.
    + destruct (Hs v Wv) as (j & Ew & Dj). rewrite Ew. cbn [bind]. rewrite E. exists (j :: js). split; [reflexivity|].
      constructor; auto. intros ->. discriminate.
Qed.

Lemma fields_written l : Forall (fun ns => writes (snd ns)) l -> forall vs acc, NoDup (map fst acc ++ map fst l) -> Forall ascii (map fst l) ->
  (fix go l vs := match l, vs with [], [] => True | ns :: l', v :: vs' => jsw (snd ns) v /\ go l' vs' | _, _ => False end) l vs ->
  exists o, to_fields lenient bto l vs acc = Ok (acc ++ o) /\ map fst o = map fst l /\ forall post, DFields l (map garbled vs) (acc ++ o ++ post).
Proof.
  induction 1 as [|[n s] l Hs Hl IH]; intros vs acc ND HA W; destruct vs as [|v vs]; try contradiction.
  - exists []. rewrite app_nil_r. repeat split. intros. constructor.
  - destruct W as [Wv Wvs]. cbn [snd fst map] in *. inversion HA as [|? ? Hn HA']; subst. destruct (Hs v Wv) as (j & Ew & Dj).
    cbn [to_fields]. rewrite Ew. cbn [bind]. rewrite to_string_ascii by exact Hn.
    assert (NI : ~ In n (map fst acc)). { apply NoDup_remove_2 in ND. rewrite in_app_iff in ND. tauto. }
    rewrite prop_set_fresh by exact NI. fold (to_fields lenient bto).
    destruct (IH vs (acc ++ [(n, j)])) as (o & E & M & R); [rewrite map_app; cbn; rewrite <- app_assoc; exact ND|exact HA'|exact Wvs|].
    exists ((n, j) :: o). rewrite E, <- app_assoc. split; [reflexivity|]. split; [cbn; now rewrite M|]. intros post.
    specialize (R post). rewrite <- app_assoc in R. cbn [app] in R |- *. econstructor; eauto. now apply find_fresh.
Qed.

Lemma elements_written s : writes s -> forall vs, (fix go vs := match vs with [] => True | v :: vs' => jsw s v /\ go vs' end) vs ->
  exists js, to_elements (bto s) vs = Ok js /\ length js = length vs /\ DElements s (map garbled vs) js.
Proof.
  intros Hs. induction vs as [|v vs IH]; intros W; [exists []; repeat split; constructor|].
  destruct W as [Wv Wvs]. destruct (Hs v Wv) as (j & Ew & Dj). destruct (IH Wvs) as (js & E & L & D).
  exists (j :: js). cbn [to_elements]. rewrite Ew. cbn [bind]. fold (to_elements (bto s)). rewrite E. cbn [length]. rewrite L. repeat split. now constructor.
Qed.

Lemma wrapped_sequence js : Wrapped (to_sequence js) js.
Proof. destruct js as [|x [|y js]]; cbn; auto. Qed.

Lemma all_written s : writes s.
Proof.
  induction s using shape_ind'; intros v W; destruct v; cbn in W; try contradiction.
  - eexists. split; [reflexivity|]. cbn. rewrite wrap32_id by exact W. now constructor.
  - eexists. split; [reflexivity|]. cbn. constructor; [exact W|]. now apply wrap32_cases.
  - eexists. split; [reflexivity|]. cbn. rewrite wrap32_id by exact W. now constructor.
  - destruct (well_formed_text s W) as (u & D & _ & Z). eexists. split; [reflexivity|]. cbn. unfold utf8_to_string. rewrite c_str_same by exact Z. unfold text_of. rewrite D. apply D_string.
  - destruct W as (Hb & Hl & Hn). destruct (encode_exists b Hb Hl) as (x & Ex & HE). cbn [bind_to]. rewrite Ex. cbn [bind]. eexists. split; [reflexivity|].
    rewrite to_string_ascii by (eapply encoding_ascii; eauto). now constructor.
  - eexists. split; [reflexivity|]. constructor.
  - destruct (members_written l H l0 W) as (js & E & D). cbn [bind_to]. rewrite E. cbn [bind]. eexists. split; [reflexivity|].
    econstructor; [exact D|apply wrapped_sequence].
  - destruct W as (ND & HA & W). destruct (fields_written l H l0 [] ND HA W) as (o & E & M & R). cbn [bind_to]. rewrite E. cbn [bind app]. eexists. split; [reflexivity|].
    specialize (R []). cbn [app] in R. rewrite app_nil_r in R. econstructor; [exact R|auto].
  - destruct W as [HL W]. destruct (elements_written s IHs l W) as (js & E & L & D). cbn [bind_to]. rewrite E. cbn [bind]. eexists. split; [reflexivity|].
    constructor; [lia|exact D].
  - destruct W as [HL W]. apply js_var_writable in W as (s & Hs & W). rewrite Forall_forall in H. pose proof (H s (nth_error_In _ _ Hs) v W) as (j & Ew & D).
    assert (type_id < length l)%nat by (apply nth_error_Some; congruence). cbn [bind_to]. rewrite alternative_nth, Hs. rewrite wrap32_id by lia.
    destruct (is_empty s) eqn:EM.
    + apply is_empty_iff in EM as ->. destruct v; cbn in W; try contradiction. eexists. split; [reflexivity|]. constructor; [lia|exact Hs].
    + rewrite Ew. cbn [bind]. eexists. split; [reflexivity|]. econstructor; eauto; [lia|]. intros ->. discriminate.
Qed.

(* ---- what the JSON binder writes ---- *)
Notation fdoc := (from_document lenient).
Definition arrives (s : shape) : Prop := forall v, jsw s v -> filled s v -> exists j, write s v = Ok j /\ Doc s (garbled v) (fdoc j).

Lemma cpp_members l : Forall arrives l -> forall vs, jsw (SSeq l) (VSeq vs) -> filled (SSeq l) (VSeq vs) ->
  exists js, write_seq write l vs = Ok js /\ DMembers l (map garbled vs) (map fdoc js).
Proof.
  induction 1 as [|s l Hs Hl IH]; intros vs W F; destruct vs as [|v vs]; try contradiction.
  - exists []. split; [reflexivity|constructor].
  - cbn in W, F. destruct W as [Wv Wvs], F as [Fv Fvs]. destruct (IH vs Wvs Fvs) as (js & E & D). cbn [write_seq]. fold (write_seq write). destruct (is_empty s) eqn:EM.
    + apply is_empty_iff in EM as ->. destruct v; cbn in Wv; try contradiction. exists js. split; [exact E|]. now constructor.
    + destruct (Hs v Wv Fv) as (j & Ew & Dj). rewrite Ew. cbn [bind]. rewrite E. exists (j :: js). split; [reflexivity|].
      constructor; auto. intros ->. discriminate.
Qed.

Definition fdoc2 (kj : list N * json) := (text_of lenient (fst kj), fdoc (snd kj)).
Lemma cpp_fields l : Forall (fun ns => arrives (snd ns)) l -> forall vs acc, NoDup (map fst acc ++ map fst l) -> Forall ascii (map fst acc) -> Forall ascii (map fst l) ->
  (fix go l vs := match l, vs with [], [] => True | ns :: l', v :: vs' => jsw (snd ns) v /\ go l' vs' | _, _ => False end) l vs ->
  (fix go l vs := match l, vs with ns :: l', v :: vs' => filled (snd ns) v /\ go l' vs' | _, _ => True end) l vs ->
  exists o, write_map write l vs acc = Ok (acc ++ o) /\ map fst o = map fst l /\ forall post, DFields l (map garbled vs) (map fdoc2 (acc ++ o) ++ post).
Proof.
  induction 1 as [|[n s] l Hs Hl IH]; intros vs acc ND HC HA W F; destruct vs as [|v vs]; try contradiction.
  - exists []. rewrite app_nil_r. repeat split. intros. constructor.
  - destruct W as [Wv Wvs], F as [Fv Fvs]. cbn [snd fst map] in *. inversion HA as [|? ? Hn HA']; subst. destruct (Hs v Wv Fv) as (j & Ew & Dj).
    cbn [write_map]. rewrite Ew. cbn [bind].
    assert (NI : ~ In n (map fst acc)). { apply NoDup_remove_2 in ND. rewrite in_app_iff in ND. tauto. }
    rewrite obj_set_fresh by exact NI. fold (write_map write).
    destruct (IH vs (acc ++ [(n, j)])) as (o & E & M & R); [rewrite map_app; cbn; rewrite <- app_assoc; exact ND| |exact HA'|exact Wvs|exact Fvs|].
    { rewrite map_app. apply Forall_app. split; [exact HC|]. cbn. constructor; [exact Hn|constructor]. }
    exists ((n, j) :: o). rewrite E, <- app_assoc. split; [reflexivity|]. split; [cbn; now rewrite M|]. intros post.
    specialize (R post). rewrite <- app_assoc in R. cbn [app] in R |- *. econstructor; eauto.
    rewrite map_app, <- app_assoc. cbn [map app]. unfold fdoc2 at 2. cbn [fst snd]. rewrite text_ascii by exact Hn. apply find_fresh.
    intros HI. apply NI. rewrite map_map in HI. apply in_map_iff in HI as ([k x] & Hk & Hx). cbn in Hk.
    rewrite text_ascii in Hk by (eapply (proj1 (Forall_forall _ _) HC); change k with (fst (k, x)); now apply in_map). subst k. change n with (fst (n, x)). now apply in_map.
Qed.

Lemma cpp_elements s : arrives s -> forall vs, (fix go vs := match vs with [] => True | v :: vs' => jsw s v /\ go vs' end) vs ->
  (fix go vs := match vs with [] => True | v :: vs' => filled s v /\ go vs' end) vs ->
  exists js, write_cont (write s) vs = Ok js /\ length js = length vs /\ DElements s (map garbled vs) (map fdoc js).
Proof.
  intros Hs. induction vs as [|v vs IH]; intros W F; [exists []; repeat split; constructor|].
  destruct W as [Wv Wvs], F as [Fv Fvs]. destruct (Hs v Wv Fv) as (j & Ew & Dj). destruct (IH Wvs Fvs) as (js & E & L & D).
  exists (j :: js). cbn [write_cont]. rewrite Ew. cbn [bind]. fold (write_cont (write s)). rewrite E. cbn [length]. rewrite L. repeat split. cbn. now constructor.
Qed.

Lemma filled_alt l i v s : nth_error l i = Some s -> filled (SVar l) (VVar i v) -> filled s v.
Proof. revert i; induction l as [|a l IH]; intros [|i] E F; cbn in *; try discriminate; [injection E as ->; exact F|]. exact (IH i E F). Qed.

Lemma all_arrive s : arrives s.
Proof.
  induction s using shape_ind'; intros v W F; destruct v; cbn in W; try contradiction.
  - eexists. split; [reflexivity|]. now constructor.
  - eexists. split; [reflexivity|]. constructor; [exact W|now left].
  - eexists. split; [reflexivity|]. now constructor.
  - destruct (well_formed_text s W) as (u & D & _ & Z). eexists. split; [reflexivity|]. cbn. unfold text_of. rewrite D. apply D_string.
  - destruct W as (Hb & Hl & Hn). destruct (encode_exists b Hb Hl) as (x & Ex & HE). cbn [write]. unfold encode_or. rewrite Ex. cbn [bind]. eexists. split; [reflexivity|].
    cbn. rewrite text_ascii by (eapply encoding_ascii; eauto). now constructor.
  - eexists. split; [reflexivity|]. constructor.
  - destruct (cpp_members l H l0 W F) as (js & E & D). cbn [write]. rewrite E. cbn [bind]. eexists. split; [reflexivity|].
    econstructor; [exact D|]. destruct js as [|x [|y js]]; cbn; auto.
  - destruct W as (ND & HA & W). cbn in F. destruct (cpp_fields l H l0 [] ND (Forall_nil _) HA W F) as (o & E & M & R). cbn [write]. rewrite E. cbn [bind app]. eexists. split; [reflexivity|].
    specialize (R []). rewrite app_nil_r in R. cbn [app] in R. econstructor; [exact R|]. intros NE. destruct o as [|kx o]; [destruct l; [congruence|discriminate]|]. reflexivity.
  - destruct W as [HL W]. cbn in F. destruct F as [NE F]. destruct (cpp_elements s IHs l W F) as (js & E & L & D). cbn [write]. rewrite E. cbn [bind].
    exists (JArray js). split; [destruct js; [destruct l; [congruence|discriminate]|reflexivity]|]. cbn. constructor; [rewrite map_length; lia|exact D].
  - destruct W as [HL W]. apply js_var_writable in W as (s & Hs & W). rewrite Forall_forall in H.
    pose proof (H s (nth_error_In _ _ Hs) v W (filled_alt l type_id v s Hs F)) as (j & Ew & D).
    assert (type_id < length l)%nat by (apply nth_error_Some; congruence). cbn [write]. rewrite alternative_nth, Hs.
    destruct (is_empty s) eqn:EM.
    + apply is_empty_iff in EM as ->. destruct v; cbn in W; try contradiction. eexists. split; [reflexivity|]. constructor; [lia|exact Hs].
    + rewrite Ew. cbn [bind]. eexists. split; [reflexivity|]. cbn. econstructor; eauto; [lia|]. intros ->. discriminate.
Qed.

(* ---- exactly which values arrive ---- *)
Definition verdict {A} (P : Prop) (r : throws A) (v : A) : Prop := (r = Ok (Some v) /\ P) \/ (r = Ok None /\ ~ P).
Lemma verdict_cons {A B C} P Q (r : throws A) (r' : throws B) x y (f : A -> B -> C) : verdict P r x -> verdict Q r' y ->
  verdict (P /\ Q) (thenr r (fun a => thenr r' (fun b => Ok (Some (f a b))))) (f x y).
Proof. intros [(-> & HP)|(-> & HP)] [(-> & HQ)|(-> & HQ)]; cbn [thenr]; [left|right|right|right]; intuition. Qed.
Lemma verdict_map {A B} P Q (r : throws A) x (f : A -> B) : verdict P r x -> (P <-> Q) -> verdict Q (thenr r (fun a => Ok (Some (f a)))) (f x).
Proof. intros [(-> & HP)|(-> & HP)] I; cbn [thenr]; [left|right]; intuition. Qed.

Definition judged (s : shape) : Prop := forall v, jsw s v -> exists j, write s v = Ok j /\ forall old, proper s -> has_shape s old -> verdict (filled s v) (bfrom s (fdoc j) old) (garbled v).

Lemma judged_members l : Forall judged l -> forall vs, jsw (SSeq l) (VSeq vs) ->
  exists js, write_seq write l vs = Ok js /\ length js = count_nonempty l /\ forall n j olds i, all_proper l -> all_shaped l olds ->
    (forall k x, nth_error (map fdoc js) k = Some x -> (if Nat.eqb n 1 then Some j else js_index (i + k) j) = Some x) ->
    verdict (filled (SSeq l) (VSeq vs)) (from_members bfrom n j l olds i) (map garbled vs).
Proof.
  induction 1 as [|s l Hs Hl IH]; intros vs W; destruct vs as [|v vs]; try contradiction.
  - exists []. repeat split. intros n j [|o olds] i _ Ho _; [left; split; [reflexivity|exact I]|contradiction].
  - cbn in W. destruct W as [Wv Wvs]. destruct (IH vs Wvs) as (js & E & L & R). unfold count_nonempty in *. cbn [write_seq filter]. fold (write_seq write). destruct (is_empty s) eqn:EM.
    + exists js. split; [exact E|]. split; [exact L|]. intros n j [|o olds] i [_ Hp] Ho Hk; [contradiction|]. cbn in Ho. destruct Ho as [Ho Hos].
      apply is_empty_iff in EM as ->. destruct v; cbn in Wv; try contradiction. destruct o; try contradiction.
      cbn [from_members is_empty]. fold (from_members bfrom n j). cbn [map garbled]; eapply verdict_map; [exact (R n j olds i Hp Hos Hk)|]. cbn. tauto.
    + destruct (Hs v Wv) as (j0 & Ew & Er). rewrite Ew. cbn [bind]. rewrite E. cbn [bind]. exists (j0 :: js). split; [reflexivity|]. split; [cbn; now rewrite L|].
      intros n j [|o olds] i [Hps Hp] Ho Hk; [contradiction|]. cbn in Ho. destruct Ho as [Ho Hos]. cbn [from_members]. rewrite EM.
      pose proof (Hk 0%nat (fdoc j0) eq_refl) as X. rewrite Nat.add_0_r in X. rewrite X. fold (from_members bfrom n j).
      assert (Y : verdict (filled (SSeq l) (VSeq vs)) (from_members bfrom n j l olds (S i)) (map garbled vs)).
      { apply R; auto. intros k x Hx. specialize (Hk (S k) x Hx). now rewrite Nat.add_succ_r in Hk. }
      exact (verdict_cons _ _ _ _ _ _ cons (Er o Hps Ho) Y).
Qed.

Lemma judged_fields l : Forall (fun ns => judged (snd ns)) l -> forall vs acc, NoDup (map fst acc ++ map fst l) -> Forall ascii (map fst acc) -> Forall ascii (map fst l) ->
  (fix go l vs := match l, vs with [], [] => True | ns :: l', v :: vs' => jsw (snd ns) v /\ go l' vs' | _, _ => False end) l vs ->
  exists o, write_map write l vs acc = Ok (acc ++ o) /\ map fst o = map fst l /\ forall post olds, all_nproper l -> all_named l olds ->
    verdict ((fix go l vs := match l, vs with ns :: l', v :: vs' => filled (snd ns) v /\ go l' vs' | _, _ => True end) l vs)
      (from_fields lenient bfrom (Obj (map fdoc2 (acc ++ o) ++ post)) l olds) (map garbled vs).
Proof.
  induction 1 as [|[n s] l Hs Hl IH]; intros vs acc ND HC HA W; destruct vs as [|v vs]; try contradiction.
  - exists []. rewrite app_nil_r. repeat split. intros post [|o olds] _ Ho; [left; split; [reflexivity|exact I]|contradiction].
  - destruct W as [Wv Wvs]. cbn [snd fst map] in *. inversion HA as [|? ? Hn HA']; subst. destruct (Hs v Wv) as (j & Ew & Er).
    cbn [write_map]. rewrite Ew. cbn [bind].
    assert (NI : ~ In n (map fst acc)). { apply NoDup_remove_2 in ND. rewrite in_app_iff in ND. tauto. }
    rewrite obj_set_fresh by exact NI. fold (write_map write).
    destruct (IH vs (acc ++ [(n, j)])) as (o & E & M & R); [rewrite map_app; cbn; rewrite <- app_assoc; exact ND| |exact HA'|exact Wvs|].
    { rewrite map_app. apply Forall_app. split; [exact HC|]. cbn. constructor; [exact Hn|constructor]. }
    exists ((n, j) :: o). rewrite E, <- app_assoc. split; [reflexivity|]. split; [cbn; now rewrite M|]. intros post [|x olds] [Hps Hp] Ho; [contradiction|].
    cbn in Ho. destruct Ho as [Ho Hos]. specialize (R post olds Hp Hos). rewrite <- app_assoc in R. cbn [app] in R |- *.
    cbn [from_fields js_member]. rewrite to_string_ascii by exact Hn. rewrite prop_find.
    assert (find (fun kv => bytes_eqb n (fst kv)) (map fdoc2 (acc ++ (n, j) :: o) ++ post) = Some (n, fdoc j)) as ->.
    { rewrite map_app, <- app_assoc. cbn [map app]. unfold fdoc2 at 2. cbn [fst snd]. rewrite text_ascii by exact Hn. apply find_fresh.
      intros HI. apply NI. rewrite map_map in HI. apply in_map_iff in HI as ([k y] & Hk & Hx). cbn in Hk.
      rewrite text_ascii in Hk by (eapply (proj1 (Forall_forall _ _) HC); change k with (fst (k, y)); now apply in_map). subst k. change n with (fst (n, y)). now apply in_map. }
    fold (from_fields lenient bfrom (Obj (map fdoc2 (acc ++ (n, j) :: o) ++ post))). exact (verdict_cons _ _ _ _ _ _ cons (Er x Hps Ho) R).
Qed.

Lemma judged_elements s : judged s -> proper s -> forall vs, (fix go vs := match vs with [] => True | v :: vs' => jsw s v /\ go vs' end) vs ->
  exists js, write_cont (write s) vs = Ok js /\ length js = length vs /\
    verdict ((fix go vs := match vs with [] => True | v :: vs' => filled s v /\ go vs' end) vs) (from_elements (fun x => bfrom s x (default s)) (map Some (map fdoc js))) (map garbled vs).
Proof.
  intros Hs Hp. induction vs as [|v vs IH]; intros W; [exists []; repeat split; left; split; [reflexivity|exact I]|].
  destruct W as [Wv Wvs]. destruct (Hs v Wv) as (j & Ew & Er). destruct (IH Wvs) as (js & E & L & R).
  exists (j :: js). cbn [write_cont]. rewrite Ew. cbn [bind]. fold (write_cont (write s)). rewrite E. cbn [length]. rewrite L. repeat split.
  cbn [map from_elements]. fold (from_elements (fun x => bfrom s x (default s))). exact (verdict_cons _ _ _ _ _ _ cons (Er (default s) Hp (default_shape s Hp)) R).
Qed.
Lemma elements_sent s : judged s -> forall vs, (fix go vs := match vs with [] => True | v :: vs' => jsw s v /\ go vs' end) vs ->
  exists js, write_cont (write s) vs = Ok js.
Proof.
  intros Hs. induction vs as [|v vs IH]; intros W; [exists []; repeat split|].
  destruct W as [Wv Wvs]. destruct (Hs v Wv) as (j & Ew & Er). destruct (IH Wvs) as (js & E).
  exists (j :: js). cbn [write_cont]. rewrite Ew. cbn [bind]. fold (write_cont (write s)). now rewrite E.
Qed.

Lemma filled_alt_iff l i v s : nth_error l i = Some s -> (filled (SVar l) (VVar i v) <-> filled s v).
Proof. revert i; induction l as [|a l IH]; intros [|i] E; cbn in *; try discriminate; [injection E as ->; reflexivity|]. exact (IH i E). Qed.

Lemma all_judged s : judged s.
Proof.
  assert (V : forall s v, jsw s v -> filled s v -> exists j, write s v = Ok j /\ forall old, proper s -> has_shape s old -> verdict (filled s v) (bfrom s (fdoc j) old) (garbled v)).
  { intros s0 v W F. destruct (all_arrive s0 v W F) as (j & E & D). exists j. split; [exact E|]. intros old P H. left. split; [|exact F]. eapply (proj1 read_doc); eauto. }
  induction s using shape_ind'; intros v W; destruct v; cbn in W; try contradiction; try (apply V; [exact W|exact I]).
  - destruct (judged_members l H l0 W) as (js & E & L & R). cbn [write]. rewrite E. cbn [bind]. eexists. split; [reflexivity|].
    intros old P Ho. destruct old; cbn in Ho; try contradiction. cbn [bind_from]. cbn [map garbled]; eapply verdict_map; [|reflexivity].
    apply R; [exact P|exact Ho|]. intros k x Hk. rewrite <- L.
    destruct js as [|a [|b js]]; cbn [length Nat.eqb].
    + destruct k; discriminate.
    + destruct k as [|[|]]; cbn in Hk |- *; congruence.
    + cbn [plus bind_sequence_write]. cbn [from_document js_index]. f_equal. now apply nth_error_nth.
  - destruct W as (ND & HA & W). destruct (judged_fields l H l0 [] ND (Forall_nil _) HA W) as (o & E & M & R). cbn [write]. rewrite E. cbn [bind app]. eexists. split; [reflexivity|].
    intros old P Ho. destruct old; cbn in Ho; try contradiction. rename l1 into vs. cbn [bind_from]. specialize (R [] vs P Ho). rewrite app_nil_r in R. cbn [app] in R.
    cbn [map garbled]; eapply verdict_map; [|reflexivity]. destruct o as [|kx o]; [|exact R]. destruct l; [|discriminate M]. destruct vs; [|contradiction]. destruct l0; [|contradiction]. left. split; [reflexivity|exact I].
  - destruct W as [HL W]. destruct (elements_sent s IHs l W) as (js & E). cbn [write]. rewrite E. cbn [bind]. eexists. split; [reflexivity|]. intros old P Ho.
    destruct (judged_elements s IHs P l W) as (js' & E' & L & D). rewrite E in E'. injection E' as <-. cbn [filled bind_from]. destruct js as [|x js].
    + right. split; [reflexivity|]. intros [N _]. apply N. now destruct l.
    + cbn [from_document js_length]. rewrite map_length, L, wrap32_id by lia. assert ((Z.of_nat (length l) <? 0)%Z = false) as -> by lia. rewrite Nat2Z.id.
      pose proof (indices_arr (map fdoc (x :: js)) []) as X. rewrite map_length, L in X. cbn [app length] in X. rewrite X.
      cbn [map garbled]; eapply verdict_map; [exact D|]. split; [|tauto]. intros F. split; [|exact F]. intros ->. discriminate L.
  - destruct W as [HL W]. apply js_var_writable in W as (s & Hs & W). rewrite Forall_forall in H.
    pose proof (H s (nth_error_In _ _ Hs) v W) as (j & Ew & D).
    assert (type_id < length l)%nat by (apply nth_error_Some; congruence). cbn [write]. rewrite alternative_nth, Hs.
    destruct (is_empty s) eqn:EM.
    + eexists. split; [reflexivity|]. intros old [_ P] Ho. left. split.
      * cbn [bind_from from_document]. unfold get_variant_type_id. cbn [to_int32]. rewrite wrap32_id by lia.
        assert (negb ((0 <=? Z.of_nat type_id)%Z && (Z.of_nat type_id <? Z.of_nat (length l))%Z) = false) as -> by lia.
        rewrite Nat2Z.id, alternative_nth, Hs, EM. apply is_empty_iff in EM as ->. destruct v; cbn in W; try contradiction. reflexivity.
      * apply (filled_alt_iff l type_id v s Hs). apply is_empty_iff in EM as ->. destruct v; cbn in W; try contradiction. exact I.
    + rewrite Ew. cbn [bind]. eexists. split; [reflexivity|]. intros old [_ P] Ho. cbn [bind_from from_document map]. unfold get_variant_type_id. cbn [nth to_int32]. rewrite wrap32_id by lia.
      assert (negb ((0 <=? Z.of_nat type_id)%Z && (Z.of_nat type_id <? Z.of_nat (length l))%Z) = false) as -> by lia.
      rewrite Nat2Z.id, alternative_nth, Hs, EM. cbn [js_index nth]. pose proof (all_proper_nth l type_id s P Hs) as Hps.
      cbn [map garbled]; eapply verdict_map; [exact (D (default s) Hps (default_shape s Hps))|]. symmetry. now apply filled_alt_iff.
Qed.

(* ---- what the JSON binder reads ---- *)
Variable integral_of : N -> option Z.
Variable double_of : Z -> N.
Notation rd := (read integral_of double_of).
Definition understood (s : shape) : Prop := forall v, jsw s v -> small s v -> exists j, bto s v = Ok j /\ rd s (to_document j) (default s) = Ok (Some v).

Lemma sent_members l : Forall understood l -> forall vs, jsw (SSeq l) (VSeq vs) -> small (SSeq l) (VSeq vs) ->
  exists js, to_members bto l vs = Ok js /\ length js = count_nonempty l /\
    forall n j all i, (forall k x, nth_error (map to_document js) k = Some x -> (if Nat.eqb n 1 then Ok j else element all (i + k)) = Ok x) ->
      read_seq rd n j all l (map default l) i = Ok (Some vs).
Proof.
  induction 1 as [|s l Hs Hl IH]; intros vs W F; destruct vs as [|v vs]; try contradiction.
  - exists []. repeat split.
  - cbn in W, F. destruct W as [Wv Wvs], F as [Fv Fvs]. destruct (IH vs Wvs Fvs) as (js & E & L & R). unfold count_nonempty in *. cbn [to_members filter map read_seq].
    destruct (is_empty s) eqn:EM.
    + exists js. split; [exact E|]. split; [exact L|]. intros n j all i H. fold (read_seq rd n j all). rewrite (R n j all i H).
      apply is_empty_iff in EM as ->. destruct v; cbn in Wv; try contradiction. reflexivity.
    + destruct (Hs v Wv Fv) as (j0 & Ew & Er). fold (to_members bto). rewrite Ew. cbn [bind]. rewrite E. cbn [bind].
      exists (j0 :: js). split; [reflexivity|]. split; [cbn; now rewrite L|]. intros n j all i H.
      rewrite <- (Nat.add_0_r i) at 1. rewrite (H 0%nat (to_document j0) eq_refl). cbn [bind]. rewrite Er. cbn [thenr].
      fold (read_seq rd n j all). rewrite (R n j all (S i)); [reflexivity|]. intros k x Hk. specialize (H (S k) x Hk). now rewrite Nat.add_succ_r in H.
Qed.

Definition tdoc2 (kj : list N * jsv) := (utf8_encode (fst kj), to_document (snd kj)).
Lemma sent_fields l : Forall (fun ns => understood (snd ns)) l -> forall vs acc, NoDup (map fst acc ++ map fst l) -> Forall ascii (map fst acc) -> Forall ascii (map fst l) ->
  (fix go l vs := match l, vs with [], [] => True | ns :: l', v :: vs' => jsw (snd ns) v /\ go l' vs' | _, _ => False end) l vs ->
  (fix go l vs := match l, vs with ns :: l', v :: vs' => small (snd ns) v /\ go l' vs' | _, _ => True end) l vs ->
  exists o, to_fields lenient bto l vs acc = Ok (acc ++ o) /\ map fst o = map fst l /\
    forall post, read_map rd (JObject (map tdoc2 (acc ++ o) ++ post)) l (map (fun ns => default (snd ns)) l) = Ok (Some vs).
Proof.
  induction 1 as [|[n s] l Hs Hl IH]; intros vs acc ND HC HA W F; destruct vs as [|v vs]; try contradiction.
  - exists []. rewrite app_nil_r. repeat split.
  - destruct W as [Wv Wvs], F as [Fv Fvs]. cbn [snd fst map] in *. inversion HA as [|? ? Hn HA']; subst. destruct (Hs v Wv Fv) as (j & Ew & Er).
    cbn [to_fields]. rewrite Ew. cbn [bind]. rewrite to_string_ascii by exact Hn.
    assert (NI : ~ In n (map fst acc)). { apply NoDup_remove_2 in ND. rewrite in_app_iff in ND. tauto. }
    rewrite prop_set_fresh by exact NI. fold (to_fields lenient bto).
    destruct (IH vs (acc ++ [(n, j)])) as (o & E & M & R); [rewrite map_app; cbn; rewrite <- app_assoc; exact ND| |exact HA'|exact Wvs|exact Fvs|].
    { rewrite map_app. apply Forall_app. split; [exact HC|]. cbn. constructor; [exact Hn|constructor]. }
    exists ((n, j) :: o). rewrite E, <- app_assoc. split; [reflexivity|]. split; [cbn; now rewrite M|]. intros post.
    specialize (R post). rewrite <- app_assoc in R. cbn [app] in R |- *. cbn [read_map member].
    assert (lookup n (map tdoc2 (acc ++ (n, j) :: o) ++ post) = to_document j) as ->.
    { rewrite map_app, <- app_assoc. cbn [map app]. unfold tdoc2 at 2. cbn [fst snd]. rewrite encode_ascii by exact Hn. apply lookup_app.
      intros HI. apply NI. rewrite map_map in HI. apply in_map_iff in HI as ([k x] & Hk & Hx). cbn in Hk.
      rewrite encode_ascii in Hk by (eapply (proj1 (Forall_forall _ _) HC); change k with (fst (k, x)); now apply in_map). subst k. change n with (fst (n, x)). now apply in_map. }
    rewrite Er. cbn [thenr]. fold (read_map rd (JObject (map tdoc2 (acc ++ (n, j) :: o) ++ post))). rewrite R. reflexivity.
Qed.

Lemma sent_elements s : understood s -> forall vs, (fix go vs := match vs with [] => True | v :: vs' => jsw s v /\ go vs' end) vs ->
  (fix go vs := match vs with [] => True | v :: vs' => small s v /\ go vs' end) vs ->
  exists js, to_elements (bto s) vs = Ok js /\ read_cont (fun x => rd s x (default s)) (map to_document js) = Ok (Some vs).
Proof.
  intros Hs. induction vs as [|v vs IH]; intros W F; [exists []; repeat split|].
  destruct W as [Wv Wvs], F as [Fv Fvs]. destruct (Hs v Wv Fv) as (j & Ew & Er). destruct (IH Wvs Fvs) as (js & E & R).
  exists (j :: js). cbn [to_elements]. rewrite Ew. cbn [bind]. fold (to_elements (bto s)). rewrite E. split; [reflexivity|]. cbn [map read_cont].
  rewrite Er. cbn [thenr]. fold (read_cont (fun x => rd s x (default s))). rewrite R. reflexivity.
Qed.

Lemma small_alt l i v s : nth_error l i = Some s -> small (SVar l) (VVar i v) -> small s v.
Proof. revert i; induction l as [|a l IH]; intros [|i] E F; cbn in *; try discriminate; [injection E as ->; exact F|]. exact (IH i E F). Qed.

Lemma all_understood s : understood s.
Proof.
  induction s using shape_ind'; intros v W F; destruct v; cbn in W; try contradiction; cbn in F.
  - eexists. split; [reflexivity|]. rewrite wrap32_id by exact W. cbn [read to_document].
    assert (as_int integral_of (JInt z) = Some z) as -> by (apply as_int_iff; split; [now left|lia]). reflexivity.
  - eexists. split; [reflexivity|]. rewrite wrap32_id by lia. cbn [read to_document].
    assert (as_uint integral_of (JInt z) = Some z) as -> by (apply as_uint_iff; split; [now left|lia]). reflexivity.
  - eexists. split; [reflexivity|]. rewrite wrap32_id by lia. cbn [read to_document].
    assert (as_uint integral_of (JInt z) = Some z) as -> by (apply as_uint_iff; split; [now left|lia]).
    cbn [option_map]. unfold to_enum. destruct (Z.leb_spec z 2147483647); [reflexivity|lia].
  - eexists. split; [reflexivity|]. cbn [read to_document]. destruct (well_formed_text s W) as (u & D & E & Z). unfold utf8_to_string. rewrite (c_str_same s) by exact Z. unfold text_of. rewrite D, E, (c_str_same s) by exact Z. reflexivity.
  - destruct W as (Hb & Hl & Hn). destruct (encode_exists b Hb Hl) as (x & Ex & HE). cbn [bind_to]. rewrite Ex. cbn [bind]. eexists. split; [reflexivity|].
    pose proof (encoding_ascii b x HE) as HA. cbn [read to_document default]. rewrite to_string_ascii, encode_ascii by exact HA. rewrite c_str_same by now apply ascii_no_nul.
    destruct (decode_encoding n b x (match n with Some n => repeat 0 n | None => [] end) Hb Hl Hn HE) as (ok & ->); [destruct n; [apply repeat_length|exact I]|]. reflexivity.
  - eexists. split; reflexivity.
  - destruct (sent_members l H l0 W F) as (js & E & L & R). cbn [bind_to]. rewrite E. cbn [bind]. eexists. split; [reflexivity|].
    cbn [read default]. unfold elements. rewrite <- L. destruct js as [|x [|y js]]; cbn [length to_sequence].
    + rewrite (R 0%nat _ [] 0%nat); [reflexivity|]. intros [|k] z Hk; discriminate.
    + rewrite (R 1%nat _ [] 0%nat); [reflexivity|]. intros [|[|k]] z Hk; cbn in Hk |- *; congruence.
    + cbn [to_document map length]. rewrite map_length, Nat.eqb_refl. rewrite R; [reflexivity|].
      intros k z Hk. cbn [Nat.eqb plus]. unfold element. cbn [map] in Hk. now rewrite Hk.
  - destruct W as (ND & HA & W). destruct (sent_fields l H l0 [] ND (Forall_nil _) HA W F) as (o & E & M & R). cbn [bind_to]. rewrite E. cbn [bind app]. eexists. split; [reflexivity|].
    specialize (R []). rewrite app_nil_r in R. cbn [app] in R. cbn [read default to_document]. fold tdoc2. rewrite R. reflexivity.
  - destruct W as [HL W]. destruct (sent_elements s IHs l W F) as (js & E & R). cbn [bind_to]. rewrite E. cbn [bind]. eexists. split; [reflexivity|].
    cbn [read default to_document]. rewrite R. reflexivity.
  - destruct W as [HL W]. apply js_var_writable in W as (s & Hs & W). rewrite Forall_forall in H.
    pose proof (H s (nth_error_In _ _ Hs) v W (small_alt l type_id v s Hs F)) as (j & Ew & Er). cbn [bind_to]. rewrite alternative_nth, Hs.
    assert (HI : (type_id < length l)%nat) by (apply nth_error_Some; congruence). rewrite wrap32_id by lia.
    assert (N1 : as_int integral_of (JInt (Z.of_nat type_id)) = Some (Z.of_nat type_id)) by (apply as_int_iff; split; [now left|lia]).
    destruct (is_empty s) eqn:EM.
    + eexists. split; [reflexivity|]. cbn [read to_document]. unfold variant_id. cbn [integral]. rewrite N1.
      destruct (Z.leb_spec 0 (Z.of_nat type_id)); [|lia]. destruct (Z.ltb_spec (Z.of_nat type_id) (Z.of_nat (length l))); [|lia]. cbn [negb andb].
      rewrite Nat2Z.id, alternative_nth, Hs, EM. cbn [option_map]. apply is_empty_iff in EM as ->. destruct v; cbn in W; try contradiction. reflexivity.
    + rewrite Ew. cbn [bind]. eexists. split; [reflexivity|]. cbn [read to_document map]. unfold variant_id. cbn [integral]. rewrite N1.
      destruct (Z.leb_spec 0 (Z.of_nat type_id)); [|lia]. destruct (Z.ltb_spec (Z.of_nat type_id) (Z.of_nat (length l))); [|lia]. cbn [negb andb].
      rewrite Nat2Z.id, alternative_nth, Hs, EM, Er. reflexivity.
Qed.

(* exactly which ones *)
Definition heard (s : shape) : Prop := forall v, jsw s v -> exists j, bto s v = Ok j /\ verdict (small s v) (rd s (to_document j) (default s)) v.
Lemma heard_members l : Forall heard l -> forall vs, jsw (SSeq l) (VSeq vs) ->
  exists js, to_members bto l vs = Ok js /\ length js = count_nonempty l /\
    forall n j all i, (forall k x, nth_error (map to_document js) k = Some x -> (if Nat.eqb n 1 then Ok j else element all (i + k)) = Ok x) ->
      verdict (small (SSeq l) (VSeq vs)) (read_seq rd n j all l (map default l) i) vs.
Proof.
  induction 1 as [|s l Hs Hl IH]; intros vs W; destruct vs as [|v vs]; try contradiction.
  - exists []. repeat split. intros. left. split; [reflexivity|exact I].
  - cbn in W. destruct W as [Wv Wvs]. destruct (IH vs Wvs) as (js & E & L & R). unfold count_nonempty in *. cbn [to_members filter map read_seq].
    destruct (is_empty s) eqn:EM.
    + exists js. split; [exact E|]. split; [exact L|]. intros n j all i H. fold (read_seq rd n j all).
      apply is_empty_iff in EM as ->. destruct v; cbn in Wv; try contradiction. eapply verdict_map; [exact (R n j all i H)|]. cbn. tauto.
    + destruct (Hs v Wv) as (j0 & Ew & Er). fold (to_members bto). rewrite Ew. cbn [bind]. rewrite E. cbn [bind].
      exists (j0 :: js). split; [reflexivity|]. split; [cbn; now rewrite L|]. intros n j all i H.
      rewrite <- (Nat.add_0_r i) at 1. rewrite (H 0%nat (to_document j0) eq_refl). cbn [bind]. fold (read_seq rd n j all).
      assert (Y : verdict (small (SSeq l) (VSeq vs)) (read_seq rd n j all l (map default l) (S i)) vs).
      { apply R. intros k x Hk. specialize (H (S k) x Hk). now rewrite Nat.add_succ_r in H. }
      exact (verdict_cons _ _ _ _ _ _ cons Er Y).
Qed.
Lemma heard_fields l : Forall (fun ns => heard (snd ns)) l -> forall vs acc, NoDup (map fst acc ++ map fst l) -> Forall ascii (map fst acc) -> Forall ascii (map fst l) ->
  (fix go l vs := match l, vs with [], [] => True | ns :: l', v :: vs' => jsw (snd ns) v /\ go l' vs' | _, _ => False end) l vs ->
  exists o, to_fields lenient bto l vs acc = Ok (acc ++ o) /\ map fst o = map fst l /\
    forall post, verdict ((fix go l vs := match l, vs with ns :: l', v :: vs' => small (snd ns) v /\ go l' vs' | _, _ => True end) l vs)
      (read_map rd (JObject (map tdoc2 (acc ++ o) ++ post)) l (map (fun ns => default (snd ns)) l)) vs.
Proof.
  induction 1 as [|[n s] l Hs Hl IH]; intros vs acc ND HC HA W; destruct vs as [|v vs]; try contradiction.
  - exists []. rewrite app_nil_r. repeat split. intros post. left. split; [reflexivity|exact I].
  - destruct W as [Wv Wvs]. cbn [snd fst map] in *. inversion HA as [|? ? Hn HA']; subst. destruct (Hs v Wv) as (j & Ew & Er).
    cbn [to_fields]. rewrite Ew. cbn [bind]. rewrite to_string_ascii by exact Hn.
    assert (NI : ~ In n (map fst acc)). { apply NoDup_remove_2 in ND. rewrite in_app_iff in ND. tauto. }
    rewrite prop_set_fresh by exact NI. fold (to_fields lenient bto).
    destruct (IH vs (acc ++ [(n, j)])) as (o & E & M & R); [rewrite map_app; cbn; rewrite <- app_assoc; exact ND| |exact HA'|exact Wvs|].
    { rewrite map_app. apply Forall_app. split; [exact HC|]. cbn. constructor; [exact Hn|constructor]. }
    exists ((n, j) :: o). rewrite E, <- app_assoc. split; [reflexivity|]. split; [cbn; now rewrite M|]. intros post.
    specialize (R post). rewrite <- app_assoc in R. cbn [app] in R |- *. cbn [read_map member].
    assert (lookup n (map tdoc2 (acc ++ (n, j) :: o) ++ post) = to_document j) as ->.
    { rewrite map_app, <- app_assoc. cbn [map app]. unfold tdoc2 at 2. cbn [fst snd]. rewrite encode_ascii by exact Hn. apply lookup_app.
      intros HI. apply NI. rewrite map_map in HI. apply in_map_iff in HI as ([k x] & Hk & Hx). cbn in Hk.
      rewrite encode_ascii in Hk by (eapply (proj1 (Forall_forall _ _) HC); change k with (fst (k, x)); now apply in_map). subst k. change n with (fst (n, x)). now apply in_map. }
    fold (read_map rd (JObject (map tdoc2 (acc ++ (n, j) :: o) ++ post))). exact (verdict_cons _ _ _ _ _ _ cons Er R).
Qed.
Lemma heard_elements s : heard s -> forall vs, (fix go vs := match vs with [] => True | v :: vs' => jsw s v /\ go vs' end) vs ->
  exists js, to_elements (bto s) vs = Ok js /\ verdict ((fix go vs := match vs with [] => True | v :: vs' => small s v /\ go vs' end) vs) (read_cont (fun x => rd s x (default s)) (map to_document js)) vs.
Proof.
  intros Hs. induction vs as [|v vs IH]; intros W; [exists []; split; [reflexivity|left; split; [reflexivity|exact I]]|].
  destruct W as [Wv Wvs]. destruct (Hs v Wv) as (j & Ew & Er). destruct (IH Wvs) as (js & E & R).
  exists (j :: js). cbn [to_elements]. rewrite Ew. cbn [bind]. fold (to_elements (bto s)). rewrite E. split; [reflexivity|]. cbn [map read_cont].
  fold (read_cont (fun x => rd s x (default s))). exact (verdict_cons _ _ _ _ _ _ cons Er R).
Qed.
Lemma small_alt_iff l i v s : nth_error l i = Some s -> (small (SVar l) (VVar i v) <-> small s v).
Proof. revert i; induction l as [|a l IH]; intros [|i] E; cbn in *; try discriminate; [injection E as ->; reflexivity|]. exact (IH i E). Qed.

Lemma all_heard s : heard s.
Proof.
  assert (V : forall s v, jsw s v -> small s v -> exists j, bto s v = Ok j /\ verdict (small s v) (rd s (to_document j) (default s)) v).
  { intros s0 v W F. destruct (all_understood s0 v W F) as (j & E & D). exists j. split; [exact E|]. left. split; [exact D|exact F]. }
  assert (U : forall z, (z < 0)%Z -> as_uint integral_of (JInt z) = None).
  { intros z Hz. destruct (as_uint integral_of (JInt z)) as [y|] eqn:E; [|reflexivity]. apply as_uint_iff in E as [[N1|(d & N1 & _)] R]; try discriminate N1. injection N1 as N1. lia. }
  induction s using shape_ind'; intros v W; destruct v; cbn in W; try contradiction; try (apply V; [exact W|exact I]).
  - destruct (Z.ltb_spec z (2 ^ 31)) as [H|H]; [apply V; [exact W|exact H]|]. eexists. split; [reflexivity|]. right. split; [|cbn; lia]. cbn [read to_document]. rewrite U; [reflexivity|].
    destruct (wrap32_cases z W) as [X|X]; pose proof (wrap32_range z); lia.
  - destruct (Z.leb_spec 0 z) as [H|H]; [apply V; [exact W|exact H]|]. eexists. split; [reflexivity|]. right. split; [|cbn; lia]. cbn [read to_document]. rewrite U; [reflexivity|]. rewrite wrap32_id; lia.
  - destruct (heard_members l H l0 W) as (js & E & L & R). cbn [bind_to]. rewrite E. cbn [bind]. eexists. split; [reflexivity|].
    cbn [read default]. unfold elements. rewrite <- L. destruct js as [|x [|y js]]; cbn [length to_sequence].
    + eapply verdict_map; [|reflexivity]. apply R. intros [|k] z Hk; discriminate.
    + eapply verdict_map; [|reflexivity]. apply R. intros [|[|k]] z Hk; cbn in Hk |- *; congruence.
    + cbn [to_document map length]. rewrite map_length, Nat.eqb_refl. eapply verdict_map; [|reflexivity]. apply R.
      intros k z Hk. cbn [Nat.eqb plus]. unfold element. cbn [map] in Hk. now rewrite Hk.
  - destruct W as (ND & HA & W). destruct (heard_fields l H l0 [] ND (Forall_nil _) HA W) as (o & E & M & R). cbn [bind_to]. rewrite E. cbn [bind app]. eexists. split; [reflexivity|].
    specialize (R []). rewrite app_nil_r in R. cbn [app] in R. cbn [read default to_document]. fold tdoc2. eapply verdict_map; [exact R|reflexivity].
  - destruct W as [HL W]. destruct (heard_elements s IHs l W) as (js & E & R). cbn [bind_to]. rewrite E. cbn [bind]. eexists. split; [reflexivity|].
    cbn [read default to_document]. eapply (verdict_map _ _ _ _ VCont); [exact R|reflexivity].
  - destruct W as [HL W]. apply js_var_writable in W as (s & Hs & W). rewrite Forall_forall in H.
    pose proof (H s (nth_error_In _ _ Hs) v W) as (j & Ew & Er). 
    destruct (is_empty s) eqn:EM.
    + apply V; [cbn; split; [exact HL|]; clear - Hs W; revert type_id Hs; induction l as [|a l IH]; intros [|i] Hs; cbn in *; try discriminate; [injection Hs as ->; exact W|exact (IH i Hs)]|].
      apply (small_alt_iff l type_id v s Hs). apply is_empty_iff in EM as ->. now destruct v.
    + cbn [bind_to]. rewrite alternative_nth, Hs, EM.
      assert (HI : (type_id < length l)%nat) by (apply nth_error_Some; congruence). rewrite wrap32_id by lia.
      assert (N1 : as_int integral_of (JInt (Z.of_nat type_id)) = Some (Z.of_nat type_id)) by (apply as_int_iff; split; [now left|lia]).
      rewrite Ew. cbn [bind]. eexists. split; [reflexivity|]. cbn [read to_document map]. unfold variant_id. cbn [integral]. rewrite N1.
      destruct (Z.leb_spec 0 (Z.of_nat type_id)); [|lia]. destruct (Z.ltb_spec (Z.of_nat type_id) (Z.of_nat (length l))); [|lia]. cbn [negb andb].
      rewrite Nat2Z.id, alternative_nth, Hs, EM. eapply verdict_map; [exact Er|]. symmetry. now apply small_alt_iff.
Qed.

(* ---- reading anything ---- *)
Definition all_bindable := fix go (l : list shape) : Prop := match l with [] => True | s :: r => bindable s /\ go r end.
Definition all_nbindable := fix go (l : list (list N * shape)) : Prop := match l with [] => True | ns :: r => bindable (snd ns) /\ go r end.
Definition js_docs := fix go (l : list jsv) : Prop := match l with [] => True | x :: r => js_doc_ok x /\ go r end.
Definition js_props := fix go (l : list (list N * jsv)) : Prop := match l with [] => True | kx :: r => js_doc_ok (snd kx) /\ go r end.

Lemma bindable_proper s : bindable s -> proper s.
Proof.
  induction s using shape_ind'; cbn; auto.
  - change (all_bindable l -> all_proper l). induction H as [|s l Hs Hl IH]; cbn; [auto|]. intros [A B]. auto.
  - change (all_nbindable l -> all_nproper l). induction H as [|s l Hs Hl IH]; cbn; [auto|]. intros [A B]. auto.
  - intros [NE B]. split; [exact NE|]. change (all_bindable l) in B. change (all_proper l). clear NE. revert B. induction H as [|s l Hs Hl IH]; cbn; [auto|]. intros [A B]. auto.
Qed.

Lemma js_docs_nth l i : js_docs l -> js_doc_ok (nth i l Undef).
Proof. revert i; induction l as [|x l IH]; intros [|i] H; cbn in *; try exact I; [tauto|]. apply IH. tauto. Qed.
Lemma js_prop_ok k l : js_props l -> js_doc_ok (prop k l).
Proof. induction l as [|[k' x] l IH]; cbn; [auto|]. intros [A B]. destruct (bytes_eqb k k'); auto. Qed.
Lemma js_index_ok i j x : js_doc_ok j -> js_index i j = Some x -> js_doc_ok x.
Proof.
  intros H E. destruct j; cbn [js_index] in E; try discriminate; injection E as <-; try exact I.
  - destruct (nth_error u i); cbn; [lia|exact I].
  - destruct H as [_ H]. now apply js_docs_nth.
  - now apply js_prop_ok.
Qed.
Lemma js_member_ok k j x : js_doc_ok j -> js_member k j = Some x -> js_doc_ok x.
Proof.
  intros H E. destruct j; cbn [js_member] in E; try discriminate; injection E as <-; try exact I.
  - match goal with |- context [if ?b then _ else _] => destruct b; exact I end.
  - match goal with |- context [if ?b then _ else _] => destruct b; exact I end.
  - now apply js_prop_ok.
Qed.

Definition bytes_like : Prop := forall l x, like_bytes l = Some x -> all_bytes x /\ 3 * N.of_nat (length x) < 2 ^ 31.

Lemma from_string_ok j x : bytes_like -> js_doc_ok j -> from_string other_number like_bytes j = Some x -> all_bytes x /\ 3 * N.of_nat (length x) < 2 ^ 31.
Proof.
  intros HB H E. destruct j; cbn [from_string] in E; try discriminate; try (injection E as <-).
  - split; [constructor|cbn; lia].
  - split; [constructor|cbn; lia].
  - split; [constructor|cbn; lia].
  - unfold string_to_ascii. split; [|rewrite map_length; exact H]. apply Forall_map, Forall_forall. intros c _. unfold is_byte. lia.
  - split; [|rewrite map_length; apply H]. apply Forall_map, Forall_forall. intros c _. unfold is_byte. lia.
  - eauto.
Qed.

Definition ends {A} (r : throws A) (P : A -> Prop) : Prop := match r with UB => False | Ok None => True | Ok (Some v) => P v end.
Lemma ends_thenr {A B} (r : throws A) (f : A -> throws B) P Q : ends r P -> (forall v, P v -> ends (f v) Q) -> ends (thenr r f) Q.
Proof. destruct r as [[v|]|]; cbn; auto. Qed.

Definition robust (s : shape) : Prop := bindable s -> forall j old, js_doc_ok j -> has_shape s old -> ends (bfrom s j old) (has_shape s).

Lemma robust_members l : Forall robust l -> all_bindable l -> forall n j olds i, js_doc_ok j -> all_shaped l olds -> ends (from_members bfrom n j l olds i) (all_shaped l).
Proof.
  induction 1 as [|s l Hs Hl IH]; intros HB n j olds i Hj Ho; destruct olds as [|o olds]; try contradiction; [exact I|].
  destruct HB as [B1 B2], Ho as [O1 O2]. cbn [from_members]. fold (from_members bfrom n j). destruct (is_empty s) eqn:EM.
  - eapply ends_thenr; [apply IH; eauto|]. intros vs V. cbn. auto.
  - destruct (if Nat.eqb n 1 then Some j else js_index i j) as [x|] eqn:EX; [|exact I].
    assert (js_doc_ok x) by (destruct (Nat.eqb n 1); [injection EX as <-; exact Hj|eapply js_index_ok; eauto]).
    eapply ends_thenr; [apply Hs; eauto|]. intros v V. eapply ends_thenr; [apply IH; eauto|]. intros vs Vs. cbn. auto.
Qed.

Lemma robust_fields l : Forall (fun ns => robust (snd ns)) l -> all_nbindable l -> forall j olds, js_doc_ok j -> all_named l olds -> ends (from_fields lenient bfrom j l olds) (all_named l).
Proof.
  induction 1 as [|[n s] l Hs Hl IH]; intros HB j olds Hj Ho; destruct olds as [|o olds]; try contradiction; [exact I|].
  destruct HB as [B1 B2], Ho as [O1 O2]. cbn [snd] in *. cbn [from_fields]. fold (from_fields lenient bfrom j).
  destruct (js_member (utf8_to_string lenient n) j) as [x|] eqn:EX; [|exact I].
  eapply ends_thenr; [apply Hs; eauto; eapply js_member_ok; eauto|]. intros v V. eapply ends_thenr; [apply IH; eauto|]. intros vs Vs. cbn. auto.
Qed.

Lemma robust_elements s : robust s -> bindable s -> forall js, Forall (fun x => match x with Some j => js_doc_ok j | None => True end) js ->
  ends (from_elements (fun x => bfrom s x (default s)) js) (Forall (has_shape s)).
Proof.
  intros Hs HB js. induction 1 as [|x js Hx Hjs IH]; [constructor|]. destruct x as [x|]; [|exact I]. cbn [from_elements]. fold (from_elements (fun x => bfrom s x (default s))).
  eapply ends_thenr; [apply Hs; eauto; apply default_shape; now apply bindable_proper|]. intros v V. eapply ends_thenr; [apply IH|]. intros vs Vs. cbn. now constructor.
Qed.

Lemma all_bindable_nth l k x : all_bindable l -> nth_error l k = Some x -> bindable x.
Proof. revert k; induction l as [|y l IH]; intros [|k] H E; cbn in *; try discriminate; [|destruct H; eauto]. injection E as <-. tauto. Qed.

Lemma all_robust : bytes_like -> forall s, robust s.
Proof.
  intros HL. induction s using shape_ind'; intros HB j old Hj Ho.
  - exact I.
  - exact I.
  - exact I.
  - contradiction.
  - cbn [bind_from]. destruct (from_string other_number like_bytes j); exact I.
  - cbn [bind_from]. destruct (from_string other_number like_bytes j) as [x|] eqn:EX; [|exact I].
    assert (exists b, old = VBuffer b /\ match n with Some k => length b = k | None => True end) as (b & -> & Hb)
      by (cbn in Ho; destruct n, old; try contradiction; eauto).
    destruct (from_string_ok j x HL Hj EX) as [Hx1 Hx2]. destruct (buffer_result n x b Hx1 Hx2 Hb) as (ok & new & E & B).
    unfold kind in E. rewrite E. cbn. destruct n as [k|]; [|exact I]. destruct B as [(_ & _ & B)|[B _]]; exact B.
  - exact Ho.
  - cbn [bind_from]. destruct old; try contradiction. eapply ends_thenr; [apply robust_members; eauto|]. intros vs V. exact V.
  - cbn [bind_from]. destruct old; try contradiction. eapply ends_thenr; [apply robust_fields; eauto|]. intros vs V. exact V.
  - cbn [bind_from]. destruct (js_length other_number j) as [n|]; [|exact I]. destruct (n <? 0)%Z; [exact I|].
    eapply ends_thenr; [apply robust_elements; eauto|].
    + apply Forall_map, Forall_forall. intros i _. destruct (js_index i j) as [x|] eqn:E; [|exact I]. eapply js_index_ok; eauto.
    + intros vs V. cbn [ends]. now apply cont_shape.
  - cbn [bind_from]. destruct HB as [NE HB]. change (all_bindable l) in HB.
    destruct (Z.leb_spec 0 (get_variant_type_id other_number j)) as [Z1|Z1]; [|exact Ho].
    destruct (Z.ltb_spec (get_variant_type_id other_number j) (Z.of_nat (length l))) as [Z2|Z2]; [|exact Ho]. cbn [negb andb].
    set (k := Z.to_nat (get_variant_type_id other_number j)) in *. rewrite alternative_nth. destruct (nth_error l k) as [s|] eqn:Es; [|apply nth_error_None in Es; lia].
    pose proof (all_bindable_nth l k s HB Es) as HBs. destruct (is_empty s) eqn:EM.
    + cbn [ends]. eapply shaped_nth; [exact Es|]. apply default_shape. now apply bindable_proper.
    + destruct (js_index 1 j) as [x|] eqn:EX; [|exact I]. rewrite Forall_forall in H. eapply ends_thenr.
      * apply (H s (nth_error_In _ _ Es)); eauto; [eapply js_index_ok; eauto|apply default_shape; now apply bindable_proper].
      * intros v V. cbn [ends]. eapply shaped_nth; eauto.
Qed.

(* ---- text there and back ---- *)
Lemma text_back l old : Forall scalar l ->
  (exists j, bto SString (VString (utf8 l)) = Ok j /\ bfrom SString j old = Ok (Some (VString (utf8 l)))) <-> Forall (fun c => c < 128) l.
Proof.
  intros Hl. cbn [bind_to bind_from]. unfold utf8_to_string. rewrite c_str_same by now apply no_nul_utf8. unfold text_of. rewrite decode_utf8 by exact Hl. split.
  - intros (j & E & F). injection E as <-. cbn [from_string option_map] in F. injection F as F. apply (utf16_shorter l Hl).
    rewrite <- F. unfold string_to_ascii. now rewrite map_length.
  - intros HA. destruct (utf8_ascii l Hl HA) as [E A]. eexists. split; [reflexivity|]. cbn [from_string option_map].
    assert (utf16 l = l) as ->. { pose proof (decode_utf8 l Hl) as D. rewrite E, (decode_ascii l A) in D. congruence. }
    now rewrite to_ascii_ascii, E.
Qed.
End Js.

(* ---- what becomes of text ---- *)
Lemma writable_ind (P : list N -> Prop) (R : value -> Prop) :
  (forall z, R (VInt z)) -> (forall x, P x -> R (VString x)) -> (forall b, R (VBuffer b)) -> R VEmpty -> (forall l, Forall R l -> R (VSeq l)) -> (forall l, Forall R l -> R (VCont l)) ->
  (forall i v, R v -> R (VVar i v)) -> forall s v, js_writable_as P s v -> R v.
Proof.
  intros Hi Hs Hb He Hq Hc Hv s. induction s using shape_ind'; intros v W; destruct v; cbn in W; try contradiction; auto.
  - apply Hq. revert l0 W. induction H as [|s l Hx _ IH]; intros [|v vs] W; try contradiction; constructor; [now apply Hx|]. now apply IH.
  - apply Hq. destruct W as (_ & _ & W). revert l0 W. induction H as [|s l Hx _ IH]; intros [|v vs] W; try contradiction; constructor; [now apply Hx|]. now apply IH.
  - apply Hc. destruct W as (_ & W). induction l as [|v vs IH]; constructor; [now apply IHs|]. now apply IH.
  - apply Hv. destruct W as (_ & W). revert type_id W. induction H as [|s l Hx _ IH]; intros [|i] W; try contradiction; eauto.
Qed.
Lemma writable_more (P Q : list N -> Prop) : (forall x, P x -> Q x) -> forall s v, js_writable_as P s v -> js_writable_as Q s v.
Proof.
  intros I s. induction s using shape_ind'; intros v W; destruct v; cbn in W |- *; try contradiction; auto.
  - revert l0 W. induction H as [|s l Hx _ IH]; intros [|v vs] W; try contradiction; auto. destruct W as [W1 W2]. split; [now apply Hx|exact (IH vs W2)].
  - destruct W as (A & B & W). split; [exact A|]. split; [exact B|]. clear A B. revert l0 W. induction H as [|s l Hx _ IH]; intros [|v vs] W; try contradiction; auto. destruct W as [W1 W2]. split; [now apply Hx|exact (IH vs W2)].
  - destruct W as (A & W). split; [exact A|]. clear A. induction l as [|v vs IH]; auto. destruct W as [W1 W2]. split; [now apply IHs|exact (IH W2)].
  - destruct W as (A & W). split; [exact A|]. clear A. revert type_id W. induction H as [|s l Hx _ IH]; intros [|i] W; try contradiction; [now apply Hx|exact (IH i W)].
Qed.
Lemma ascii_writable s v : js_writable s v -> js_writable_as well_formed s v.
Proof. apply writable_more. apply ascii_well_formed. Qed.

Lemma map_same {A} (f : A -> A) l : Forall (fun x => f x = x) l -> map f l = l.
Proof. induction 1; cbn; congruence. Qed.
Lemma garbled_ascii s v : js_writable s v -> garbled v = v.
Proof.
  apply (writable_ind ascii (fun v => garbled v = v)); try reflexivity.
  - intros x A. cbn. rewrite decode_ascii by exact A. f_equal. now apply to_ascii_ascii.
  - intros l F. cbn. f_equal. now apply map_same.
  - intros l F. cbn. f_equal. now apply map_same.
  - intros i w E. cbn. now rewrite E.
Qed.
Lemma map_seen l : Forall (fun v => Seen v (garbled v)) l -> Forall2 Seen l (map garbled l).
Proof. induction 1; constructor; auto. Qed.
Lemma garbled_seen s v : js_writable_as well_formed s v -> Seen v (garbled v).
Proof.
  apply (writable_ind well_formed (fun v => Seen v (garbled v))); try (intros; constructor).
  - intros x (l & Hl & U). assert (X := utf8_unique _ _ Hl U). subst x. cbn. rewrite decode_utf8 by exact Hl. apply (Seen_string l); auto. now apply utf16_exists.
  - now apply map_seen.
  - now apply map_seen.
  - assumption.
Qed.
Lemma seen_garbled s v : js_writable_as well_formed s v -> forall v', Seen v v' -> v' = garbled v.
Proof.
  assert (L : forall l l', Forall (fun v => forall v', Seen v v' -> v' = garbled v) l -> Forall2 Seen l l' -> l' = map garbled l).
  { intros l l' F S. induction S as [|a b l l' H S IH]; [reflexivity|]. inversion F; subst. cbn. f_equal; auto. }
  apply (writable_ind well_formed (fun v => forall v', Seen v v' -> v' = garbled v)); try (intros; match goal with S : Seen _ _ |- _ => inversion S; reflexivity end).
  - intros x _ v' S. inversion S as [| |l ? u Hl U V| | | | |]; subst. assert (X := utf8_unique _ _ Hl U). subst x. cbn. rewrite decode_utf8 by exact Hl. now rewrite (utf16_unique l u).
  - intros l F v' S. inversion S; subst. cbn. f_equal. now apply L.
  - intros l F v' S. inversion S; subst. cbn. f_equal. now apply L.
  - intros i w IH v' S. inversion S; subst. cbn. f_equal. now apply IH.
Qed.
Lemma garbled_same s : forall v, js_writable_as well_formed s v -> garbled v = v -> js_writable s v.
Proof.
  unfold js_writable. induction s using shape_ind'; intros v W E; destruct v; cbn in W |- *; try contradiction; auto; cbn in E.
  - destruct W as (l & Hl & U). apply utf8_unique in U as ->; [|exact Hl]. rewrite decode_utf8 in E by exact Hl. injection E as E.
    assert (HA : Forall (fun c => c < 128) l). { apply (utf16_shorter l Hl). rewrite <- E. unfold string_to_ascii. now rewrite map_length. }
    destruct (utf8_ascii l Hl HA) as [-> A]. exact A.
  - injection E as E. revert l0 W E. induction H as [|s l Hx _ IH]; intros [|v vs] W E; try contradiction; auto. destruct W as [W1 W2]. injection E as E1 E2. split; [now apply Hx|exact (IH vs W2 E2)].
  - injection E as E. destruct W as (A & B & W). split; [exact A|]. split; [exact B|]. clear A B. revert l0 W E. induction H as [|s l Hx _ IH]; intros [|v vs] W E; try contradiction; auto.
    destruct W as [W1 W2]. injection E as E1 E2. split; [now apply Hx|exact (IH vs W2 E2)].
  - injection E as E. destruct W as (A & W). split; [exact A|]. clear A. induction l as [|v vs IH]; auto. destruct W as [W1 W2]. injection E as E1 E2. split; [now apply IHs|exact (IH W2 E2)].
  - injection E as E. destruct W as (A & W). split; [exact A|]. clear A. revert type_id W. induction H as [|s l Hx _ IH]; intros [|i] W; try contradiction; [now apply Hx|exact (IH i W)].
Qed.
