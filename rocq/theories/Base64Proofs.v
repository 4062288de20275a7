From Coq Require Import String.
From Verif Require Import Base Base64Model Base64Spec.
Open Scope N_scope.

(* ------------------------------------------------ arithmetic reference *)
Fixpoint enc_digits (l : bytes) : list N :=
  match l with
  | a :: b :: c :: r =>
      a / 4 :: (a mod 4) * 16 + b / 16 :: (b mod 16) * 4 + c / 64 :: c mod 64 :: enc_digits r
  | [a; b] => [a / 4; (a mod 4) * 16 + b / 16; (b mod 16) * 4]
  | [a] => [a / 4; (a mod 4) * 16]
  | [] => []
  end.

Fixpoint dec_digits (l : list N) : bytes :=
  match l with
  | a :: b :: c :: d :: r =>
      a * 4 + b / 16 :: (b mod 16) * 16 + c / 4 :: (c mod 4) * 64 + d :: dec_digits r
  | [a; b; c] => [a * 4 + b / 16; (b mod 16) * 16 + c / 4]
  | [a; b] => [a * 4 + b / 16]
  | [a] => [a * 4]
  | [] => []
  end.

Lemma enc_digits_lt l : all_bytes l -> Forall (fun d => d < 64) (enc_digits l).
Proof.
  induction l as [|a|a b|a b c l IH] using list_ind3; intros H; simpl;
    repeat match goal with H : all_bytes (_ :: _) |- _ => inversion H; clear H; subst
                      | H : Forall is_byte (_ :: _) |- _ => inversion H; clear H; subst end;
    unfold is_byte in *; repeat (constructor; [lia|]); auto.
Qed.

Lemma dec_enc_digits l : all_bytes l -> dec_digits (enc_digits l) = l.
Proof.
  induction l as [|a|a b|a b c l IH] using list_ind3; intros H;
    repeat match goal with H : all_bytes (_ :: _) |- _ => inversion H; clear H; subst
                      | H : Forall is_byte (_ :: _) |- _ => inversion H; clear H; subst end;
    unfold is_byte in *; cbn [enc_digits dec_digits].
  - reflexivity.
  - f_equal; lia.
  - f_equal; [lia|]. f_equal; lia.
  - rewrite IH by assumption. f_equal; [lia|]. f_equal; [lia|]. f_equal; lia.
Qed.

Lemma enc_digits_length l :
  N.of_nat (length (enc_digits l)) = (4 * N.of_nat (length l) + 2) / 3.
Proof.
  induction l as [|a|a b|a b c l IH] using list_ind3; try reflexivity.
  cbn [enc_digits length] in *. lia.
Qed.

(* ------------------------------------------------ encoder *)
Lemma lookup_digit v : v < 64 -> nth_error lookup (N.to_nat v) = Some (digit_char v).
Proof.
  intros H.
  assert (E : match nth_error lookup (N.to_nat v) with
              | Some c => c =? digit_char v | None => false end = true).
  { revert v H. apply (N_sweep 64 (fun v => match nth_error lookup (N.to_nat v) with
              | Some c => c =? digit_char v | None => false end)). vm_compute; reflexivity. }
  destruct (nth_error _ _); [|discriminate]. apply N.eqb_eq in E; congruence.
Qed.

Lemma encode_char_digit f off : encode_char f off = Ok (digit_char ((f / 2 ^ off) mod 64)).
Proof.
  unfold encode_char. change 0x3F with (N.ones 6). rewrite shiftr_land_mask.
  change (2 ^ 6) with 64. rewrite lookup_digit; [reflexivity|]. apply N.mod_lt; discriminate.
Qed.

Lemma shl32_small x k : x * 2 ^ k < 2 ^ 32 -> shl32 x k = x * 2 ^ k.
Proof. intros H. unfold shl32. rewrite N.shiftl_mul_pow2. apply N.mod_small, H. Qed.

Lemma lor_small_add a b n : b < 2 ^ n -> N.lor (a * 2 ^ n) b = a * 2 ^ n + b.
Proof. intros H. rewrite <- (lor_shiftl_add a b n H), N.shiftl_mul_pow2. reflexivity. Qed.

Lemma fragment3_arith a b c :
  is_byte a -> is_byte b -> is_byte c ->
  fragment3 false a b c = a * 2 ^ 24 + b * 2 ^ 16 + c * 2 ^ 8.
Proof.
  unfold is_byte, fragment3, promote; cbn [andb]. intros Ha Hb Hc.
  rewrite !shl32_small by lia.
  rewrite (lor_small_add a (b * 2 ^ 16) 24) by lia.
  replace (a * 2 ^ 24 + b * 2 ^ 16) with ((a * 2 ^ 8 + b) * 2 ^ 16) by lia.
  rewrite (lor_small_add _ (c * 2 ^ 8) 16) by lia. lia.
Qed.

Lemma encode_body_digits l :
  all_bytes l -> encode_body false l = Ok (map digit_char (enc_digits l)).
Proof.
  induction l as [|a|a b|a b c l IH] using list_ind3; intros H;
    repeat match goal with H : all_bytes (_ :: _) |- _ => inversion H; clear H; subst
                      | H : Forall is_byte (_ :: _) |- _ => inversion H; clear H; subst end.
  - reflexivity.
  - unfold is_byte in *.
    cbn [encode_body length extras_from encode_fragment firstn offsets encode_chars enc_digits map].
    unfold promote; cbn [andb]. rewrite N.lor_0_l, !encode_char_digit.
    change (8 * (3 - 0)) with 24. rewrite shl32_small by lia. cbn [bind].
    do 2 f_equal; [f_equal; lia|]. do 2 f_equal; lia.
  - unfold is_byte in *.
    cbn [encode_body length extras_from encode_fragment firstn offsets encode_chars enc_digits map].
    unfold promote; cbn [andb]. rewrite N.lor_0_l, !encode_char_digit.
    change (8 * (3 - 0)) with 24. change (8 * (3 - (0 + 1))) with 16.
    rewrite !shl32_small by lia. rewrite lor_small_add by lia. cbn [bind].
    do 2 f_equal; [f_equal; lia|]. f_equal; [f_equal; lia|]. do 2 f_equal; lia.
  - cbn [encode_body]. rewrite IH by assumption.
    cbn [encode_fragment firstn offsets encode_chars enc_digits map].
    rewrite fragment3_arith by assumption. rewrite !encode_char_digit. unfold is_byte in *.
    cbn [bind app]. do 2 f_equal; [f_equal; lia|].
    f_equal; [f_equal; lia|]. f_equal; [f_equal; lia|]. do 2 f_equal; lia.
Qed.

Definition len_ok (l : bytes) : Prop := 4 * N.of_nat (length l) < 2 ^ 31.

Lemma base64_encode_eq l :
  all_bytes l -> len_ok l ->
  base64_encode l =
    Ok (map digit_char (enc_digits l)
        ++ repeat pad_char (N.to_nat ((3 - N.of_nat (length l) mod 3) mod 3))).
Proof.
  intros Hb Hl. unfold len_ok in Hl. change (2 ^ 31) with 2147483648 in Hl.
  unfold base64_encode, base64_encode_gen, encoding_length_padded, fits_int, int_max.
  destruct (N.leb_spec (4 * N.of_nat (length l)) 2147483647) as [_|Hx]; [|lia].
  cbn [bind]. rewrite encode_body_digits by exact Hb. cbn [bind].
  rewrite map_length. pose proof (enc_digits_length l) as He.
  match goal with |- (if ?x =? ?y then _ else _) = _ => destruct (N.eqb_spec x y) as [Hq|Hq] end.
  - rewrite <- Hq. do 2 f_equal. f_equal. lia.
  - exfalso. lia.
Qed.

Lemma base64_encode_length l s :
  all_bytes l -> len_ok l -> base64_encode l = Ok s ->
  N.of_nat (length s) = 4 * ((N.of_nat (length l) + 2) / 3).
Proof.
  intros Hb Hl. rewrite base64_encode_eq by assumption. intros [= <-].
  rewrite app_length, map_length, repeat_length. pose proof (enc_digits_length l). lia.
Qed.

(* ------------------------------------------------ bits *)
Lemma bits6_hi a : is_byte a -> bits6 (a / 4) = firstn 6 (bits8 a).
Proof.
  intros H. apply bools_eqb_eq. revert a H.
  apply (byte_sweep (fun a => bools_eqb (bits6 (a / 4)) (firstn 6 (bits8 a)))).
  vm_compute; reflexivity.
Qed.

Lemma bits6_join hi lo k :
  (k = 2 \/ k = 4)%nat -> hi < 2 ^ (6 - N.of_nat k) -> lo < 2 ^ N.of_nat k ->
  bits6 (hi * 2 ^ N.of_nat k + lo) = skipn k (bits6 hi) ++ skipn (6 - k) (bits6 lo).
Proof.
  intros Hk Hhi Hlo. apply bools_eqb_eq.
  destruct Hk as [-> | ->].
  - revert lo Hlo. apply (N_sweep 4 (fun lo => bools_eqb _ _)). revert hi Hhi.
    apply (N_sweep 16 (fun hi => forallb _ _)). vm_compute; reflexivity.
  - revert lo Hlo. apply (N_sweep 16 (fun lo => bools_eqb _ _)). revert hi Hhi.
    apply (N_sweep 4 (fun hi => forallb _ _)). vm_compute; reflexivity.
Qed.

Lemma bits8_low k a : (k = 2 \/ k = 4 \/ k = 6)%nat -> is_byte a ->
  skipn (6 - k) (bits6 (a mod 2 ^ N.of_nat k)) = skipn (8 - k) (bits8 a).
Proof.
  intros Hk H. apply bools_eqb_eq. revert a H.
  destruct Hk as [-> | [-> | ->]];
  apply (byte_sweep (fun a => bools_eqb _ _)); vm_compute; reflexivity.
Qed.

Lemma bits8_high k a : (k = 2 \/ k = 4)%nat -> is_byte a ->
  skipn (6 - k) (bits6 (a / 2 ^ (8 - N.of_nat k))) = firstn k (bits8 a).
Proof.
  intros Hk H. apply bools_eqb_eq. revert a H.
  destruct Hk as [-> | ->];
  apply (byte_sweep (fun a => bools_eqb _ _)); vm_compute; reflexivity.
Qed.

(* the middle digits of a group *)
Lemma bits6_d1 a b : is_byte a -> is_byte b ->
  bits6 ((a mod 4) * 16 + b / 16) = skipn 6 (bits8 a) ++ firstn 4 (bits8 b).
Proof.
  intros Ha Hb. unfold is_byte in *.
  pose proof (bits6_join (a mod 4) (b / 16) 4) as J.
  change (2 ^ N.of_nat 4) with 16 in J. change (2 ^ (6 - N.of_nat 4)) with 4 in J.
  rewrite J by lia.
  pose proof (bits8_low 2 a) as L. change (2 ^ N.of_nat 2) with 4 in L.
  change (6 - 2)%nat with 4%nat in L. rewrite L by (unfold is_byte; lia).
  pose proof (bits8_high 4 b) as Hh. change (2 ^ (8 - N.of_nat 4)) with 16 in Hh.
  rewrite Hh by (unfold is_byte; lia). reflexivity.
Qed.

Lemma bits6_d2 b c : is_byte b -> is_byte c ->
  bits6 ((b mod 16) * 4 + c / 64) = skipn 4 (bits8 b) ++ firstn 2 (bits8 c).
Proof.
  intros Ha Hb. unfold is_byte in *.
  pose proof (bits6_join (b mod 16) (c / 64) 2) as J.
  change (2 ^ N.of_nat 2) with 4 in J. change (2 ^ (6 - N.of_nat 2)) with 16 in J.
  rewrite J by lia.
  pose proof (bits8_low 4 b) as L. change (2 ^ N.of_nat 4) with 16 in L.
  change (6 - 4)%nat with 2%nat in L. rewrite L by (unfold is_byte; lia).
  pose proof (bits8_high 2 c) as Hh. change (2 ^ (8 - N.of_nat 2)) with 64 in Hh.
  rewrite Hh by (unfold is_byte; lia). reflexivity.
Qed.

Lemma bits6_d3 c : is_byte c -> bits6 (c mod 64) = skipn 2 (bits8 c).
Proof. intros H. apply (bits8_low 6 c); [lia|exact H]. Qed.

Lemma bits8_split k b : firstn k (bits8 b) ++ skipn k (bits8 b) = bits8 b.
Proof. apply firstn_skipn. Qed.

Lemma is_byte_0 : is_byte 0. Proof. reflexivity. Qed.

Lemma enc_digits_bits l : all_bytes l ->
  exists z, (z < 6)%nat /\ digit_bits (enc_digits l) = bit_string l ++ repeat false z.
Proof.
  induction l as [|a|a b|a b c l IH] using list_ind3; intros H;
    repeat match goal with H : all_bytes (_ :: _) |- _ => inversion H; clear H; subst
                      | H : Forall is_byte (_ :: _) |- _ => inversion H; clear H; subst end.
  - exists 0%nat; split; [lia|reflexivity].
  - exists 4%nat; split; [lia|]. unfold digit_bits, bit_string; cbn [enc_digits flat_map].
    replace (a mod 4 * 16) with (a mod 4 * 16 + 0 / 16) by (rewrite N.div_0_l; lia).
    rewrite bits6_hi, bits6_d1 by (assumption || apply is_byte_0).
    rewrite <- (bits8_split 6 a) at 3. reflexivity.
  - exists 2%nat; split; [lia|]. unfold digit_bits, bit_string; cbn [enc_digits flat_map].
    replace (b mod 16 * 4) with (b mod 16 * 4 + 0 / 64) by (rewrite N.div_0_l; lia).
    rewrite bits6_hi, bits6_d1, bits6_d2 by (assumption || apply is_byte_0).
    rewrite <- (bits8_split 6 a) at 3. rewrite <- (bits8_split 4 b) at 3. reflexivity.
  - destruct IH as [z [Hz IH]]; [assumption|]. exists z; split; [exact Hz|].
    unfold digit_bits, bit_string in *; cbn [enc_digits flat_map].
    rewrite IH, bits6_hi, bits6_d1, bits6_d2, bits6_d3 by assumption.
    rewrite <- (bits8_split 6 a) at 3. rewrite <- (bits8_split 4 b) at 3.
    rewrite <- (bits8_split 2 c) at 3. rewrite <- !app_assoc. reflexivity.
Qed.

Lemma encode_is_encoding l s :
  all_bytes l -> len_ok l -> base64_encode l = Ok s -> IsEncoding l s.
Proof.
  intros Hb Hl Hs. pose proof (base64_encode_length l s Hb Hl Hs) as Hlen.
  rewrite base64_encode_eq in Hs by assumption. injection Hs as <-.
  destruct (enc_digits_bits l Hb) as [z [Hz E]].
  exists (enc_digits l), z, (N.to_nat ((3 - N.of_nat (length l) mod 3) mod 3)).
  split; [apply enc_digits_lt, Hb|]. split; [exact Hz|]. split; [exact E|].
  split; [lia|]. split; [reflexivity|]. lia.
Qed.

(* the specification determines the text *)
Lemma bits6_inj a b : a < 64 -> b < 64 -> bits6 a = bits6 b -> a = b.
Proof.
  intros Ha Hb E.
  assert (G : forall v, v < 64 -> fold_left (fun acc (x : bool) => 2 * acc + (if x then 1 else 0)) (bits6 v) 0 = v).
  { intros v Hv. apply N.eqb_eq. revert v Hv.
    apply (N_sweep 64 (fun v => _ =? v)). vm_compute; reflexivity. }
  rewrite <- (G a Ha), <- (G b Hb), E. reflexivity.
Qed.

Lemma digit_bits_length ds : length (digit_bits ds) = (6 * length ds)%nat.
Proof. unfold digit_bits; induction ds as [|d ds IH]; simpl in *; [reflexivity|lia]. Qed.

Lemma bit_string_length l : length (bit_string l) = (8 * length l)%nat.
Proof. unfold bit_string; induction l as [|d l IH]; simpl in *; [reflexivity|lia]. Qed.

Lemma app_inj_len {A} (a b c d : list A) : length a = length b -> a ++ c = b ++ d -> a = b /\ c = d.
Proof.
  revert b; induction a as [|x a IH]; intros [|y b]; simpl; intros Hl E; try discriminate; auto.
  injection E as -> E. destruct (IH b) as [-> ->]; auto.
Qed.

Lemma digit_bits_inj ds1 : forall ds2,
  Forall (fun d => d < 64) ds1 -> Forall (fun d => d < 64) ds2 ->
  digit_bits ds1 = digit_bits ds2 -> ds1 = ds2.
Proof.
  induction ds1 as [|a ds1 IH]; intros [|b ds2] H1 H2 E; try discriminate; auto.
  inversion H1; subst; inversion H2; subst.
  unfold digit_bits in *; cbn [flat_map] in E.
  apply app_inj_len in E as [E1 E2]; [|reflexivity].
  apply bits6_inj in E1; [|assumption|assumption]. subst b. f_equal. apply IH; assumption.
Qed.

Lemma encoding_unique l s1 s2 : IsEncoding l s1 -> IsEncoding l s2 -> s1 = s2.
Proof.
  intros (d1 & z1 & p1 & F1 & Z1 & B1 & P1 & E1 & M1) (d2 & z2 & p2 & F2 & Z2 & B2 & P2 & E2 & M2).
  assert (L1 := f_equal (@length bool) B1). assert (L2 := f_equal (@length bool) B2).
  rewrite digit_bits_length, app_length, bit_string_length, repeat_length in L1, L2.
  assert (z1 = z2) by lia. subst z2.
  assert (d1 = d2) by (apply digit_bits_inj; congruence). subst d2.
  subst s1 s2. rewrite app_length, map_length, repeat_length in M1, M2.
  do 2 f_equal. lia.
Qed.

(* ------------------------------------------------ decoder *)
Lemma rlookup_digit v : v < 64 -> rlookup (digit_char v) = v.
Proof.
  intros H. apply N.eqb_eq. revert v H. apply (N_sweep 64 (fun v => _ =? v)). vm_compute; reflexivity.
Qed.

Lemma is_not_padding_eq c : is_byte c -> is_not_padding c = negb (c =? 61).
Proof.
  intros H. apply Bool.eqb_prop. revert c H.
  apply (byte_sweep (fun c => Bool.eqb _ _)). vm_compute; reflexivity.
Qed.

Lemma char_cases c : is_byte c ->
  (is_invalid c = true /\ ~ in_alphabet c /\ c <> 61) \/
  (is_invalid c = false /\ c = 61) \/
  (is_invalid c = false /\ c <> 61 /\ rlookup c < 64 /\ c = digit_char (rlookup c)).
Proof.
  intros H.
  assert (E : (if is_invalid c
              then negb (c =? 61) && forallb (fun v => negb (c =? digit_char v)) (map N.of_nat (seq 0 64))
              else (c =? 61) || ((rlookup c <? 64) && (c =? digit_char (rlookup c)) && negb (c =? 61))) = true).
  { revert c H. apply (byte_sweep (fun c => if is_invalid c then _ else _)). vm_compute; reflexivity. }
  destruct (is_invalid c).
  - left. split; [reflexivity|]. apply andb_prop in E as [E1 E2]. split; [|lia].
    intros [v [Hv Hc]]. pose proof (N_sweep 64 _ E2 v Hv) as Q. cbn beta in Q. lia.
  - right. destruct (N.eqb_spec c 61) as [Hc|Hc]; [left; auto|right].
    cbn [orb] in E. repeat (apply andb_prop in E as [E ?]). repeat split; try lia; assumption.
Qed.

Lemma digit_char_byte v : v < 64 -> is_byte (digit_char v) /\ digit_char v <> 61.
Proof.
  intros H. assert (E : ((digit_char v <? 256) && negb (digit_char v =? 61)) = true).
  { revert v H. apply (N_sweep 64 (fun v => _ && _)). vm_compute; reflexivity. }
  unfold is_byte. lia.
Qed.

Lemma digit_not_padding v : v < 64 -> is_not_padding (digit_char v) = true.
Proof.
  intros H. destruct (digit_char_byte v H) as [B Q]. rewrite is_not_padding_eq by exact B. lia.
Qed.

Lemma filter_body ds p : Forall (fun d => d < 64) ds ->
  filter is_not_padding (map digit_char ds ++ repeat pad_char p) = map digit_char ds.
Proof.
  intros H; induction H as [|d ds Hd _ IH].
  - cbn [map app]. induction p as [|p IHp]; [reflexivity|].
    cbn [repeat filter]. exact IHp.
  - cbn [map app filter]. rewrite digit_not_padding by exact Hd. f_equal. exact IH.
Qed.

Lemma unpadded_body ds p : Forall (fun d => d < 64) ds ->
  source_length_unpadded (map digit_char ds ++ repeat pad_char p) = length ds.
Proof. intros H. unfold source_length_unpadded. rewrite filter_body by exact H. apply map_length. Qed.

Lemma firstn_body ds p : firstn (length ds) (map digit_char ds ++ repeat pad_char p) = map digit_char ds.
Proof.
  replace (length ds) with (length (map digit_char ds) + 0)%nat by (rewrite map_length; lia).
  rewrite firstn_app_2. cbn. apply app_nil_r.
Qed.

Lemma gather4 a b c d : a < 64 -> b < 64 -> c < 64 -> d < 64 ->
  gather (map digit_char [a; b; c; d]) offsets 0 = a * 2 ^ 26 + b * 2 ^ 20 + c * 2 ^ 14 + d * 2 ^ 8.
Proof.
  intros Ha Hb Hc Hd. cbn [map gather offsets]. rewrite !rlookup_digit by assumption.
  rewrite !shl32_small by lia. rewrite N.lor_0_l.
  rewrite (lor_small_add a (b * 2 ^ 20) 26) by lia.
  replace (a * 2 ^ 26 + b * 2 ^ 20) with ((a * 2 ^ 6 + b) * 2 ^ 20) by lia.
  rewrite (lor_small_add _ (c * 2 ^ 14) 20) by lia.
  replace ((a * 2 ^ 6 + b) * 2 ^ 20 + c * 2 ^ 14) with (((a * 2 ^ 6 + b) * 2 ^ 6 + c) * 2 ^ 14) by lia.
  rewrite (lor_small_add _ (d * 2 ^ 8) 14) by lia. lia.
Qed.

Lemma gather3 a b c : a < 64 -> b < 64 -> c < 64 ->
  gather (map digit_char [a; b; c]) offsets 0 = a * 2 ^ 26 + b * 2 ^ 20 + c * 2 ^ 14.
Proof.
  intros Ha Hb Hc. cbn [map gather offsets]. rewrite !rlookup_digit by assumption.
  rewrite !shl32_small by lia. rewrite N.lor_0_l.
  rewrite (lor_small_add a (b * 2 ^ 20) 26) by lia.
  replace (a * 2 ^ 26 + b * 2 ^ 20) with ((a * 2 ^ 6 + b) * 2 ^ 20) by lia.
  rewrite (lor_small_add _ (c * 2 ^ 14) 20) by lia. lia.
Qed.

Lemma gather2 a b : a < 64 -> b < 64 ->
  gather (map digit_char [a; b]) offsets 0 = a * 2 ^ 26 + b * 2 ^ 20.
Proof.
  intros Ha Hb. cbn [map gather offsets]. rewrite !rlookup_digit by assumption.
  rewrite !shl32_small by lia. rewrite N.lor_0_l.
  rewrite (lor_small_add a (b * 2 ^ 20) 26) by lia. reflexivity.
Qed.

Lemma gather1 a : a < 64 -> gather (map digit_char [a]) offsets 0 = a * 2 ^ 26.
Proof.
  intros Ha. cbn [map gather offsets]. rewrite !rlookup_digit by assumption.
  rewrite !shl32_small by lia. apply N.lor_0_l.
Qed.

Lemma fragment_byte_eq f k : fragment_byte f k = (f / 2 ^ (k * 8)) mod 256.
Proof. unfold fragment_byte. rewrite N.shiftr_div_pow2. reflexivity. Qed.

Lemma decode_body_digits ds : Forall (fun d => d < 64) ds ->
  decode_body (map digit_char ds) = dec_digits ds.
Proof.
  induction ds as [|a|a b|a b c|a b c d ds IH] using list_ind4; intros H;
    repeat match goal with H : Forall _ (_ :: _) |- _ => inversion H; clear H; subst end.
  - reflexivity.
  - change (decode_body (map digit_char [a])) with (extra_bytes (gather (map digit_char [a]) offsets 0) 1).
    rewrite gather1 by assumption. unfold extra_bytes. cbn [length_map nth filter map].
    change (2 <? 3) with true; change (2 <? 2) with false; change (2 <? 1) with false.
    cbn [map dec_digits]. rewrite fragment_byte_eq. f_equal. lia.
  - change (decode_body (map digit_char [a; b])) with (extra_bytes (gather (map digit_char [a; b]) offsets 0) 2).
    rewrite gather2 by assumption. unfold extra_bytes. cbn [length_map nth filter map].
    change (2 <? 3) with true; change (2 <? 2) with false; change (2 <? 1) with false.
    cbn [map dec_digits]. rewrite fragment_byte_eq. f_equal. lia.
  - change (decode_body (map digit_char [a; b; c])) with (extra_bytes (gather (map digit_char [a; b; c]) offsets 0) 3).
    rewrite gather3 by assumption. unfold extra_bytes. cbn [length_map nth filter map].
    change (1 <? 3) with true; change (1 <? 2) with true; change (1 <? 1) with false.
    cbn [map dec_digits]. rewrite !fragment_byte_eq. f_equal; [lia|f_equal; lia].
  - pose proof (gather4 a b c d) as G. cbn [map] in G. cbn [map decode_body]. rewrite G by assumption.
    rewrite IH by assumption. cbn [dec_digits]. rewrite !fragment_byte_eq.
    f_equal; [lia|f_equal; [lia|f_equal; lia]].
Qed.

Lemma dec_digits_length ds :
  (length ds mod 4 <> 1)%nat -> N.of_nat (length (dec_digits ds)) = 3 * N.of_nat (length ds) / 4.
Proof.
  induction ds as [|a|a b|a b c|a b c d ds IH] using list_ind4; intros H; try reflexivity.
  - exfalso; apply H; reflexivity.
  - cbn [dec_digits length] in *.
    assert (Hm : (length ds mod 4 <> 1)%nat).
    { intros Q; apply H. change (S (S (S (S (length ds))))) with (4 + length ds)%nat. lia. }
    specialize (IH Hm). lia.
Qed.

Lemma wellformed_digits s : WellFormed s <->
  exists ds p, s = map digit_char ds ++ repeat pad_char p /\ (p <= 2)%nat /\
               Forall (fun d => d < 64) ds /\ (length s mod 4 = 0)%nat.
Proof.
  split.
  - intros (body & p & -> & Hp & Hf & Hm).
    assert (Hd : exists ds, body = map digit_char ds /\ Forall (fun d => d < 64) ds).
    { clear Hm. induction Hf as [|c body [v [Hv ->]] _ (ds & -> & Hds)].
      - exists []; split; constructor.
      - exists (v :: ds); split; [reflexivity|constructor; assumption]. }
    destruct Hd as (ds & -> & Hds). exists ds, p; auto.
  - intros (ds & p & -> & Hp & Hf & Hm). exists (map digit_char ds), p. repeat split; auto.
    clear Hm. induction Hf as [|d ds Hd Hf IH]; constructor; [exists d; auto|exact IH].
Qed.

Lemma find_pad_body ds p : Forall (fun d => d < 64) ds ->
  find_pad (map digit_char ds ++ repeat pad_char p) = repeat pad_char p.
Proof.
  intros H; induction H as [|d ds Hd _ IH].
  - destruct p; reflexivity.
  - cbn [map app find_pad]. destruct (digit_char_byte d Hd) as [_ Q].
    destruct (N.eqb_spec (digit_char d) 61); [contradiction|exact IH].
Qed.

Lemma validate_complete s : WellFormed s -> validate s = true.
Proof.
  rewrite wellformed_digits. intros (ds & p & -> & Hp & Hf & Hm). unfold validate.
  destruct (N.eqb_spec (N.of_nat (length (map digit_char ds ++ repeat pad_char p)) mod 4) 0) as [_|Q]; [|lia].
  cbn [negb].
  assert (Ei : existsb is_invalid (map digit_char ds ++ repeat pad_char p) = false).
  { clear Hm. rewrite existsb_app. apply orb_false_iff; split.
    - induction Hf as [|d ds Hd _ IH]; [reflexivity|]. cbn [map existsb]. rewrite IH, orb_false_r.
      unfold is_invalid. rewrite rlookup_digit by exact Hd. unfold INVALID. lia.
    - clear Hp. induction p as [|p IHp]; [reflexivity|]. cbn [repeat existsb]. rewrite IHp. reflexivity. }
  rewrite Ei, find_pad_body by exact Hf. rewrite repeat_length.
  destruct (N.ltb_spec 2 (N.of_nat p)) as [Q|_]; [lia|].
  assert (En : existsb is_not_padding (repeat pad_char p) = false).
  { clear. induction p as [|p IHp]; [reflexivity|]. cbn [repeat existsb]. rewrite IHp. reflexivity. }
  rewrite En. reflexivity.
Qed.

Lemma validate_sound s : all_bytes s -> validate s = true -> WellFormed s.
Proof.
  intros Hb. unfold validate.
  destruct (N.eqb_spec (N.of_nat (length s) mod 4) 0) as [Hm|]; [|discriminate]. cbn [negb].
  destruct (existsb is_invalid s) eqn:Ei; [discriminate|].
  destruct (N.ltb_spec 2 (N.of_nat (length (find_pad s)))) as [|Hp]; [discriminate|].
  destruct (existsb is_not_padding (find_pad s)) eqn:En; [discriminate|]. intros _.
  assert (G : forall t, all_bytes t -> existsb is_invalid t = false ->
                        existsb is_not_padding (find_pad t) = false ->
              exists body, t = body ++ repeat pad_char (length (find_pad t)) /\ Forall in_alphabet body).
  { clear. induction t as [|c t IH]; intros Hb Ei En.
    - exists []; split; [reflexivity|constructor].
    - inversion Hb as [|? ? Hc Ht]; subst. cbn [existsb] in Ei. apply orb_false_iff in Ei as [Ec Et].
      cbn [find_pad] in *. destruct (N.eqb_spec c 61) as [->|Hne].
      + exists []; split; [|constructor]. cbn [app].
        clear IH Hb Ec Et Hc. change 61 with pad_char in *.
        assert (Ht' : all_bytes (pad_char :: t)) by (constructor; [reflexivity|exact Ht]). clear Ht.
        revert En Ht'. generalize (pad_char :: t) as u. clear.
        induction u as [|x u IHu]; intros En Hb; [reflexivity|].
        inversion Hb; subst. cbn [existsb] in En. apply orb_false_iff in En as [Ex Eu].
        rewrite is_not_padding_eq in Ex by assumption.
        cbn [length repeat]. f_equal; [unfold pad_char; lia|apply IHu; assumption].
      + destruct (IH Ht Et En) as (body & E & Hf).
        exists (c :: body); split; [cbn [app]; congruence|]. constructor; [|exact Hf].
        destruct (char_cases c Hc) as [(Q & _)|[(_ & Q)|(_ & _ & Hl & Q)]]; [congruence|contradiction|].
        exists (rlookup c); auto. }
  destruct (G s Hb Ei En) as (body & E & Hf).
  exists body, (length (find_pad s)). repeat split; auto; lia.
Qed.

Lemma validate_iff s : all_bytes s -> (validate s = true <-> WellFormed s).
Proof. intros H; split; [apply validate_sound, H|apply validate_complete]. Qed.

(* ---- lengths small enough for int arithmetic in the decoder *)
Definition dlen_ok (s : bytes) : Prop := 3 * N.of_nat (length s) < 2 ^ 31.

Lemma unpadded_le s : (source_length_unpadded s <= length s)%nat.
Proof.
  unfold source_length_unpadded. induction s as [|c s IH]; [reflexivity|].
  cbn [filter length]. destruct (is_not_padding c); cbn [length]; lia.
Qed.

Lemma target_ok s : dlen_ok s ->
  target_decoded_length s = Ok (3 * N.of_nat (source_length_unpadded s) / 4).
Proof.
  unfold dlen_ok, target_decoded_length, fits_int, int_max. change (2 ^ 31) with 2147483648. intros H.
  pose proof (unpadded_le s).
  destruct (N.leb_spec (3 * N.of_nat (source_length_unpadded s)) 2147483647); [reflexivity|lia].
Qed.

Lemma decode_wf ds p :
  Forall (fun d => d < 64) ds -> (length ds mod 4 <> 1)%nat ->
  decode (map digit_char ds ++ repeat pad_char p) (3 * N.of_nat (length ds) / 4) = Ok (dec_digits ds).
Proof.
  intros Hf Hm. unfold decode. rewrite unpadded_body, firstn_body, decode_body_digits by exact Hf.
  rewrite dec_digits_length by exact Hm. rewrite N.eqb_refl. reflexivity.
Qed.

Lemma wf_mod ds p : (p <= 2)%nat ->
  (length (map digit_char ds ++ repeat pad_char p) mod 4 = 0)%nat -> (length ds mod 4 <> 1)%nat.
Proof. intros Hp. rewrite app_length, map_length, repeat_length. lia. Qed.

Lemma dec_digits_bits ds : Forall (fun d => d < 64) ds -> (length ds mod 4 <> 1)%nat ->
  exists rest, digit_bits ds = bit_string (dec_digits ds) ++ rest /\ (length rest < 8)%nat.
Proof.
  assert (E : forall ds, Forall (fun d => d < 64) ds ->
     forall a b, a < 64 -> b < 64 -> bits8 (a * 4 + b / 16) = bits6 a ++ firstn 2 (bits6 b)).
  { intros _ _ a b Ha Hb. apply bools_eqb_eq. revert b Hb. apply (N_sweep 64 (fun b => bools_eqb _ _)).
    revert a Ha. apply (N_sweep 64 (fun a => forallb _ _)). vm_compute; reflexivity. }
  assert (E1 : forall a b, a < 64 -> b < 64 -> bits8 ((a mod 16) * 16 + b / 4) = skipn 2 (bits6 a) ++ firstn 4 (bits6 b)).
  { intros a b Ha Hb. apply bools_eqb_eq. revert b Hb. apply (N_sweep 64 (fun b => bools_eqb _ _)).
    revert a Ha. apply (N_sweep 64 (fun a => forallb _ _)). vm_compute; reflexivity. }
  assert (E2 : forall a b, a < 64 -> b < 64 -> bits8 ((a mod 4) * 64 + b) = skipn 4 (bits6 a) ++ bits6 b).
  { intros a b Ha Hb. apply bools_eqb_eq. revert b Hb. apply (N_sweep 64 (fun b => bools_eqb _ _)).
    revert a Ha. apply (N_sweep 64 (fun a => forallb _ _)). vm_compute; reflexivity. }
  specialize (E [] ltac:(constructor)).
  induction ds as [|a|a b|a b c|a b c d ds IH] using list_ind4; intros H Hm;
    repeat match goal with H : Forall _ (_ :: _) |- _ => inversion H; clear H; subst end.
  - exists []; split; [reflexivity|cbn; lia].
  - exfalso; apply Hm; reflexivity.
  - exists (skipn 2 (bits6 b)). split; [|cbn; lia].
    unfold digit_bits, bit_string; cbn [dec_digits flat_map]. rewrite E by assumption. reflexivity.
  - exists (skipn 4 (bits6 c)). split; [|cbn; lia].
    unfold digit_bits, bit_string; cbn [dec_digits flat_map]. rewrite E, E1 by assumption. reflexivity.
  - destruct IH as (rest & Er & Hr); [assumption| |].
    { cbn [length] in Hm. intros Q; apply Hm.
      change (S (S (S (S (length ds))))) with (4 + length ds)%nat. lia. }
    exists rest; split; [|exact Hr].
    unfold digit_bits, bit_string in *; cbn [dec_digits flat_map]. rewrite Er, E, E1, E2 by assumption.
    rewrite <- !app_assoc. reflexivity.
Qed.

Lemma dec_is_decoding ds p :
  Forall (fun d => d < 64) ds -> (p <= 2)%nat ->
  (length (map digit_char ds ++ repeat pad_char p) mod 4 = 0)%nat ->
  IsDecoding (map digit_char ds ++ repeat pad_char p) (dec_digits ds).
Proof.
  intros Hf Hp Hm. destruct (dec_digits_bits ds Hf (wf_mod _ _ Hp Hm)) as (rest & E & Hr).
  exists ds, p, rest. auto.
Qed.

Lemma resize_length l n : N.of_nat (length (resize l n)) = n.
Proof.
  unfold resize. rewrite app_length, firstn_length, repeat_length. lia.
Qed.

Lemma resize_cases l n : (n = 0 /\ resize l n = []) \/ (0 < n /\ exists x r, resize l n = x :: r).
Proof.
  pose proof (resize_length l n) as H. destruct (resize l n) as [|x r]; cbn [length] in H.
  - left; split; [lia|reflexivity].
  - right; split; [lia|eauto].
Qed.

(* one-argument decoder *)
Lemma decode1_wf s : all_bytes s -> dlen_ok s -> WellFormed s ->
  exists l, base64_decode1 s = Ok l /\ IsDecoding s l.
Proof.
  intros Hb Hl Hw. pose proof (validate_complete s Hw) as Hv.
  apply wellformed_digits in Hw as (ds & p & -> & Hp & Hf & Hm).
  exists (dec_digits ds). split; [|apply dec_is_decoding; assumption].
  unfold base64_decode1. rewrite Hv, target_ok, unpadded_body by assumption. cbn [negb bind].
  rewrite decode_wf by (eauto using wf_mod).
  destruct (map digit_char ds ++ repeat pad_char p) eqn:E; [|reflexivity].
  destruct ds; [reflexivity|discriminate].
Qed.

Lemma decode1_not_wf s : all_bytes s -> ~ WellFormed s -> base64_decode1 s = Ok [].
Proof.
  intros Hb Hw. unfold base64_decode1. destruct s as [|c s]; [reflexivity|].
  destruct (validate (c :: s)) eqn:E; [|reflexivity]. exfalso; apply Hw, validate_sound; assumption.
Qed.

(* two-argument decoder, resizable destination *)
Lemma decode2_wf s buf : all_bytes s -> dlen_ok s -> WellFormed s ->
  exists l, base64_decode2 Dynamic s buf = Ok (true, l) /\ IsDecoding s l.
Proof.
  intros Hb Hl Hw. pose proof (validate_complete s Hw) as Hv.
  apply wellformed_digits in Hw as (ds & p & -> & Hp & Hf & Hm).
  exists (dec_digits ds). split; [|apply dec_is_decoding; assumption].
  pose proof (wf_mod _ _ Hp Hm) as Hm'.
  unfold base64_decode2. rewrite Hv, target_ok, unpadded_body by assumption.
  cbn [bind prepare_output_buffer negb].
  pose proof (dec_digits_length ds Hm') as Hd.
  destruct (resize_cases buf (3 * N.of_nat (length ds) / 4)) as [[Hz ->]|[Hz (x & r & Er)]].
  - destruct (dec_digits ds); [reflexivity|cbn [length] in Hd; lia].
  - pose proof (resize_length buf (3 * N.of_nat (length ds) / 4)) as Hr. rewrite Er in *.
    rewrite Hr, decode_wf by assumption. reflexivity.
Qed.

Lemma unpadded_non_pad s : all_bytes s -> source_length_unpadded s = non_pad_count s.
Proof.
  unfold source_length_unpadded, non_pad_count. intros Hb. f_equal.
  induction Hb as [|c s Hc _ IH]; [reflexivity|]. cbn [filter].
  rewrite is_not_padding_eq, IH by exact Hc. reflexivity.
Qed.

Lemma decode2_true_iff s buf : all_bytes s -> dlen_ok s ->
  ((exists l, base64_decode2 Dynamic s buf = Ok (true, l)) <->
   (WellFormed s \/ (non_pad_count s <= 1)%nat)).
Proof.
  intros Hb Hl.
  pose proof (unpadded_non_pad s Hb) as Hsl.
  split.
  - intros [l H]. unfold base64_decode2 in H. rewrite target_ok in H by exact Hl.
    cbn [bind prepare_output_buffer negb] in H. rewrite Hsl in H.
    destruct (resize_cases buf (3 * N.of_nat (non_pad_count s) / 4))
      as [[Hz E]|[Hz (x & r & E)]]; rewrite E in H.
    + right. lia.
    + destruct (validate s) eqn:Ev; cbn [negb] in H; [|discriminate].
      left; apply validate_sound; assumption.
  - intros [Hw|Hs].
    + destruct (decode2_wf s buf Hb Hl Hw) as (l & E & _); eauto.
    + unfold base64_decode2. rewrite target_ok by exact Hl. cbn [bind prepare_output_buffer negb].
      rewrite Hsl.
      destruct (resize_cases buf (3 * N.of_nat (non_pad_count s) / 4))
        as [[Hz E]|[Hz _]]; [rewrite E; eauto|lia].
Qed.

(* never undefined behaviour *)
Lemma decode2_total k s buf : all_bytes s -> dlen_ok s -> base64_decode2 k s buf <> UB.
Proof.
  intros Hb Hl. unfold base64_decode2. rewrite target_ok by exact Hl. cbn [bind].
  assert (G : forall b, N.of_nat (length b) = 3 * N.of_nat (source_length_unpadded s) / 4 ->
     (if negb (validate s) then Ok (false, b)
      else let! out := decode s (N.of_nat (length b)) in Ok (true, out)) <> UB).
  { intros b Hbl. destruct (validate s) eqn:Ev; cbn [negb]; [|discriminate].
    apply validate_sound in Ev; [|exact Hb].
    apply wellformed_digits in Ev as (ds & p & -> & Hp & Hf & Hm).
    rewrite Hbl, unpadded_body by exact Hf. rewrite decode_wf by (eauto using wf_mod). discriminate. }
  destruct k; cbn [prepare_output_buffer].
  - cbn [negb]. pose proof (resize_length buf (3 * N.of_nat (source_length_unpadded s) / 4)) as Hr.
    destruct (resize buf _) as [|x r] eqn:E; [discriminate|]. rewrite <- E in *. apply G, Hr.
  - destruct (N.eqb_spec (N.of_nat (length buf)) (3 * N.of_nat (source_length_unpadded s) / 4)) as [E|E];
      cbn [negb]; [|discriminate].
    destruct buf as [|x r]; [discriminate|]. apply G, E.
Qed.

(* fixed-size destination *)
Lemma decode2_fixed_fail s buf r :
  base64_decode2 Fixed s buf = Ok (false, r) -> r = buf.
Proof.
  unfold base64_decode2. destruct (target_decoded_length s) as [n|]; [|discriminate].
  cbn [bind prepare_output_buffer]. destruct (N.of_nat (length buf) =? n); cbn [negb].
  - destruct buf as [|x b]; [discriminate|]. destruct (validate s); cbn [negb]; [|congruence].
    destruct (decode _ _); discriminate.
  - congruence.
Qed.

Lemma decode2_fixed_success s buf r : all_bytes s -> dlen_ok s -> WellFormed s ->
  base64_decode2 Fixed s buf = Ok (true, r) -> length r = length buf /\ IsDecoding s r.
Proof.
  intros Hb Hl Hw. pose proof (validate_complete s Hw) as Hv.
  apply wellformed_digits in Hw as (ds & p & -> & Hp & Hf & Hm).
  pose proof (wf_mod _ _ Hp Hm) as Hm'. pose proof (dec_digits_length ds Hm') as Hd.
  unfold base64_decode2. rewrite Hv, target_ok, unpadded_body by assumption.
  cbn [bind prepare_output_buffer negb].
  destruct (N.eqb_spec (N.of_nat (length buf)) (3 * N.of_nat (length ds) / 4)) as [E|E]; cbn [negb]; [|discriminate].
  assert (R : buf = [] -> dec_digits ds = []).
  { intros ->. cbn [length] in E. destruct (dec_digits ds); [reflexivity|cbn [length] in Hd; lia]. }
  destruct buf as [|x b].
  - intros [= <-]. split; [reflexivity|]. rewrite <- (R eq_refl). apply dec_is_decoding; assumption.
  - rewrite E, decode_wf by assumption. cbn [bind]. intros [= <-]. split; [lia|apply dec_is_decoding; assumption].
Qed.

Lemma decode2_fixed_mismatch s buf : dlen_ok s ->
  N.of_nat (length buf) <> 3 * N.of_nat (source_length_unpadded s) / 4 ->
  base64_decode2 Fixed s buf = Ok (false, buf).
Proof.
  intros Hl Hn. unfold base64_decode2. rewrite target_ok by exact Hl. cbn [bind prepare_output_buffer].
  destruct (N.eqb_spec (N.of_nat (length buf)) (3 * N.of_nat (source_length_unpadded s) / 4)); [contradiction|reflexivity].
Qed.

(* ------------------------------------------------ round trip *)
Lemma encode_wf l s : all_bytes l -> len_ok l -> base64_encode l = Ok s ->
  WellFormed s /\ all_bytes s /\ s = map digit_char (enc_digits l)
        ++ repeat pad_char (N.to_nat ((3 - N.of_nat (length l) mod 3) mod 3)).
Proof.
  intros Hb Hl Hs. pose proof (base64_encode_length l s Hb Hl Hs) as Hlen.
  rewrite base64_encode_eq in Hs by assumption. injection Hs as Hs. subst s.
  pose proof (enc_digits_lt l Hb) as Hf. split; [|split; [|reflexivity]].
  - apply wellformed_digits. do 2 eexists. split; [reflexivity|]. split; [lia|]. split; [exact Hf|lia].
  - apply Forall_app; split.
    + apply Forall_map. eapply Forall_impl; [|exact Hf]. intros d Hd. apply digit_char_byte, Hd.
    + apply Forall_forall. intros x Hx. apply repeat_spec in Hx. subst x. reflexivity.
Qed.

Lemma base64_round_trip l : all_bytes l -> len_ok l ->
  exists s, base64_encode l = Ok s /\
            base64_decode1 s = Ok l /\
            (forall buf, base64_decode2 Dynamic s buf = Ok (true, l)) /\
            (forall buf, length buf = length l -> base64_decode2 Fixed s buf = Ok (true, l)).
Proof.
  intros Hb Hl. pose proof (base64_encode_eq l Hb Hl) as Es.
  eexists; split; [exact Es|].
  destruct (encode_wf l _ Hb Hl Es) as (Hw & Hbs & _).
  pose proof (validate_complete _ Hw) as Hv.
  pose proof (enc_digits_lt l Hb) as Hf. pose proof (enc_digits_length l) as Hel.
  pose proof (base64_encode_length l _ Hb Hl Es) as Hlen.
  set (p := N.to_nat ((3 - N.of_nat (length l) mod 3) mod 3)) in *.
  set (ds := enc_digits l) in *.
  assert (Ht : target_decoded_length (map digit_char ds ++ repeat pad_char p) = Ok (N.of_nat (length l))).
  { unfold target_decoded_length. rewrite unpadded_body by exact Hf. unfold fits_int, int_max.
    unfold len_ok in Hl. change (2 ^ 31) with 2147483648 in Hl.
    destruct (N.leb_spec (3 * N.of_nat (length ds)) 2147483647); [f_equal; lia|lia]. }
  assert (Hd : decode (map digit_char ds ++ repeat pad_char p) (N.of_nat (length l)) = Ok l).
  { unfold decode. rewrite unpadded_body, firstn_body, decode_body_digits by exact Hf.
    unfold ds. rewrite dec_enc_digits by exact Hb. rewrite N.eqb_refl. reflexivity. }
  split; [|split].
  - unfold base64_decode1. rewrite Hv, Ht. cbn [negb bind]. rewrite Hd.
    destruct (map digit_char ds ++ repeat pad_char p) as [|c0 s0] eqn:E; [|reflexivity].
    destruct l; [reflexivity|]. cbn [length] in Hlen. lia.
  - intros buf. unfold base64_decode2. rewrite Ht, Hv. cbn [bind prepare_output_buffer negb].
    pose proof (resize_length buf (N.of_nat (length l))) as Hr.
    destruct (resize buf (N.of_nat (length l))) as [|x r] eqn:E.
    + destruct l; [reflexivity|cbn [length] in Hr; lia].
    + rewrite Hr, Hd. reflexivity.
  - intros buf Hbuf. unfold base64_decode2. rewrite Ht, Hv. cbn [bind prepare_output_buffer negb].
    rewrite Hbuf, N.eqb_refl. cbn [negb]. destruct buf as [|x r].
    + destruct l; [reflexivity|discriminate].
    + rewrite <- Hbuf in Hd. rewrite Hbuf in Hd. rewrite <- Hbuf.
      rewrite Hbuf, Hd. reflexivity.
Qed.
