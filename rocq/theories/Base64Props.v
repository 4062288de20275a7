(* Properties C01-C04 (base64). *)
From Coq Require Import String.
From Verif Require Import Base Base64Model Base64Spec Base64Proofs.
Open Scope N_scope.

(* C01: whatever is encoded is decoded back, by every decoder overload. *)
Theorem C01_base64_round_trip :
  forall l, all_bytes l -> 4 * N.of_nat (length l) < 2 ^ 31 ->
  exists s, base64_encode l = Ok s /\
            base64_decode1 s = Ok l /\
            (forall buf, base64_decode2 Dynamic s buf = Ok (true, l)) /\
            (forall buf, length buf = length l -> base64_decode2 Fixed s buf = Ok (true, l)).
Proof. exact base64_round_trip. Qed.
Print Assumptions C01_base64_round_trip.

Example C01_ex : all_bytes [255; 35; 254; 123] /\ base64_encode [255; 35; 254; 123] = Ok (bs "/yP+ew==").
Proof. split; [repeat constructor|vm_compute; reflexivity]. Qed.

(* C01 fails for buffers whose element type is a signed char (std::string is accepted by the
   ContiguousByteContainer constraint): sign extension corrupts the group. *)
Theorem C01_signed_char_refuted :
  exists l s, all_bytes l /\ base64_encode_gen true l = Ok s /\ base64_decode1 s <> Ok l.
Proof.
  exists [1; 200; 200], (bs "///I"). split; [repeat constructor|].
  split; [vm_compute; reflexivity|vm_compute; discriminate].
Qed.
Print Assumptions C01_signed_char_refuted.

(* C02: the output is the RFC 4648 text (and that text is unique), of the expected length. *)
Theorem C02_base64_encode_is_rfc4648 :
  forall l, all_bytes l -> 4 * N.of_nat (length l) < 2 ^ 31 ->
  exists s, base64_encode l = Ok s /\ IsEncoding l s /\ (forall s', IsEncoding l s' -> s' = s) /\
            N.of_nat (length s) = 4 * ((N.of_nat (length l) + 2) / 3).
Proof.
  intros l Hb Hl. pose proof (base64_encode_eq l Hb Hl) as E. eexists. split; [exact E|].
  pose proof (encode_is_encoding l _ Hb Hl E) as H.
  split; [exact H|]. split; [intros s' H'; exact (encoding_unique _ _ _ H' H)|].
  exact (base64_encode_length l _ Hb Hl E).
Qed.
Print Assumptions C02_base64_encode_is_rfc4648.

Example C02_ex : base64_encode (bs "leasure.") = Ok (bs "bGVhc3VyZS4=").
Proof. vm_compute; reflexivity. Qed.

(* C03, full statement:  for all byte strings s and buffers buf,
     (exists l, base64_decode2 Dynamic s buf = Ok (true, l)) <-> WellFormed s.
   It is false: an input with at most one non-padding character is accepted unseen. *)
Theorem C03_accepts_exactly_wellformed_refuted :
  exists s, all_bytes s /\ ~ WellFormed s /\ base64_decode2 Dynamic s [] = Ok (true, []).
Proof.
  exists (bs "!"). split; [repeat constructor|]. split; [|vm_compute; reflexivity].
  intros H. apply validate_complete in H. vm_compute in H. discriminate.
Qed.
Print Assumptions C03_accepts_exactly_wellformed_refuted.

(* What does hold for every input: the exact acceptance condition, and what is produced. *)
Theorem C03_accepts_exactly_wellformed_partial :
  forall s buf, all_bytes s -> 3 * N.of_nat (length s) < 2 ^ 31 ->
    ((exists l, base64_decode2 Dynamic s buf = Ok (true, l)) <->
     (WellFormed s \/ (non_pad_count s <= 1)%nat)) /\
    ((2 <= non_pad_count s)%nat ->
     ((exists l, base64_decode2 Dynamic s buf = Ok (true, l)) <-> WellFormed s)) /\
    (WellFormed s -> exists l, base64_decode2 Dynamic s buf = Ok (true, l) /\ IsDecoding s l) /\
    base64_decode2 Dynamic s buf <> UB.
Proof.
  intros s buf Hb Hl. pose proof (decode2_true_iff s buf Hb Hl) as H.
  split; [exact H|]. split.
  - intros H2. rewrite H. split; [intros [Hw|Hc]; [exact Hw|lia]|auto].
  - split; [exact (decode2_wf s buf Hb Hl)|exact (decode2_total Dynamic s buf Hb Hl)].
Qed.
Print Assumptions C03_accepts_exactly_wellformed_partial.

Example C03_ex : WellFormed (bs "ZWFzdXJlLg==") /\ (2 <= non_pad_count (bs "ZWFzdXJlLg=="))%nat.
Proof. split; [apply validate_sound; [repeat constructor|vm_compute; reflexivity]|vm_compute; lia]. Qed.
(* what a rejected text leaves behind: as many bytes as the text seemed to have, the old ones first and then zeros *)
Theorem C03_rejected : forall s buf l, all_bytes s -> 3 * N.of_nat (length s) < 2 ^ 31 ->
  base64_decode2 Dynamic s buf = Ok (false, l) ->
  N.of_nat (length l) = 3 * N.of_nat (non_pad_count s) / 4 /\ (2 <= non_pad_count s)%nat /\
  forall i, (i < length l)%nat -> nth_error l i = Some (nth i buf 0).
Proof.
  intros s buf l Hb Hl H. unfold base64_decode2 in H. rewrite target_ok, unpadded_non_pad in H by assumption. cbn [bind prepare_output_buffer negb] in H.
  set (n := 3 * N.of_nat (non_pad_count s) / 4) in *. pose proof (resize_length buf n) as L.
  assert (E : l = resize buf n /\ n <> 0).
  { destruct (resize buf n) as [|x r] eqn:E; [discriminate|]. split; [|cbn [length] in L; lia].
    destruct (validate s); cbn [negb] in H; [destruct (decode _ _); discriminate|]. congruence. }
  destruct E as [-> Hn]. split; [exact L|]. split.
  - destruct (Nat.le_gt_cases 2 (non_pad_count s)) as [X|X]; [exact X|]. exfalso. apply Hn. unfold n. apply N.div_small. lia.
  - intros i Hi. unfold resize in *. destruct (Nat.lt_ge_cases i (length (firstn (N.to_nat n) buf))) as [A|A].
    + rewrite nth_error_app1 by exact A. rewrite firstn_length in A. rewrite nth_error_nth' with (d := 0) by (rewrite firstn_length; exact A).
      f_equal. rewrite <- (firstn_skipn (N.to_nat n) buf) at 2. rewrite app_nth1; [reflexivity|rewrite firstn_length; exact A].
    + rewrite nth_error_app2 by exact A. rewrite app_length, repeat_length in Hi. rewrite nth_error_repeat by lia. f_equal.
      symmetry. apply nth_overflow. rewrite firstn_length in *. lia.
Qed.
Print Assumptions C03_rejected.
Example C03_ex_reject_old : base64_decode2 Dynamic (bs "c3#VyZS4") [7; 8] = Ok (false, [7;8;0;0;0;0]) /\
  base64_decode2 Dynamic (bs "A=A") [7; 8] = Ok (false, [7]).
Proof. vm_compute. auto. Qed.
Example C03_ex_reject : base64_decode2 Dynamic (bs "c3#VyZS4") [] = Ok (false, [0;0;0;0;0;0]).
Proof. vm_compute; reflexivity. Qed.

(* The one-argument decoder is exact: well-formed text gives its bytes, anything else gives none. *)
Theorem C03_one_argument_decoder :
  forall s, all_bytes s -> 3 * N.of_nat (length s) < 2 ^ 31 ->
    (WellFormed s -> exists l, base64_decode1 s = Ok l /\ IsDecoding s l) /\
    (~ WellFormed s -> base64_decode1 s = Ok []).
Proof. intros s Hb Hl. split; [exact (decode1_wf s Hb Hl)|exact (decode1_not_wf s Hb)]. Qed.
Print Assumptions C03_one_argument_decoder.

(* Decoding is not injective on accepted texts: unused trailing bits are ignored. *)
Theorem C03_canonical_text_only_refuted :
  exists s1 s2, s1 <> s2 /\ WellFormed s1 /\ WellFormed s2 /\ base64_decode1 s1 = base64_decode1 s2.
Proof.
  exists (bs "QQ=="), (bs "QR=="). split; [vm_compute; discriminate|].
  split; [apply validate_sound; [repeat constructor|vm_compute; reflexivity]|].
  split; [apply validate_sound; [repeat constructor|vm_compute; reflexivity]|].
  vm_compute; reflexivity.
Qed.
Print Assumptions C03_canonical_text_only_refuted.

(* C04: a rejected decode into a fixed-size destination leaves it untouched; a size mismatch is
   always rejected; success fills exactly the destination; the one-argument form yields no bytes. *)
Theorem C04_failure_leaves_destination :
  forall s buf, all_bytes s -> 3 * N.of_nat (length s) < 2 ^ 31 ->
    base64_decode2 Fixed s buf <> UB /\
    (forall r, base64_decode2 Fixed s buf = Ok (false, r) -> r = buf) /\
    (N.of_nat (length buf) <> 3 * N.of_nat (non_pad_count s) / 4 ->
       base64_decode2 Fixed s buf = Ok (false, buf)) /\
    (forall r, WellFormed s -> base64_decode2 Fixed s buf = Ok (true, r) ->
       length r = length buf /\ IsDecoding s r) /\
    (~ WellFormed s -> base64_decode1 s = Ok []).
Proof.
  intros s buf Hb Hl. split; [exact (decode2_total Fixed s buf Hb Hl)|].
  split; [intros r; exact (decode2_fixed_fail s buf r)|].
  split; [|split; [intros r; exact (decode2_fixed_success s buf r Hb Hl)|exact (decode1_not_wf s Hb)]].
  intros Hn. apply decode2_fixed_mismatch; [exact Hl|].
  rewrite (unpadded_non_pad s Hb). exact Hn.
Qed.
Print Assumptions C04_failure_leaves_destination.

Example C04_ex_mismatch : base64_decode2 Fixed (bs "YXN1cmUu") [7; 7; 7] = Ok (false, [7; 7; 7]).
Proof. vm_compute; reflexivity. Qed.
Example C04_ex_success : base64_decode2 Fixed (bs "YXN1cmUu") [7; 7; 7; 7; 7; 7] = Ok (true, bs "asure.").
Proof. vm_compute; reflexivity. Qed.

(* The bounds of C01 to C04 are exact: beyond them 4*n (base64_encode.hpp:41) and 3*n (base64_decode.hpp:78) overflow an int. *)
Theorem C01_long : forall l, 2 ^ 31 <= 4 * N.of_nat (length l) -> N.of_nat (length l) < 2 ^ 31 -> base64_encode l = UB.
Proof.
  intros l H _. unfold base64_encode, base64_encode_gen, encoding_length_padded, fits_int, int_max. rewrite (proj2 (N.leb_gt _ _)); [reflexivity|].
  change (2 ^ 31) with 2147483648 in H. lia.
Qed.
Lemma all_bytes_repeat c n : c < 256 -> all_bytes (repeat c n).
Proof. intros H. apply Forall_forall. intros x Hx. apply repeat_spec in Hx as ->. exact H. Qed.
Theorem C01_long_refuted : ~ (forall l, all_bytes l -> exists s, base64_encode l = Ok s).
Proof.
  intros H. assert (G : exists n, N.of_nat n = 2 ^ 29) by (exists (N.to_nat (2 ^ 29)); apply N2Nat.id). destruct G as (n & Hn).
  destruct (H (repeat 0 n)) as (s & E); [apply all_bytes_repeat; reflexivity|].
  rewrite C01_long in E; [discriminate| |]; rewrite repeat_length, Hn; [discriminate|reflexivity].
Qed.
Theorem C03_long : forall s k buf, all_bytes s -> 2 ^ 31 <= 3 * N.of_nat (non_pad_count s) -> N.of_nat (non_pad_count s) < 2 ^ 31 -> base64_decode2 k s buf = UB.
Proof.
  intros s k buf Hb H _. unfold base64_decode2, target_decoded_length, fits_int, int_max. rewrite (unpadded_non_pad s Hb), (proj2 (N.leb_gt _ _)); [reflexivity|].
  change (2 ^ 31) with 2147483648 in H. lia.
Qed.
Lemma non_pad_repeat n : non_pad_count (repeat 65 n) = n.
Proof. induction n as [|n IH]; [reflexivity|]. unfold non_pad_count in *. cbn [repeat filter]. change (negb (65 =? pad_char)) with true. cbn [length]. rewrite IH. reflexivity. Qed.
Lemma well_formed_repeat k : WellFormed (repeat 65 (4 * k)).
Proof.
  exists (repeat 65 (4 * k)), O. rewrite app_nil_r. split; [reflexivity|]. split; [lia|]. split; [|rewrite repeat_length, Nat.mul_comm; apply Nat.mod_mul; lia].
  apply Forall_forall. intros x Hx. apply repeat_spec in Hx as ->. exists 0. vm_compute. auto.
Qed.
(* so the decoders do not accept all well-formed text *)
Theorem C03_long_refuted : ~ (forall s, all_bytes s -> WellFormed s -> exists l, base64_decode2 Dynamic s [] = Ok (true, l)).
Proof.
  intros H. assert (G : exists n, N.of_nat n = 178956971) by (exists (N.to_nat 178956971); apply N2Nat.id). destruct G as (n & Hn).
  assert (B : all_bytes (repeat 65 (4 * n))) by (apply all_bytes_repeat; reflexivity).
  destruct (H (repeat 65 (4 * n)) B (well_formed_repeat n)) as (l & E).
  rewrite C03_long in E; [discriminate|exact B| |]; rewrite non_pad_repeat, Nat2N.inj_mul, Hn; [discriminate|reflexivity].
Qed.
Print Assumptions C01_long.
Print Assumptions C01_long_refuted.
Print Assumptions C03_long.
Print Assumptions C03_long_refuted.
