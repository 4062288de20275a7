(* Proofs about the hash. *)
From Coq Require Import String ZifyNat ZifyN.
From Verif Require Import Base HandshakeModel ShaModel ShaSpec.
Open Scope N_scope.
Ltac Zify.zify_post_hook ::= Z.div_mod_to_equations.

(* ---- the message schedule ---- *)
Definition next_word (W : list N) (t : nat) : N :=
  rotl 1 (N.lxor (N.lxor (N.lxor (nth (t - 3) W 0) (nth (t - 8) W 0)) (nth (t - 14) W 0)) (nth (t - 16) W 0)).

Lemma extend_prefix : forall n W, exists s, extend n W = W ++ s /\ length s = n.
Proof.
  induction n as [|n IH]; intros W; [exists []; now rewrite app_nil_r|]. cbn [extend].
  match goal with |- context[extend n (W ++ [?x])] => destruct (IH (W ++ [x])) as (s & E & L); exists (x :: s) end.
  rewrite E, <- app_assoc. cbn. auto.
Qed.

Lemma extend_nth n W t : (t < length W)%nat -> nth t (extend n W) 0 = nth t W 0.
Proof. intros H. destruct (extend_prefix n W) as (s & -> & _). now rewrite app_nth1. Qed.

Lemma extend_rec : forall n W t, (16 <= length W)%nat -> (length W <= t < length W + n)%nat -> nth t (extend n W) 0 = next_word (extend n W) t.
Proof.
  induction n as [|n IH]; intros W t HW Ht; [lia|].
  change (extend (S n) W) with (extend n (W ++ [next_word W (length W)])).
  set (x := next_word W (length W)). assert (L : length (W ++ [x]) = S (length W)) by (rewrite app_length; cbn; lia).
  destruct (Nat.eq_dec t (length W)) as [->|NE].
  - rewrite extend_nth by lia. rewrite app_nth2, Nat.sub_diag by lia. cbn [nth]. unfold next_word.
    rewrite !extend_nth by lia. rewrite !app_nth1 by lia. reflexivity.
  - apply IH; lia.
Qed.

Lemma schedule_rec b t : length b = 16%nat -> (16 <= t < 80)%nat -> nth t (schedule b) 0 = next_word (schedule b) t.
Proof. intros H Ht. unfold schedule. apply extend_rec; lia. Qed.
Lemma schedule_nth b t : (t < length b)%nat -> nth t (schedule b) 0 = nth t b 0.
Proof. apply extend_nth. Qed.

Lemma rol_rotl x n : rol x n = rotl n x.
Proof. reflexivity. Qed.

(* ---- the block array ---- *)
Lemma put_at_len b i x : (N.to_nat i < length b)%nat -> length (put_at b i x) = length b.
Proof. intros H. unfold put_at. rewrite app_length, firstn_length. cbn [length]. rewrite skipn_length. lia. Qed.

Lemma at_put b i j x : (N.to_nat i < length b)%nat -> at_ (put_at b i x) j = if j =? i then x else at_ b j.
Proof.
  intros H. unfold at_, put_at. destruct (N.eqb_spec j i) as [->|E].
  - rewrite app_nth2; rewrite firstn_length; [|lia]. replace (N.to_nat i - Nat.min (N.to_nat i) (length b))%nat with 0%nat by lia. reflexivity.
  - destruct (Nat.ltb_spec (N.to_nat j) (N.to_nat i)) as [L|L].
    + rewrite app_nth1 by (rewrite firstn_length; lia). rewrite <- (firstn_skipn (N.to_nat i) b) at 2. now rewrite app_nth1 by (rewrite firstn_length; lia).
    + rewrite app_nth2; rewrite firstn_length; [|lia]. rewrite Nat.min_l by lia.
      destruct (N.to_nat j - N.to_nat i)%nat as [|k] eqn:Ek; [lia|]. cbn [nth].
      rewrite <- (firstn_skipn (S (N.to_nat i)) b) at 2. rewrite app_nth2; rewrite firstn_length; [|lia]. f_equal. lia.
Qed.

Lemma land15 x : N.land x 15 = x mod 16.
Proof. change 15 with (N.ones 4). now rewrite N.land_ones. Qed.

(* ---- one round ---- *)
Definition names (r : nat) : var * var * var * var * var :=
  match r with
  | 0 => (Va, Vb, Vc, Vd, Ve) | 1 => (Ve, Va, Vb, Vc, Vd) | 2 => (Vd, Ve, Va, Vb, Vc) | 3 => (Vc, Vd, Ve, Va, Vb) | _ => (Vb, Vc, Vd, Ve, Va)
  end%nat.
Definition kind (t : nat) : round :=
  if Nat.ltb t 16 then R0 else if Nat.ltb t 20 then R1 else if Nat.ltb t 40 then R2 else if Nat.ltb t 60 then R3 else R4.
Definition call (t : nat) : round * var * var * var * var * var * N :=
  match names (t mod 5) with (v, w, x, y, z) => (kind t, v, w, x, y, z, N.of_nat (t mod 16)) end.
Lemma rounds_eq : rounds = map call (seq 0 80).
Proof. vm_compute. reflexivity. Qed.

Definition view (r : nat) (s : vars) : hash :=
  match names r with (v, w, x, y, z) => mk_hash (get_var s v) (get_var s w) (get_var s x) (get_var s y) (get_var s z) end.

Lemma mix_f t w x y : (t < 80)%nat -> mix (kind t) w x y = f t w x y.
Proof.
  intros H. assert (E1 : N.lxor (N.land w (N.lxor x y)) y = ch w x y).
  { unfold ch. apply N.bits_inj. intros i. rewrite ?N.lxor_spec, ?N.land_spec, ?N.ldiff_spec, ?N.lxor_spec. destruct (N.testbit w i), (N.testbit x i), (N.testbit y i); reflexivity. }
  assert (E2 : N.lor (N.land (N.lor w x) y) (N.land w x) = maj w x y).
  { unfold maj. apply N.bits_inj. intros i. rewrite ?N.lor_spec, ?N.lxor_spec, ?N.land_spec, ?N.lor_spec. destruct (N.testbit w i), (N.testbit x i), (N.testbit y i); reflexivity. }
  unfold kind, f. destruct (Nat.ltb_spec t 16), (Nat.ltb_spec t 20), (Nat.ltb_spec t 40), (Nat.ltb_spec t 60); cbn [mix]; auto; lia.
Qed.
Lemma constant_K t : (t < 80)%nat -> constant (kind t) = K t.
Proof. intros H. unfold kind, K. destruct (Nat.ltb_spec t 16), (Nat.ltb_spec t 20), (Nat.ltb_spec t 40), (Nat.ltb_spec t 60); cbn [constant]; auto; lia. Qed.

Lemma sum_eq z m b k r : w32 (z + w32 (w32 (w32 (m + b) + k) + r)) = (r + m + z + k + b) mod 2 ^ 32.
Proof.
  unfold w32. rewrite (N.add_mod_idemp_l (m + b) k) by discriminate. rewrite N.add_mod_idemp_l by discriminate. rewrite N.add_mod_idemp_r by discriminate. f_equal. lia.
Qed.

Lemma run_round_view block s t W :
  (t < 80)%nat ->
  (let block' := match kind t with R0 => block | _ => put_at block (N.of_nat (t mod 16)) (blk block (N.of_nat (t mod 16))) end in at_ block' (N.of_nat (t mod 16)) = nth t W 0) ->
  let p := match call t with (r, v, w, x, y, z, i) => run_round r v w x y z i (block, s) end in
  fst p = (match kind t with R0 => block | _ => put_at block (N.of_nat (t mod 16)) (blk block (N.of_nat (t mod 16))) end) /\
  view (S t mod 5) (snd p) = step W (view (t mod 5) s) t.
Proof.
  intros Ht HW. unfold call. set (i := N.of_nat (t mod 16)) in *.
  set (b' := match kind t with R0 => block | _ => put_at block i (blk block i) end) in *. cbv zeta in HW.
  assert (M : (t mod 5 < 5)%nat) by (apply Nat.mod_upper_bound; lia).
  assert (C : ((t mod 5 = 0 /\ S t mod 5 = 1) \/ (t mod 5 = 1 /\ S t mod 5 = 2) \/ (t mod 5 = 2 /\ S t mod 5 = 3) \/ (t mod 5 = 3 /\ S t mod 5 = 4) \/ (t mod 5 = 4 /\ S t mod 5 = 0))%nat) by (clearbody i b'; clear HW; lia).
  unfold view, step. destruct C as [[-> ->]|[[-> ->]|[[-> ->]|[[-> ->]|[-> ->]]]]]; cbn [names run_round fst snd]; fold i; fold b'; (split; [reflexivity|]);
    cbn [get_var set_var va vb vc vd ve ha hb hc hd he]; rewrite HW, mix_f, constant_K, sum_eq, !rol_rotl by auto; reflexivity.
Qed.

(* ---- the eighty rounds ---- *)
Lemma rounds_fold block H : length block = 16%nat -> forall n, (n <= 80)%nat ->
  let p := fold_left (fun p c => match c with (r, v, w, x, y, z, i) => run_round r v w x y z i p end) (map call (seq 0 n)) (block, H) in
  length (fst p) = 16%nat /\
  (forall k, (n <= k + 16)%nat -> (k < Nat.max n 16)%nat -> at_ (fst p) (N.of_nat (k mod 16)) = nth k (schedule block) 0) /\
  view (n mod 5) (snd p) = fold_left (step (schedule block)) (seq 0 n) (view 0 H).
Proof.
  intros HB. induction n as [|n IH]; intros Hn.
  - cbn [seq map fold_left fst snd]. split; [auto|]. split; [|reflexivity]. intros k _ Hk.
    rewrite Nat.mod_small by lia. rewrite schedule_nth by lia. unfold at_. now rewrite Nat2N.id.
  - rewrite seq_S, map_app, !fold_left_app. cbn [map fold_left Nat.add].
    specialize (IH ltac:(lia)). set (q := fold_left _ (map call (seq 0 n)) (block, H)) in *. destruct q as [b s]. cbn [fst snd] in IH. cbv zeta in IH. destruct IH as (L & HK & HV).
    set (i := N.of_nat (n mod 16)) in *. assert (Li : (N.to_nat i < length b)%nat) by (unfold i; rewrite Nat2N.id, L; apply Nat.mod_upper_bound; lia).
    assert (AT : at_ (match kind n with R0 => b | _ => put_at b i (blk b i) end) i = nth n (schedule block) 0).
    { destruct (Nat.ltb_spec n 16) as [S16|S16].
      - assert (kind n = R0) as -> by (unfold kind; now rewrite (proj2 (Nat.ltb_lt n 16) S16)). apply HK; lia.
      - assert (BLK : blk b i = nth n (schedule block) 0).
        { rewrite schedule_rec by lia. unfold next_word, blk.
          assert (A1 : at_ b (N.land (i + 13) 15) = nth (n - 3) (schedule block) 0) by (rewrite land15; rewrite <- HK by lia; f_equal; unfold i; lia).
          assert (A2 : at_ b (N.land (i + 8) 15) = nth (n - 8) (schedule block) 0) by (rewrite land15; rewrite <- HK by lia; f_equal; unfold i; lia).
          assert (A3 : at_ b (N.land (i + 2) 15) = nth (n - 14) (schedule block) 0) by (rewrite land15; rewrite <- HK by lia; f_equal; unfold i; lia).
          assert (A4 : at_ b i = nth (n - 16) (schedule block) 0) by (rewrite <- HK by lia; f_equal; unfold i; lia).
          rewrite A1, A2, A3, A4. apply rol_rotl. }
        rewrite BLK. destruct (kind n) eqn:EK; try (rewrite at_put by auto; now rewrite N.eqb_refl).
        exfalso. clear - S16 EK. unfold kind in EK. rewrite (proj2 (Nat.ltb_ge n 16) S16) in EK. destruct (Nat.ltb n 20), (Nat.ltb n 40), (Nat.ltb n 60); discriminate. }
    destruct (run_round_view b s n (schedule block) ltac:(lia) AT) as [R1 R2]. fold i in R1.
    cbv zeta in R1, R2. set (p := match call n with (r, v, w, x, y, z, i0) => run_round r v w x y z i0 (b, s) end) in *.
    split; [rewrite R1; destruct (kind n); auto; now rewrite put_at_len|]. split.
    + intros k K1 K2. rewrite R1. destruct (Nat.eq_dec k n) as [->|NE]; [exact AT|].
      assert (OLD : at_ b (N.of_nat (k mod 16)) = nth k (schedule block) 0 /\ N.of_nat (k mod 16) <> i \/ kind n = R0 /\ at_ b (N.of_nat (k mod 16)) = nth k (schedule block) 0).
      { destruct (Nat.ltb_spec n 16) as [S16|S16].
        - right. split; [unfold kind; now rewrite (proj2 (Nat.ltb_lt n 16) S16)|]. apply HK; lia.
        - left. split; [apply HK; lia|]. unfold i. lia. }
      destruct OLD as [[O1 O2]|[-> O1]]; [|exact O1]. destruct (kind n); auto; rewrite at_put by auto; destruct (N.eqb_spec (N.of_nat (k mod 16)) i); congruence.
    + rewrite R2, HV. reflexivity.
Qed.

Definition to_hash (s : vars) : hash := mk_hash (va s) (vb s) (vc s) (vd s) (ve s).
Definition to_vars (h : hash) : vars := mk_vars (ha h) (hb h) (hc h) (hd h) (he h).

Lemma transform_compress H block : length block = 16%nat ->
  fst (transform (to_vars H) block) = to_vars (compress H block) /\ length (snd (transform (to_vars H) block)) = 16%nat.
Proof.
  intros HB. unfold transform. rewrite rounds_eq. destruct (rounds_fold block (to_vars H) HB 80 ltac:(lia)) as (L & _ & V).
  change (80 mod 5)%nat with 0%nat in V.
  set (p := fold_left _ (map call (seq 0 80)) (block, to_vars H)) in *. destruct p as [b s]. cbn [fst snd] in *. split; [|auto].
  unfold compress. change (view 0 (to_vars H)) with (mk_hash (ha H) (hb H) (hc H) (hd H) (he H)) in V.
  assert (EH : mk_hash (ha H) (hb H) (hc H) (hd H) (he H) = H) by (destruct H; reflexivity). rewrite EH in V. rewrite <- V.
  unfold to_vars, view, add32, w32. cbn [names get_var ha hb hc hd he va vb vc vd ve].
  f_equal; f_equal; apply N.add_comm.
Qed.

(* ---- bytes and words ---- *)
Lemma words_len : forall n p, length p = (4 * n)%nat -> length (words p) = n.
Proof.
  induction n as [|n IH]; intros p H; [destruct p; [reflexivity|discriminate]|].
  destruct p as [|a [|b [|c [|d p]]]]; cbn [length] in H; try lia. cbn [words length]. f_equal. apply IH. lia.
Qed.
Lemma words_app : forall n p q, length p = (4 * n)%nat -> words (p ++ q) = words p ++ words q.
Proof.
  induction n as [|n IH]; intros p q H; [destruct p; [reflexivity|discriminate]|].
  destruct p as [|a [|b [|c [|d p]]]]; cbn [length] in H; try lia. cbn [app words]. f_equal. apply IH. lia.
Qed.
Lemma words_nth : forall i p, (4 * i + 4 <= length p)%nat ->
  nth i (words p) 0 = ((nth (4 * i) p 0 * 256 + nth (4 * i + 1) p 0) * 256 + nth (4 * i + 2) p 0) * 256 + nth (4 * i + 3) p 0.
Proof.
  induction i as [|i IH]; intros p H; (destruct p as [|a [|b [|c [|d p]]]]; cbn [length] in H; try lia); [reflexivity|].
  cbn [words nth]. rewrite IH by lia. replace (4 * S i)%nat with (S (S (S (S (4 * i))))) by lia. reflexivity.
Qed.

Lemma byte_word a b c d : a < 256 -> b < 256 -> c < 256 -> d < 256 ->
  N.lor (N.lor (N.lor d (w32 (N.shiftl c 8))) (w32 (N.shiftl b 16))) (w32 (N.shiftl a 24)) = ((a * 256 + b) * 256 + c) * 256 + d.
Proof.
  intros Ha Hb Hc Hd. unfold w32.
  assert (E1 : N.shiftl c 8 mod 2 ^ 32 = N.shiftl c 8) by (apply N.mod_small; rewrite N.shiftl_mul_pow2; change (2 ^ 8) with 256; change (2 ^ 32) with 4294967296; lia).
  assert (E2 : N.shiftl b 16 mod 2 ^ 32 = N.shiftl b 16) by (apply N.mod_small; rewrite N.shiftl_mul_pow2; change (2 ^ 16) with 65536; change (2 ^ 32) with 4294967296; lia).
  assert (E3 : N.shiftl a 24 mod 2 ^ 32 = N.shiftl a 24) by (apply N.mod_small; rewrite N.shiftl_mul_pow2; change (2 ^ 24) with 16777216; change (2 ^ 32) with 4294967296; lia).
  rewrite E1, E2, E3. rewrite (N.lor_comm d), lor_shiftl_add by (change (2 ^ 8) with 256; lia). change (2 ^ 8) with 256.
  rewrite (N.lor_comm (c * 256 + d)), lor_shiftl_add by (change (2 ^ 16) with 65536; lia). change (2 ^ 16) with 65536.
  rewrite (N.lor_comm (b * 65536 + (c * 256 + d))), lor_shiftl_add by (change (2 ^ 24) with 16777216; lia). change (2 ^ 24) with 16777216. lia.
Qed.

Lemma make_block_words p : length p = 64%nat -> all_bytes p -> make_block p = words p.
Proof.
  intros HL HB. unfold make_block. assert (W : length (words p) = 16%nat) by (now apply words_len).
  apply (nth_ext _ _ 0 0); [rewrite map_length, seq_length; auto|]. intros i Hi. rewrite map_length, seq_length in Hi.
  rewrite (nth_indep _ 0 (make_block_word p 0)) by (rewrite map_length, seq_length; lia).
  rewrite map_nth, seq_nth by lia. cbn [Nat.add]. rewrite words_nth by lia. unfold make_block_word.
  assert (NB : forall k, (k < 64)%nat -> nth k p 0 < 256). { intros k Hk. apply (proj1 (Forall_forall _ _) HB). apply nth_In. lia. }
  apply byte_word; apply NB; lia.
Qed.

Lemma blocks_concat : forall Bs, Forall (fun b => length b = 64%nat) Bs -> blocks_of (length Bs) (concat Bs) = map words Bs.
Proof.
  induction Bs as [|b Bs IH]; intros H; [reflexivity|]. inversion H as [|? ? Hb H' e]; subst. cbn [length blocks_of concat map].
  assert (E1 : firstn 64 (b ++ concat Bs) = b). { rewrite <- Hb. rewrite firstn_app, Nat.sub_diag, firstn_all. cbn. apply app_nil_r. }
  assert (E2 : skipn 64 (b ++ concat Bs) = concat Bs). { rewrite <- Hb. now rewrite skipn_app, Nat.sub_diag, skipn_all. }
  rewrite E1, E2, IH; auto.
Qed.
Lemma concat_len : forall Bs : list (list N), Forall (fun b => length b = 64%nat) Bs -> length (concat Bs) = (64 * length Bs)%nat.
Proof. induction Bs as [|b Bs IH]; intros H; [reflexivity|]. inversion H as [|? ? Hb H' e]; subst. cbn [concat length]. rewrite app_length, IH, Hb by auto. lia. Qed.

(* ---- feeding the hash ---- *)
Definition fed (ctx : sha1_context) (m : list N) : Prop :=
  length (buf ctx) = 64%nat /\ (buflen ctx < 64)%nat /\
  exists Bs tail, m = concat Bs ++ tail /\ Forall (fun b => length b = 64%nat) Bs /\ length tail = buflen ctx /\ firstn (buflen ctx) (buf ctx) = tail /\
    blocks ctx = N.of_nat (length Bs) mod 2 ^ 64 /\ digest ctx = to_vars (fold_left compress (map words Bs) H0).

Lemma memcpy_len dst pos src : (pos + length src <= length dst)%nat -> length (memcpy dst pos src) = length dst.
Proof. intros H. unfold memcpy. rewrite !app_length, firstn_length, skipn_length. lia. Qed.
Lemma memcpy_first dst pos src : (pos + length src <= length dst)%nat -> firstn (pos + length src) (memcpy dst pos src) = firstn pos dst ++ src.
Proof.
  intros H. unfold memcpy. rewrite app_assoc.
  assert (L : length (firstn pos dst ++ src) = (pos + length src)%nat) by (rewrite app_length, firstn_length; lia).
  rewrite <- L. rewrite firstn_app, Nat.sub_diag, firstn_all. cbn. apply app_nil_r.
Qed.

Lemma update_fed : forall fuel ctx m p, (length p < fuel)%nat -> all_bytes (m ++ p) -> fed ctx m -> fed (update_loop fuel ctx p) (m ++ p).
Proof.
  induction fuel as [|fuel IH]; intros ctx m p HF HB (L64 & LB & Bs & tail & Em & FB & Lt & Ft & Eb & Ed); [lia|].
  cbn [update_loop]. set (n := Nat.min (length p) (64 - buflen ctx)).
  assert (Ln : length (firstn n p) = n) by (rewrite firstn_length; lia).
  assert (M1 : (buflen ctx + length (firstn n p) <= length (buf ctx))%nat) by lia.
  pose proof (memcpy_len _ _ _ M1) as ML. pose proof (memcpy_first _ _ _ M1) as MF. rewrite Ln, Ft in MF.
  destruct (Nat.eqb_spec (buflen ctx + n) 64) as [E64|NE].
  - assert (EM : memcpy (buf ctx) (buflen ctx) (firstn n p) = tail ++ firstn n p).
    { rewrite <- MF. rewrite E64. rewrite <- L64, <- ML. now rewrite firstn_all. }
    assert (S : m ++ p = (m ++ firstn n p) ++ skipn n p) by (now rewrite <- app_assoc, firstn_skipn).
    rewrite S in HB |- *. apply IH; auto.
    + rewrite skipn_length. lia.
    + rewrite EM. set (blk64 := tail ++ firstn n p). assert (LK : length blk64 = 64%nat) by (unfold blk64; rewrite app_length; lia).
      split; [exact LK|]. split; [cbn; lia|]. exists (Bs ++ [blk64]), []. cbn [buflen buf blocks digest firstn].
      split. { rewrite concat_app. cbn [concat]. rewrite !app_nil_r. rewrite Em. unfold blk64. now rewrite <- app_assoc. }
      split. { apply Forall_app. split; auto. }
      split; [reflexivity|]. split; [reflexivity|]. split.
      { rewrite app_length. cbn [length]. rewrite Eb. rewrite N.add_mod_idemp_l by discriminate. f_equal. lia. }
      rewrite Ed. assert (AB : all_bytes blk64).
      { unfold blk64. apply Forall_app. split; apply Forall_forall; intros c Hc; apply (proj1 (Forall_forall _ _) HB); rewrite ?in_app_iff; [|left; right; exact Hc].
        left. left. rewrite Em. apply in_app_iff. now right. }
      rewrite make_block_words by auto. destruct (transform_compress (fold_left compress (map words Bs) H0) (words blk64)) as [T _]; [now apply words_len|].
      rewrite T, map_app, fold_left_app. reflexivity.
  - assert (n = length p) by lia. assert (EP : firstn n p = p) by (rewrite H; apply firstn_all). rewrite EP in *.
    split; [cbn [buf]; lia|]. split; [cbn [buflen]; lia|]. exists Bs, (tail ++ p). cbn [buflen buf blocks digest].
    split; [rewrite Em; now rewrite <- app_assoc|]. split; [auto|]. split; [rewrite app_length; lia|]. auto.
Qed.

Lemma be_bytes x : x < 2 ^ 64 -> words (be64 x) = [w32 (N.shiftr x 32); N.land x 0xffffffff].
Proof.
  intros H. assert (B : forall k, N.land (N.shiftr x (8 * k)) 255 = x / 2 ^ (8 * k) mod 256).
  { intros k. change 255 with (N.ones 8). rewrite N.land_ones, N.shiftr_div_pow2. reflexivity. }
  unfold be64. cbn [map words]. rewrite !B. change 0xffffffff with (N.ones 32). rewrite N.land_ones. unfold w32. rewrite N.shiftr_div_pow2.
  change (2 ^ (8 * 7)) with 72057594037927936. change (2 ^ (8 * 6)) with 281474976710656. change (2 ^ (8 * 5)) with 1099511627776.
  change (2 ^ (8 * 4)) with 4294967296. change (2 ^ (8 * 3)) with 16777216. change (2 ^ (8 * 2)) with 65536. change (2 ^ (8 * 1)) with 256. change (2 ^ (8 * 0)) with 1. change (2 ^ 32) with 4294967296.
  set (hi := x / 4294967296). set (lo := x mod 4294967296).
  assert (EX : x = hi * 4294967296 + lo) by (unfold hi, lo; lia).
  assert (HH : hi < 4294967296) by (unfold hi; change (2 ^ 64) with 18446744073709551616 in H; lia). assert (HL : lo < 4294967296) by (unfold lo; lia).
  assert (D7 : x / 72057594037927936 = hi / 16777216) by (unfold hi; rewrite N.div_div by discriminate; f_equal).
  assert (D6 : x / 281474976710656 = hi / 65536) by (unfold hi; rewrite N.div_div by discriminate; f_equal).
  assert (D5 : x / 1099511627776 = hi / 256) by (unfold hi; rewrite N.div_div by discriminate; f_equal).
  assert (D3 : x / 16777216 mod 256 = lo / 16777216) by (rewrite EX; replace (hi * 4294967296 + lo) with (lo + (hi * 256) * 16777216) by lia; rewrite N.div_add by discriminate; clear - HL; lia).
  assert (D2 : x / 65536 mod 256 = lo / 65536 mod 256) by (rewrite EX; replace (hi * 4294967296 + lo) with (lo + (hi * 65536) * 65536) by lia; rewrite N.div_add by discriminate; replace (hi * 65536) with ((hi * 256) * 256) by lia; now rewrite N.mod_add by discriminate).
  assert (D1 : x / 256 mod 256 = lo / 256 mod 256) by (rewrite EX; replace (hi * 4294967296 + lo) with (lo + (hi * 16777216) * 256) by lia; rewrite N.div_add by discriminate; replace (hi * 16777216) with ((hi * 65536) * 256) by lia; now rewrite N.mod_add by discriminate).
  assert (D0 : x / 1 mod 256 = lo mod 256) by (rewrite N.div_1_r, EX; replace (hi * 4294967296 + lo) with (lo + (hi * 16777216) * 256) by lia; now rewrite N.mod_add by discriminate).
  rewrite D7, D6, D5, D3, D2, D1, D0. rewrite (N.mod_small hi 4294967296) by exact HH.
  f_equal; [clear - HH; lia|f_equal; clear - HL; lia].
Qed.

Lemma be32_bytes x : be32 x = word_bytes x.
Proof. unfold be32, word_bytes. cbn [map]. rewrite N.shiftr_0_r. reflexivity. Qed.

Lemma put_last (W : list N) hi lo : length W = 14%nat -> forall a b, put_at (put_at (W ++ [a; b]) 15 lo) 14 hi = W ++ [hi; lo].
Proof.
  intros H a b. do 14 (destruct W as [|? W]; [discriminate|]). destruct W; [|discriminate]. reflexivity.
Qed.

Lemma words_zero n : words (repeat 0 (4 * n)) = repeat 0 n.
Proof. induction n as [|n IH]; [reflexivity|]. replace (4 * S n)%nat with (S (S (S (S (4 * n))))) by lia. cbn [repeat words]. rewrite IH. reflexivity. Qed.

Lemma finish_fed ctx m : all_bytes m -> N.of_nat (length m) < 2 ^ 61 -> fed ctx m -> finish ctx = sha1 m.
Proof.
  intros HB HL (L64 & LB & Bs & tail & Em & FB & Lt & Ft & Eb & Ed).
  assert (LM : length m = (64 * length Bs + buflen ctx)%nat) by (rewrite Em, app_length, concat_len, Lt by auto; lia).
  assert (EBk : blocks ctx = N.of_nat (length Bs)). { rewrite Eb. apply N.mod_small. change (2 ^ 61) with 2305843009213693952 in HL. change (2 ^ 64) with 18446744073709551616. lia. }
  set (len := N.of_nat (length m)) in *.
  assert (TB : ((blocks ctx * 64 + N.of_nat (buflen ctx)) mod 2 ^ 64 * 8) mod 2 ^ 64 = 8 * len).
  { rewrite EBk. assert (E1 : N.of_nat (length Bs) * 64 + N.of_nat (buflen ctx) = len) by (unfold len; lia). rewrite E1.
    change (2 ^ 61) with 2305843009213693952 in HL. change (2 ^ 64) with 18446744073709551616. rewrite N.mod_small by lia. rewrite N.mod_small by lia. lia. }
  unfold finish. rewrite TB.
  assert (EBuf : memcpy (memcpy (buf ctx) (buflen ctx) [128]) (S (buflen ctx)) (repeat 0 (64 - S (buflen ctx))) = (tail ++ [128]) ++ repeat 0 (63 - buflen ctx)).
  { assert (A1 : (buflen ctx + length [128%N] <= length (buf ctx))%nat) by (cbn [length]; lia).
    pose proof (memcpy_first _ _ _ A1) as F1. pose proof (memcpy_len _ _ _ A1) as F2. set (b1 := memcpy (buf ctx) (buflen ctx) [128]) in *.
    assert (A2 : (S (buflen ctx) + length (repeat 0%N (64 - S (buflen ctx))) <= length b1)%nat) by (rewrite repeat_length; lia).
    pose proof (memcpy_first _ _ _ A2) as G1. pose proof (memcpy_len _ _ _ A2) as G2. rewrite repeat_length in G1.
    replace (S (buflen ctx) + (64 - S (buflen ctx)))%nat with 64%nat in G1 by lia.
    rewrite <- (firstn_all (memcpy b1 _ _)), G2, F2, L64, G1. f_equal. rewrite <- Ft. rewrite <- F1. f_equal. cbn [length]. lia. }
  rewrite EBuf. clear EBuf.
  assert (BT : all_bytes tail). { apply Forall_forall. intros c Hc. apply (proj1 (Forall_forall _ _) HB). rewrite Em. apply in_app_iff. auto. }
  assert (BR : forall k, all_bytes (repeat 0 k)). { intros k. apply Forall_forall. intros c Hc. apply repeat_spec in Hc. subst. unfold is_byte. lia. }
  rewrite make_block_words; [| rewrite !app_length, repeat_length; cbn [length]; lia | apply Forall_app; split; [apply Forall_app; split; [auto|repeat constructor]|apply BR] ].
  unfold sha1. set (Hd := fold_left compress (map words Bs) H0) in *. rewrite Ed.
  assert (PL : N.to_nat ((119 - len mod 64) mod 64) = if Nat.ltb 56 (S (buflen ctx)) then (119 - buflen ctx)%nat else (55 - buflen ctx)%nat).
  { assert (EM : len mod 64 = N.of_nat (buflen ctx)). { unfold len. rewrite LM. replace (N.of_nat (64 * length Bs + buflen ctx)) with (N.of_nat (buflen ctx) + N.of_nat (length Bs) * 64) by lia. rewrite N.mod_add by discriminate. apply N.mod_small. lia. }
    rewrite EM. clear - LB. destruct (Nat.ltb_spec 56 (S (buflen ctx))); lia. }
  assert (BX : 8 * len < 2 ^ 64) by (change (2 ^ 61) with 2305843009213693952 in HL; change (2 ^ 64) with 18446744073709551616; lia).
  unfold pad. fold len. rewrite PL. destruct (Nat.ltb_spec 56 (S (buflen ctx))) as [G|G].
  - (* two blocks *)
    set (b1 := (tail ++ [128]) ++ repeat 0 (63 - buflen ctx)). set (b2 := repeat 0 56 ++ be64 (8 * len)).
    assert (L1 : length b1 = 64%nat) by (unfold b1; rewrite !app_length, repeat_length; cbn [length]; lia).
    assert (EP : m ++ [128] ++ repeat 0 (119 - buflen ctx) ++ be64 (8 * len) = concat (Bs ++ [b1; b2])).
    { rewrite concat_app. cbn [concat]. rewrite app_nil_r. rewrite Em. unfold b1, b2. replace (119 - buflen ctx)%nat with ((63 - buflen ctx) + 56)%nat by lia.
      rewrite repeat_app. rewrite <- !app_assoc. reflexivity. }
    assert (FB2 : Forall (fun b => length b = 64%nat) (Bs ++ [b1; b2])) by (apply Forall_app; split; [auto|repeat constructor; auto]).
    rewrite EP, concat_len by auto. replace (64 * length (Bs ++ [b1; b2]) / 64)%nat with (length (Bs ++ [b1; b2])) by (rewrite Nat.mul_comm, Nat.div_mul; auto).
    rewrite blocks_concat by auto. rewrite map_app, fold_left_app. fold Hd. cbn [map fold_left].
    destruct (transform_compress Hd (words b1)) as [T1 T2]; [now apply words_len|].
    destruct (transform (to_vars Hd) (words b1)) as [d1 k1]. cbn [fst snd] in T1, T2. subst d1.
    assert (EK : put_at (put_at (repeat 0 14 ++ skipn 14 k1) 15 (N.land (8 * len) 4294967295)) 14 (w32 (N.shiftr (8 * len) 32)) = words b2).
    { unfold b2. rewrite (words_app 14) by reflexivity. rewrite be_bytes by auto. change (words (repeat 0 56)) with (repeat 0 14).
      do 16 (destruct k1 as [|? k1]; [discriminate|]). destruct k1; [|discriminate]. reflexivity. }
    rewrite EK. destruct (transform_compress (compress Hd (words b1)) (words b2)) as [T3 _]; [now apply words_len|].
    rewrite T3. match goal with |- context[to_vars ?h] => generalize h end. intros F. clear. unfold to_vars. reflexivity.
  - (* one block *)
    set (b0 := (tail ++ [128]) ++ repeat 0 (55 - buflen ctx)). set (b1 := b0 ++ be64 (8 * len)).
    assert (L0 : length b0 = 56%nat) by (unfold b0; rewrite !app_length, repeat_length; cbn [length]; lia).
    assert (EP : m ++ [128] ++ repeat 0 (55 - buflen ctx) ++ be64 (8 * len) = concat (Bs ++ [b1])).
    { rewrite concat_app. cbn [concat]. rewrite app_nil_r. rewrite Em. unfold b1, b0. rewrite <- !app_assoc. reflexivity. }
    assert (L1 : length b1 = 64%nat) by (unfold b1; rewrite app_length, L0; reflexivity).
    assert (FB2 : Forall (fun b => length b = 64%nat) (Bs ++ [b1])) by (apply Forall_app; split; [auto|repeat constructor; auto]).
    rewrite EP, concat_len by auto. replace (64 * length (Bs ++ [b1]) / 64)%nat with (length (Bs ++ [b1])) by (rewrite Nat.mul_comm, Nat.div_mul; auto).
    rewrite blocks_concat by auto. rewrite map_app, fold_left_app. fold Hd. cbn [map fold_left].
    assert (EK : put_at (put_at (words ((tail ++ [128]) ++ repeat 0 (63 - buflen ctx))) 15 (N.land (8 * len) 4294967295)) 14 (w32 (N.shiftr (8 * len) 32)) = words b1).
    { replace ((tail ++ [128]) ++ repeat 0 (63 - buflen ctx)) with (b0 ++ repeat 0 8) by (unfold b0; rewrite <- app_assoc, <- repeat_app; f_equal; f_equal; lia).
      unfold b1. rewrite !(words_app 14) by exact L0. rewrite be_bytes by auto. change (words (repeat 0 8)) with [0; 0]. apply put_last. now apply words_len. }
    rewrite EK. destruct (transform_compress Hd (words b1)) as [T3 _]; [now apply words_len|].
    rewrite T3. match goal with |- context[to_vars ?h] => generalize h end. intros F. clear. unfold to_vars. reflexivity.
Qed.

Lemma init_fed b : length b = 64%nat -> fed (init b) [].
Proof. intros H. split; [exact H|]. split; [cbn; lia|]. exists [], []. repeat split; auto. Qed.

Lemma updates_fed : forall chunks ctx m, all_bytes (m ++ concat chunks) -> fed ctx m -> fed (fold_left update chunks ctx) (m ++ concat chunks).
Proof.
  induction chunks as [|c chunks IH]; intros ctx m HB HF; cbn [concat fold_left] in *; [now rewrite app_nil_r|].
  rewrite app_assoc in *. apply IH; auto. apply update_fed; auto. apply Forall_app in HB as [HB _]. exact HB.
Qed.
