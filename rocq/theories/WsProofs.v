From Coq Require Import String.
From Verif Require Import Base WsModel WsSpec.
Open Scope N_scope.

(* ------------------------------------------------ length header *)
Lemma be8 n : n < 2 ^ 64 ->
  be_value [to_u8 (N.shiftr n 56); to_u8 (N.shiftr n 48); to_u8 (N.shiftr n 40); to_u8 (N.shiftr n 32);
            to_u8 (N.shiftr n 24); to_u8 (N.shiftr n 16); to_u8 (N.shiftr n 8); to_u8 n] = n.
Proof.
  intros H. unfold be_value, to_u8. cbn [fold_left]. rewrite !N.shiftr_div_pow2.
  assert (E : forall m, 256 * (m / 256) + m mod 256 = m) by (intros; lia).
  assert (D : forall k, n / 2 ^ (8 + k) = (n / 2 ^ k) / 256).
  { intros k. rewrite N.pow_add_r, N.mul_comm, <- N.div_div by (apply N.pow_nonzero; discriminate). reflexivity. }
  change (2 ^ 56) with (2 ^ (8 + 48)). rewrite D.
  assert (Hs : n / 2 ^ 48 / 256 < 256).
  { rewrite <- (D 48). apply N.div_lt_upper_bound; [discriminate|]. exact H. }
  rewrite (N.mod_small _ 256 Hs), N.mul_0_r, N.add_0_l, E.
  change (2 ^ 48) with (2 ^ (8 + 40)); rewrite D, E.
  change (2 ^ 40) with (2 ^ (8 + 32)); rewrite D, E.
  change (2 ^ 32) with (2 ^ (8 + 24)); rewrite D, E.
  change (2 ^ 24) with (2 ^ (8 + 16)); rewrite D, E.
  change (2 ^ 16) with (2 ^ (8 + 8)); rewrite D, E.
  change (2 ^ 8) with 256. apply E.
Qed.

Lemma to_u8_byte x : is_byte (to_u8 x).
Proof. unfold is_byte, to_u8. lia. Qed.

Lemma encoded_length_spec n : n < 2 ^ 63 ->
  exists c ext, encoded_length_buffer n = c :: ext /\ LenHeader n c ext.
Proof.
  intros H. unfold encoded_length_buffer.
  destruct (N.ltb_spec n 126).
  - exists (to_u8 n), []. split; [reflexivity|]. split; [constructor|]. left.
    unfold to_u8. rewrite N.mod_small by lia. lia || (repeat split; lia).
  - destruct (N.ltb_spec n 65536).
    + do 2 eexists. split; [reflexivity|]. split; [repeat (constructor; [apply to_u8_byte|]); constructor|].
      right; left. change (2 ^ 16) with 65536. split; [lia|]. split; [reflexivity|]. split; [reflexivity|].
      unfold be_value, to_u8. cbn [fold_left]. rewrite N.shiftr_div_pow2. change (2 ^ 8) with 256. lia.
    + do 2 eexists. split; [reflexivity|]. split; [repeat (constructor; [apply to_u8_byte|]); constructor|].
      right; right. change (2 ^ 16) with 65536. split; [lia|]. split; [reflexivity|]. split; [reflexivity|].
      apply be8. change (2 ^ 64) with 18446744073709551616.
      change (2 ^ 63) with 9223372036854775808 in H. lia.
Qed.

Lemma lenheader_code n c ext : LenHeader n c ext -> c < 128.
Proof. intros [_ [(?&?&?)|[(?&?&?)|(?&?&?)]]]; lia. Qed.

Lemma land_7f b : N.land b 0x7F = b mod 128.
Proof. change 0x7F with (N.ones 7). rewrite N.land_ones. reflexivity. Qed.

Lemma land_0f b : N.land b 0x0F = b mod 16.
Proof. change 0x0F with (N.ones 4). rewrite N.land_ones. reflexivity. Qed.

Lemma has_mask_key_eq b : is_byte b -> has_mask_key b = (128 <=? b).
Proof. intros H. unfold is_byte in H. unfold has_mask_key. rewrite N.shiftr_div_pow2. change (2 ^ 7) with 128. lia. Qed.

Lemma has_fin_bit_eq b : is_byte b -> has_fin_bit b = (128 <=? b).
Proof. apply has_mask_key_eq. Qed.

Lemma payload_length_ok n c ext b1 :
  LenHeader n c ext -> n < 65536 -> (b1 = c \/ b1 = c + 128) -> get_payload_length b1 ext = Ok n.
Proof.
  intros H Hn Hb. pose proof (lenheader_code n c ext H) as Hc. unfold get_payload_length.
  rewrite land_7f. replace (b1 mod 128) with c by lia.
  destruct H as [Hx [(H1 & -> & ->)|[(H1 & -> & Hl & Hv)|(H1 & _)]]].
  - destruct (N.eqb_spec n 126); [lia|]. destruct (N.eqb_spec n 127); [lia|]. reflexivity.
  - cbn [orb N.eqb]. change (126 =? 126) with true. cbn [orb].
    destruct ext as [|a [|b [|? ?]]]; try discriminate. cbn [rev app or_shifted].
    unfold int_shl. change (32 <=? 8 * 0) with false. change (32 <=? 8 * (0 + 1)) with false. cbn [bind].
    f_equal. unfold be_value in Hv. cbn [fold_left] in Hv.
    inversion Hx as [|? ? Ha Hx']; subst; inversion Hx' as [|? ? Hb' _]; subst. unfold is_byte in *.
    rewrite N.lor_0_l. change (8 * 0) with 0. rewrite N.shiftl_0_r.
    rewrite N.lor_comm. change (8 * (0 + 1)) with 8. rewrite lor_shiftl_add by (change (2 ^ 8) with 256; lia).
    change (2 ^ 8) with 256. lia.
  - change (2 ^ 16) with 65536 in H1. lia.
Qed.

Lemma payload_length_64_undefined n c ext b1 :
  LenHeader n c ext -> 65536 <= n -> (b1 = c \/ b1 = c + 128) -> get_payload_length b1 ext = UB.
Proof.
  intros H Hn Hb. pose proof (lenheader_code n c ext H) as Hc. unfold get_payload_length.
  rewrite land_7f. replace (b1 mod 128) with c by lia.
  destruct H as [Hx [(H1 & _)|[(H1 & _)|(H1 & -> & Hl & Hv)]]]; [lia|change (2 ^ 16) with 65536 in H1; lia|].
  cbn [orb N.eqb]. change (127 =? 126) with false. change (127 =? 127) with true. cbn [orb].
  destruct ext as [|e0 [|e1 [|e2 [|e3 [|e4 [|e5 [|e6 [|e7 [|? ?]]]]]]]]]; try discriminate.
  cbn [rev app or_shifted]. unfold int_shl.
  change (32 <=? 8 * 0) with false. change (32 <=? 8 * (0 + 1)) with false.
  change (32 <=? 8 * (0 + 1 + 1)) with false. change (32 <=? 8 * (0 + 1 + 1 + 1)) with false.
  change (32 <=? 8 * (0 + 1 + 1 + 1 + 1)) with true. reflexivity.
Qed.

Lemma ext_size n c ext b1 : LenHeader n c ext -> (b1 = c \/ b1 = c + 128) ->
  extended_length_size b1 = N.of_nat (length ext).
Proof.
  intros H Hb. pose proof (lenheader_code n c ext H) as Hc. unfold extended_length_size.
  rewrite land_7f. replace (b1 mod 128) with c by lia.
  destruct H as [Hx [(H1 & -> & ->)|[(H1 & -> & -> & _)|(H1 & -> & -> & _)]]]; [|reflexivity..].
  destruct (N.eqb_spec n 126); [lia|]. destruct (N.eqb_spec n 127); [lia|]. reflexivity.
Qed.

(* ------------------------------------------------ sender *)
Lemma fin_bit op : op < 16 -> apply_fin_bit op = op + 128.
Proof.
  intros H. apply N.eqb_eq. revert op H. apply (N_sweep 16 (fun op => _ =? _)). vm_compute; reflexivity.
Qed.

Lemma send_frame_bytes h b op p :
  op < 16 -> N.of_nat (length p) < 2 ^ 63 -> h = op + (if b : bool then 128 else 0) ->
  FrameBytes {| fin := b; opcode := op; mask := None; body := p |} (send_frame h p).
Proof.
  intros Ho Hl ->. split; [exact Ho|]. cbn [opcode mask body fin].
  destruct (encoded_length_spec _ Hl) as (c & ext & E & HL). exists c, ext. split; [exact HL|].
  unfold send_frame. rewrite E. reflexivity.
Qed.

Definition frags_ok (maxf : nat) (op : N) (p : bytes) (fs : list frame) : Prop :=
  concat (map body fs) = p /\
  Forall (fun f => mask f = None /\ (length (body f) <= maxf)%nat) fs /\
  match fs with [] => False | f :: r => opcode f = op /\ Forall (fun g => opcode g = 0) r end /\
  if Nat.eqb (length p mod maxf) 0 && negb (Nat.eqb (length p) 0)
  then Forall (fun f => fin f = false) fs
  else exists init lst, fs = init ++ [lst] /\ Forall (fun f => fin f = false) init /\ fin lst = true.

Lemma send_message_impl_spec maxf : (0 < maxf)%nat -> forall fuel op p,
  (length p < fuel)%nat -> op < 16 -> N.of_nat (length p) < 2 ^ 63 ->
  exists ws fs, send_message_impl maxf fuel op p = Some ws /\ Forall2 FrameBytes fs ws /\ frags_ok maxf op p fs.
Proof.
  intros Hm. induction fuel as [|fuel IH]; intros op p Hf Ho Hl; [lia|].
  cbn [send_message_impl].
  destruct (Nat.ltb_spec (length p) maxf) as [Hlt|Hge].
  - exists [send_frame (apply_fin_bit op) p], [{| fin := true; opcode := op; mask := None; body := p |}].
    split; [reflexivity|]. split.
    + constructor; [|constructor]. apply send_frame_bytes; auto. apply fin_bit, Ho.
    + unfold frags_ok. cbn [map concat body]. rewrite app_nil_r. split; [reflexivity|].
      split; [constructor; [cbn; split; [reflexivity|lia]|constructor]|].
      split; [split; [reflexivity|constructor]|].
      rewrite Nat.mod_small by exact Hlt. destruct (Nat.eqb_spec (length p) 0); cbn [negb andb];
        (exists [], {| fin := true; opcode := op; mask := None; body := p |});
        (split; [reflexivity|split; [constructor|reflexivity]]).
  - assert (Hfl : length (firstn maxf p) = maxf) by (rewrite firstn_length; lia).
    assert (Hb : FrameBytes {| fin := false; opcode := op; mask := None; body := firstn maxf p |}
                            (send_frame op (firstn maxf p))).
    { apply send_frame_bytes; [exact Ho|rewrite Hfl; lia|rewrite N.add_0_r; reflexivity]. }
    pose proof (firstn_skipn maxf p) as Hsplit.
    assert (Hsl : length (skipn maxf p) = (length p - maxf)%nat) by apply skipn_length.
    destruct (skipn maxf p) as [|x r] eqn:Er.
    + eexists [_], [_]. split; [reflexivity|]. split; [constructor; [exact Hb|constructor]|].
      unfold frags_ok. cbn [map concat body length] in *. rewrite app_nil_r in *. split; [exact Hsplit|].
      split; [constructor; [cbn; split; [reflexivity|lia]|constructor]|].
      split; [split; [reflexivity|constructor]|].
      replace (length p) with maxf by lia. rewrite Nat.mod_same by lia.
      destruct (Nat.eqb_spec maxf 0); [lia|]. cbn [Nat.eqb negb andb]. constructor; [reflexivity|constructor].
    + assert (Hne : (length (skipn maxf p) <> 0)%nat) by (rewrite Er; discriminate).
      rewrite <- Er in *. clear Er.
      destruct (IH 0 (skipn maxf p)) as (ws & fs & E & HF & HO); [lia|lia|lia|].
      rewrite E. exists (send_frame op (firstn maxf p) :: ws), ({| fin := false; opcode := op; mask := None; body := firstn maxf p |} :: fs).
      split; [destruct (skipn maxf p); [exfalso; apply Hne; reflexivity|reflexivity]|].
      split; [constructor; assumption|].
      destruct HO as (H1 & H2 & H3 & H4). unfold frags_ok. cbn [map concat body].
      rewrite H1. split; [exact Hsplit|]. split; [constructor; [cbn; split; [reflexivity|lia]|exact H2]|].
      split.
      { split; [reflexivity|]. destruct fs as [|f fs]; [contradiction|]. destruct H3 as [H3 H3']. constructor; assumption. }
      assert (Hmod : (length (skipn maxf p) mod maxf = length p mod maxf)%nat).
      { rewrite Hsl. replace (length p) with ((length p - maxf) + 1 * maxf)%nat at 2 by lia.
        rewrite Nat.mod_add by lia. reflexivity. }
      rewrite Hmod in H4.
      assert (Hz : Nat.eqb (length p) 0 = false) by (apply Nat.eqb_neq; lia).
      rewrite Hz in *. cbn [negb andb] in *. rewrite andb_true_r.
      destruct (Nat.eqb_spec (length p mod maxf) 0) as [Hz0|Hnz].
      * destruct (Nat.eqb_spec (length (skipn maxf p)) 0) as [Q|Q]; cbn [negb andb] in H4.
        { exfalso. contradiction. }
        constructor; [reflexivity|exact H4].
      * cbn [andb] in H4. destruct H4 as (init & lst & -> & Hi & Hlst).
        eexists (_ :: init), lst. split; [reflexivity|]. split; [constructor; [reflexivity|exact Hi]|exact Hlst].
Qed.

Lemma send_message_spec maxf op p :
  (0 < maxf)%nat -> op < 16 -> N.of_nat (length p) < 2 ^ 63 ->
  exists ws fs, send_message maxf op p = Some ws /\ Forall2 FrameBytes fs ws /\ frags_ok maxf op p fs.
Proof. intros Hm Ho Hl. apply send_message_impl_spec; auto. Qed.

Lemma wire_of_forall2 fs ws : Forall2 FrameBytes fs ws -> WireBytes fs (concat ws).
Proof. induction 1; cbn [concat]; constructor; assumption. Qed.

(* ------------------------------------------------ reader: general facts *)
Lemma take_app n s a b x : take n s = Some (a, b) -> take n (s ++ x) = Some (a, b ++ x).
Proof.
  unfold take. destruct (N.ltb_spec (N.of_nat (length s)) n); [discriminate|]. intros [= <- <-].
  rewrite app_length. destruct (N.ltb_spec (N.of_nat (length s + length x)) n); [lia|].
  rewrite firstn_app, skipn_app.
  replace (N.to_nat n - length s)%nat with 0%nat by lia. cbn [firstn skipn]. rewrite app_nil_r. reflexivity.
Qed.

Lemma take_exact a b : take (N.of_nat (length a)) (a ++ b) = Some (a, b).
Proof.
  unfold take. rewrite app_length. destruct (N.ltb_spec (N.of_nat (length a + length b)) (N.of_nat (length a))); [lia|].
  rewrite Nat2N.id, firstn_app, skipn_app, Nat.sub_diag, firstn_all, skipn_all. cbn [firstn skipn app].
  rewrite app_nil_r. reflexivity.
Qed.

Lemma take_length n s a b : take n s = Some (a, b) -> (length a + length b = length s)%nat /\ N.of_nat (length a) = n.
Proof.
  unfold take. destruct (N.ltb_spec (N.of_nat (length s)) n); [discriminate|]. intros [= <- <-].
  rewrite firstn_length, skipn_length. lia.
Qed.

Definition extend (t : turn) (x : bytes) : turn :=
  match t with TNext evs p rest => TNext evs p (rest ++ x) | t => t end.

Lemma dispatch_mono p b0 b1 ext key s x :
  dispatch p b0 b1 ext key s <> TWait ->
  dispatch p b0 b1 ext key (s ++ x) = extend (dispatch p b0 b1 ext key s) x.
Proof.
  unfold dispatch. set (op := N.land b0 0x0F).
  destruct ((op =? 0) || (op =? 1) || (op =? 2)).
  - destruct (get_payload_length b1 ext) as [len|]; [|reflexivity].
    destruct (take len s) as [[chunk rest]|] eqn:E; [|congruence]. intros _.
    rewrite (take_app _ _ _ _ x E). destruct (has_fin_bit b0); reflexivity.
  - destruct (op =? 8).
    + destruct (get_payload_length b1 ext) as [len|]; [|reflexivity].
      destruct (take len s) as [[chunk rest]|] eqn:E; [|congruence]. intros _.
      rewrite (take_app _ _ _ _ x E). reflexivity.
    + destruct (op =? 9); [reflexivity|]. destruct (op =? 10); reflexivity.
Qed.

Lemma read_turn_mono p s x : read_turn p s <> TWait -> read_turn p (s ++ x) = extend (read_turn p s) x.
Proof.
  unfold read_turn.
  destruct (take 2 s) as [[hd s1]|] eqn:E1; [|congruence].
  rewrite (take_app _ _ _ _ x E1). destruct hd as [|b0 [|b1 [|? ?]]]; try congruence.
  destruct (take (extended_length_size b1) s1) as [[ext s2]|] eqn:E2; [|congruence].
  rewrite (take_app _ _ _ _ x E2).
  destruct (take (if has_mask_key b1 then 4 else 0) s2) as [[key s3]|] eqn:E3; [|congruence].
  rewrite (take_app _ _ _ _ x E3). apply dispatch_mono.
Qed.

Lemma dispatch_shrink p b0 b1 ext key s evs p' rest :
  dispatch p b0 b1 ext key s = TNext evs p' rest -> (length rest <= length s)%nat.
Proof.
  unfold dispatch. set (op := N.land b0 0x0F).
  destruct ((op =? 0) || (op =? 1) || (op =? 2)).
  - destruct (get_payload_length b1 ext) as [len|]; [|discriminate].
    destruct (take len s) as [[chunk r]|] eqn:E; [|discriminate].
    apply take_length in E. destruct (has_fin_bit b0); intros [= <- <- <-]; lia.
  - destruct (op =? 8).
    + destruct (get_payload_length b1 ext) as [len|]; [|discriminate].
      destruct (take len s) as [[chunk r]|] eqn:E; discriminate.
    + destruct (op =? 9); [intros [= <- <- <-]; lia|].
      destruct (op =? 10); [intros [= <- <- <-]; lia|discriminate].
Qed.

Lemma read_turn_shrink p s evs p' rest :
  read_turn p s = TNext evs p' rest -> (length rest + 2 <= length s)%nat.
Proof.
  unfold read_turn.
  destruct (take 2 s) as [[hd s1]|] eqn:E1; [|discriminate]. apply take_length in E1.
  destruct hd as [|b0 [|b1 [|? ?]]]; try discriminate. cbn [length] in E1.
  destruct (take (extended_length_size b1) s1) as [[ext s2]|] eqn:E2; [|discriminate]. apply take_length in E2.
  destruct (take (if has_mask_key b1 then 4 else 0) s2) as [[key s3]|] eqn:E3; [|discriminate]. apply take_length in E3.
  intros E. apply dispatch_shrink in E. lia.
Qed.

Lemma run_fuel_indep f1 : forall f2 p s, (length s < f1)%nat -> (length s < f2)%nat ->
  run_fuel f1 p s = run_fuel f2 p s.
Proof.
  induction f1 as [|f1 IH]; intros [|f2] p s H1 H2; try lia. cbn [run_fuel].
  destruct (read_turn p s) as [|evs p' rest|ev|] eqn:E; try reflexivity.
  apply read_turn_shrink in E. rewrite (IH f2) by lia. reflexivity.
Qed.

Lemma run_from_unfold p s :
  run_from p s =
  match read_turn p s with
  | TWait => ([], Waiting)
  | TStop ev => ([ev], Stopped)
  | TUndef => ([], Undefined)
  | TNext evs p' rest => let (evs', st) := run_from p' rest in (evs ++ evs', st)
  end.
Proof.
  unfold run_from at 1. cbn [run_fuel]. destruct (read_turn p s) as [|evs p' rest|ev|] eqn:E; try reflexivity.
  unfold run_from. apply read_turn_shrink in E. rewrite (run_fuel_indep (length s) (S (length rest))) by lia. reflexivity.
Qed.

Lemma run_from_next p s evs p' rest :
  read_turn p s = TNext evs p' rest ->
  run_from p s = (evs ++ fst (run_from p' rest), snd (run_from p' rest)).
Proof. intros E. rewrite run_from_unfold, E. destruct (run_from p' rest); reflexivity. Qed.

Lemma run_fuel_enough f : forall p s, (length s < f)%nat -> snd (run_fuel f p s) <> OutOfFuel.
Proof.
  induction f as [|f IH]; intros p s H; [lia|]. cbn [run_fuel].
  destruct (read_turn p s) as [|evs p' rest|ev|] eqn:E; try discriminate.
  apply read_turn_shrink in E. specialize (IH p' rest ltac:(lia)). destruct (run_fuel f p' rest). exact IH.
Qed.

Lemma run_never_out_of_fuel s : snd (run s) <> OutOfFuel.
Proof. apply run_fuel_enough. lia. Qed.

(* causality *)
Lemma run_from_prefix n : forall p s x, (length s <= n)%nat ->
  (snd (run_from p s) = Waiting /\ exists more, fst (run_from p (s ++ x)) = fst (run_from p s) ++ more) \/
  (snd (run_from p s) <> Waiting /\ run_from p (s ++ x) = run_from p s).
Proof.
  induction n as [|n IH]; intros p s x Hn.
  - destruct s; [|cbn in Hn; lia]. left. split; [reflexivity|]. exists (fst (run_from p ([] ++ x))). reflexivity.
  - pose proof (read_turn_mono p s x) as M. rewrite (run_from_unfold p s).
    destruct (read_turn p s) as [|evs p' rest|ev|] eqn:E.
    + left. split; [reflexivity|]. exists (fst (run_from p (s ++ x))). reflexivity.
    + specialize (M ltac:(discriminate)). cbn [extend] in M.
      rewrite (run_from_next _ _ _ _ _ M).
      apply read_turn_shrink in E.
      destruct (IH p' rest x ltac:(lia)) as [[Hw [more Hm]]|[Hw He]].
      * left. destruct (run_from p' rest) as [e st]. cbn [fst snd] in *. split; [exact Hw|].
        exists more. rewrite Hm, app_assoc. reflexivity.
      * right. rewrite He. destruct (run_from p' rest) as [e st]. cbn [fst snd] in *. split; [exact Hw|reflexivity].
    + right. split; [discriminate|]. specialize (M ltac:(discriminate)). cbn [extend] in M.
      rewrite run_from_unfold, M. reflexivity.
    + right. split; [discriminate|]. specialize (M ltac:(discriminate)). cbn [extend] in M.
      rewrite run_from_unfold, M. reflexivity.
Qed.

Definition terminal (e : event) : bool :=
  match e with EvClose _ | EvBadInput | EvError => true | _ => false end.

Lemma dispatch_events p b0 b1 ext key s :
  match dispatch p b0 b1 ext key s with
  | TNext evs _ _ => forallb (fun e => negb (terminal e)) evs = true
  | TStop ev => terminal ev = true
  | _ => True
  end.
Proof.
  unfold dispatch. set (op := N.land b0 0x0F).
  destruct ((op =? 0) || (op =? 1) || (op =? 2)).
  - destruct (get_payload_length b1 ext) as [len|]; [|exact I].
    destruct (take len s) as [[chunk r]|]; [|exact I]. destruct (has_fin_bit b0); reflexivity.
  - destruct (op =? 8).
    + destruct (get_payload_length b1 ext) as [len|]; [|exact I].
      destruct (take len s) as [[chunk r]|]; [reflexivity|exact I].
    + destruct (op =? 9); [reflexivity|]. destruct (op =? 10); reflexivity.
Qed.

Lemma read_turn_events p s :
  match read_turn p s with
  | TNext evs _ _ => forallb (fun e => negb (terminal e)) evs = true
  | TStop ev => terminal ev = true
  | _ => True
  end.
Proof.
  unfold read_turn. destruct (take 2 s) as [[hd s1]|]; [|exact I].
  destruct hd as [|b0 [|b1 [|? ?]]]; try exact I.
  destruct (take (extended_length_size b1) s1) as [[ext s2]|]; [|exact I].
  destruct (take (if has_mask_key b1 then 4 else 0) s2) as [[key s3]|]; [|exact I].
  apply dispatch_events.
Qed.

(* the terminal event, if any, is the last one, and it is present exactly when the loop has stopped *)
Lemma run_from_terminal_last n : forall p s, (length s <= n)%nat ->
  match snd (run_from p s) with
  | Stopped => exists evs e, fst (run_from p s) = evs ++ [e] /\ terminal e = true /\
                             forallb (fun e => negb (terminal e)) evs = true
  | _ => forallb (fun e => negb (terminal e)) (fst (run_from p s)) = true
  end.
Proof.
  induction n as [|n IH]; intros p s Hn.
  - destruct s; [reflexivity|cbn in Hn; lia].
  - rewrite run_from_unfold. pose proof (read_turn_events p s) as T.
    destruct (read_turn p s) as [|evs p' rest|ev|] eqn:E; try reflexivity.
    + apply read_turn_shrink in E. specialize (IH p' rest ltac:(lia)).
      destruct (run_from p' rest) as [e st]. cbn [fst snd] in *.
      destruct st; try (rewrite forallb_app, T, IH; reflexivity).
      destruct IH as (evs' & e' & -> & He & Hf). exists (evs ++ evs'), e'.
      rewrite app_assoc. split; [reflexivity|]. split; [exact He|]. rewrite forallb_app, T, Hf. reflexivity.
    + exists [], ev. split; [reflexivity|]. split; [exact T|reflexivity].
Qed.

(* ------------------------------------------------ reader on well-formed frames *)
Fixpoint masked_from (key : bytes) (i : nat) (p : bytes) : bytes :=
  match p with
  | [] => []
  | b :: r => N.lxor b (nth (i mod 4) key 0) :: masked_from key (S i) r
  end.

Lemma masked_eq key p : masked key p = masked_from key 0 p.
Proof.
  assert (G : forall i, map (fun ib => N.lxor (snd ib) (nth (fst ib mod 4)%nat key 0)) (combine (seq i (length p)) p)
              = masked_from key i p).
  { induction p as [|b p IH]; intros i; [reflexivity|].
    cbn [length seq combine map fst snd masked_from]. f_equal. apply IH. }
  apply G.
Qed.

Lemma masked_length key p : length (masked key p) = length p.
Proof. unfold masked. rewrite map_length, combine_length, seq_length. lia. Qed.

Lemma unmask_masked key : forall p i len, (N.of_nat i + N.of_nat (length p) <= len) ->
  unmask_from key (N.of_nat i) len (masked_from key i p) = p.
Proof.
  induction p as [|b p IH]; intros i len H; [reflexivity|].
  cbn [masked_from unmask_from length] in *. destruct (N.ltb_spec (N.of_nat i) len); [|lia].
  replace (N.of_nat i + 1) with (N.of_nat (S i)) by lia. rewrite IH by lia. f_equal.
  replace (N.to_nat (N.of_nat i mod 4)) with (i mod 4)%nat by lia.
  rewrite N.lxor_assoc, N.lxor_nilpotent, N.lxor_0_r. reflexivity.
Qed.

Lemma unmask_all key p : unmask key (N.of_nat (length p)) (masked key p) = p.
Proof. unfold unmask. rewrite masked_eq. apply (unmask_masked key p 0). lia. Qed.

Lemma unmask_none key p : unmask key 0 p = p.
Proof.
  assert (G : forall i, unmask_from key i 0 p = p).
  { induction p as [|b p IH]; intros i; [reflexivity|].
    cbn [unmask_from]. destruct (N.ltb_spec i 0); [lia|]. f_equal. apply IH. }
  apply G.
Qed.

(* what one frame does to the reader *)
Lemma frame_turn_header p f w rest :
  FrameBytes f w ->
  exists b0 b1 ext key,
    read_turn p (w ++ rest) =
      dispatch p b0 b1 ext key ((match mask f with None => body f | Some k => masked k (body f) end) ++ rest) /\
    N.land b0 0x0F = opcode f /\ has_fin_bit b0 = fin f /\
    has_mask_key b1 = (match mask f with None => false | Some _ => true end) /\
    (match mask f with None => True | Some k => key = k end) /\
    (N.of_nat (length (body f)) < 65536 -> get_payload_length b1 ext = Ok (N.of_nat (length (body f)))).
Proof.
  intros (Ho & c & ext & HL & HM). pose proof (lenheader_code _ _ _ HL) as Hc.
  set (b0 := opcode f + (if fin f then 128 else 0)) in *.
  assert (B0 : is_byte b0) by (unfold is_byte, b0; destruct (fin f); lia).
  assert (Hop : N.land b0 0x0F = opcode f) by (rewrite land_0f; unfold b0; destruct (fin f); lia).
  assert (Hfin : has_fin_bit b0 = fin f) by (rewrite has_fin_bit_eq by exact B0; unfold b0; destruct (fin f); lia).
  destruct (mask f) as [key|].
  - destruct HM as (Hk & Hkb & ->).
    assert (B1 : is_byte (c + 128)) by (unfold is_byte; lia).
    exists b0, (c + 128), ext, key. repeat split; auto.
    + unfold read_turn.
      change (b0 :: (c + 128) :: ext ++ key ++ masked key (body f)) with ([b0; c + 128] ++ (ext ++ key ++ masked key (body f))).
      rewrite <- app_assoc. change 2 with (N.of_nat (length [b0; c + 128])) at 1. rewrite take_exact.
      rewrite (ext_size _ _ _ (c + 128) HL) by lia. rewrite <- app_assoc, take_exact.
      rewrite has_mask_key_eq by exact B1. destruct (N.leb_spec 128 (c + 128)); [|lia].
      replace 4 with (N.of_nat (length key)) by (rewrite Hk; reflexivity).
      rewrite <- app_assoc, take_exact. reflexivity.
    + rewrite has_mask_key_eq by exact B1. lia.
    + intros Hlt. apply (payload_length_ok _ c); auto.
  - subst w. assert (B1 : is_byte c) by (unfold is_byte; lia).
    exists b0, c, ext, []. repeat split; auto.
    + unfold read_turn.
      change (b0 :: c :: ext ++ body f) with ([b0; c] ++ (ext ++ body f)).
      rewrite <- app_assoc. change 2 with (N.of_nat (length [b0; c])) at 1. rewrite take_exact.
      rewrite (ext_size _ _ _ c HL) by lia. rewrite <- app_assoc, take_exact.
      rewrite has_mask_key_eq by exact B1. destruct (N.leb_spec 128 c); [lia|].
      change 0 with (N.of_nat (@length byte [])) at 1.
      change (body f ++ rest) with ([] ++ (body f ++ rest)) at 1. rewrite take_exact. reflexivity.
    + rewrite has_mask_key_eq by exact B1. lia.
    + intros Hlt. apply (payload_length_ok _ c); auto.
Qed.

Lemma frame_turn_data acc f w rest :
  FrameBytes f w -> frame_safe acc f -> is_data f = true ->
  read_turn acc (w ++ rest) =
    if fin f then TNext [EvMessage (acc ++ body f)] [] rest else TNext [] (acc ++ body f) rest.
Proof.
  intros HF [Hlen HS] Hd. rewrite Hd in HS.
  destruct (frame_turn_header acc f w rest HF) as (b0 & b1 & ext & key & E & Hop & Hfin & Hmk & Hk & Hpl).
  rewrite E. unfold dispatch. rewrite Hop. unfold is_data in Hd.
  assert (Hc : ((opcode f =? 0) || (opcode f =? 1) || (opcode f =? 2)) = true) by lia.
  rewrite Hc, (Hpl Hlen), Hmk, Hfin.
  destruct (mask f) as [k|].
  - subst k. assert (Hl : N.of_nat (length (body f)) = N.of_nat (length (masked key (body f)))) by (rewrite masked_length; reflexivity).
    rewrite Hl, take_exact. rewrite <- Hl.
    assert (Hu : unmask key (N.of_nat (length (body f))) (acc ++ masked key (body f)) = acc ++ body f).
    { destruct (HS ltac:(discriminate)) as [-> | Hb].
      - cbn [app]. apply unmask_all.
      - rewrite Hb. cbn. change (masked key []) with (@nil byte). rewrite app_nil_r. apply unmask_none. }
    rewrite Hu. reflexivity.
  - rewrite take_exact. reflexivity.
Qed.

Lemma frame_turn_control acc f w rest :
  FrameBytes f w -> frame_safe acc f -> is_data f = false ->
  exists ev, read_turn acc (w ++ rest) = TNext [ev] acc rest /\ messages [ev] = [] /\ terminal ev = false.
Proof.
  intros HF [Hlen HS] Hd. rewrite Hd in HS. destruct HS as [Ho Hb].
  destruct (frame_turn_header acc f w rest HF) as (b0 & b1 & ext & key & E & Hop & Hfin & Hmk & Hk & Hpl).
  rewrite E. unfold dispatch. rewrite Hop, Hb.
  assert (Hm : (match mask f with None => [] | Some k => masked k [] end) = @nil byte) by (destruct (mask f); reflexivity).
  rewrite Hm. cbn [app].
  destruct Ho as [-> | ->]; cbn; eexists; repeat split.
Qed.

Lemma messages_app a b : messages (a ++ b) = messages a ++ messages b.
Proof. unfold messages. apply flat_map_app. Qed.

Lemma reader_frames fs w : WireBytes fs w -> forall acc rest, safe acc fs ->
  exists evs, run_from acc (w ++ rest) =
    (evs ++ fst (run_from (pending acc fs) rest), snd (run_from (pending acc fs) rest)) /\
    messages evs = delivered acc fs /\ forallb (fun e => negb (terminal e)) evs = true.
Proof.
  induction 1 as [|f fs w ws HF HW IH]; intros acc rest HS.
  - exists []. cbn [app pending delivered]. destruct (run_from acc rest); auto.
  - destruct HS as [Hf HS]. rewrite <- app_assoc. cbn [pending delivered].
    destruct (is_data f) eqn:Hd.
    + pose proof (frame_turn_data acc f w (ws ++ rest) HF Hf Hd) as T.
      destruct (fin f).
      * rewrite (run_from_next _ _ _ _ _ T). destruct (IH [] rest HS) as (evs & E & M & Tm).
        rewrite E. exists (EvMessage (acc ++ body f) :: evs). cbn [fst snd app].
        split; [reflexivity|]. split; [cbn [messages flat_map app]; f_equal; exact M|exact Tm].
      * rewrite (run_from_next _ _ _ _ _ T). destruct (IH _ rest HS) as (evs & E & M & Tm).
        rewrite E. exists evs. cbn [fst snd app]. auto.
    + destruct (frame_turn_control acc f w (ws ++ rest) HF Hf Hd) as (ev & T & Mv & Tv).
      rewrite (run_from_next _ _ _ _ _ T). destruct (IH _ rest HS) as (evs & E & M & Tm).
      rewrite E. exists (ev :: evs). cbn [fst snd app forallb]. rewrite Tv, Tm.
      split; [reflexivity|]. split; [|reflexivity].
      change (ev :: evs) with ([ev] ++ evs). rewrite messages_app, Mv. exact M.
Qed.

Lemma run_from_nil p : run_from p [] = ([], Waiting).
Proof. reflexivity. Qed.

Lemma reader_delivers fs w : WireBytes fs w -> safe [] fs ->
  messages (fst (run w)) = delivered [] fs /\ snd (run w) = Waiting.
Proof.
  intros HW HS. destruct (reader_frames fs w HW [] [] HS) as (evs & E & M & _).
  rewrite app_nil_r in E. unfold run. rewrite E, run_from_nil. cbn [fst snd]. rewrite app_nil_r. auto.
Qed.

(* ------------------------------------------------ sender to reader *)
Lemma frags_delivered maxf op p fs :
  0 < N.of_nat maxf < 65536 -> op <= 2 -> frags_ok maxf op p fs ->
  Forall (fun f => is_data f = true) fs /\ (forall a, safe a fs).
Proof.
  intros Hm Ho (H1 & H2 & H3 & _).
  assert (Hd : Forall (fun f => is_data f = true) fs).
  { destruct fs as [|f r]; [constructor|]. destruct H3 as [Hf Hr].
    constructor; [unfold is_data; lia|]. eapply Forall_impl; [|exact Hr]. intros g Hg. unfold is_data. cbn in Hg. lia. }
  split; [exact Hd|]. clear H1 H3. revert H2 Hd. induction fs as [|f fs IH]; intros H2 Hd a; [exact I|].
  inversion H2 as [|? ? [Hmask Hlen] H2']; subst. inversion Hd as [|? ? Hdf Hd']; subst.
  cbn [safe]. split; [|apply IH; assumption].
  unfold frame_safe. rewrite Hdf. split; [lia|]. congruence.
Qed.

Lemma delivered_unfinished fs : forall acc,
  Forall (fun f => is_data f = true) fs -> Forall (fun f => fin f = false) fs ->
  delivered acc fs = [] /\ pending acc fs = acc ++ concat (map body fs).
Proof.
  induction fs as [|f fs IH]; intros acc Hd Hf.
  - cbn. rewrite app_nil_r. auto.
  - inversion Hd as [|? ? Hd1 Hd2]; subst; inversion Hf as [|? ? Hf1 Hf2]; subst. cbn [delivered pending map concat].
    rewrite Hd1, Hf1. rewrite app_assoc. apply IH; assumption.
Qed.

Lemma delivered_app fs1 fs2 : forall acc,
  delivered acc (fs1 ++ fs2) = delivered acc fs1 ++ delivered (pending acc fs1) fs2 /\
  pending acc (fs1 ++ fs2) = pending (pending acc fs1) fs2.
Proof.
  induction fs1 as [|f fs1 IH]; intros acc; [auto|]. cbn [app delivered pending].
  destruct (is_data f); [|apply IH]. destruct (fin f).
  - destruct (IH []) as [-> ->]. auto.
  - apply IH.
Qed.

Lemma delivered_message init lst acc :
  Forall (fun f => is_data f = true) (init ++ [lst]) -> Forall (fun f => fin f = false) init -> fin lst = true ->
  delivered acc (init ++ [lst]) = [acc ++ concat (map body (init ++ [lst]))] /\ pending acc (init ++ [lst]) = [].
Proof.
  intros Hd Hi Hl. apply Forall_app in Hd as [Hd1 Hd2]. inversion Hd2 as [|? ? Hx _]; subst.
  destruct (delivered_app init [lst] acc) as [-> ->].
  destruct (delivered_unfinished init acc Hd1 Hi) as [-> ->].
  cbn [delivered pending]. rewrite Hx, Hl. cbn [app].
  rewrite map_app, concat_app. cbn [map concat]. rewrite app_nil_r, app_assoc. auto.
Qed.

Lemma safe_app fs1 fs2 : forall acc, safe acc (fs1 ++ fs2) <-> safe acc fs1 /\ safe (pending acc fs1) fs2.
Proof.
  induction fs1 as [|f fs1 IH]; intros acc; cbn [app safe pending]; [tauto|].
  rewrite IH. destruct (is_data f); [destruct (fin f)|]; tauto.
Qed.

(* all the bytes written for a list of messages *)
Fixpoint send_all (maxf : nat) (ms : list (byte * bytes)) : option bytes :=
  match ms with
  | [] => Some []
  | (op, p) :: r =>
      match send_message maxf op p, send_all maxf r with
      | Some ws, Some w => Some (concat ws ++ w)
      | _, _ => None
      end
  end.

Lemma wire_app fs1 w1 fs2 w2 : WireBytes fs1 w1 -> WireBytes fs2 w2 -> WireBytes (fs1 ++ fs2) (w1 ++ w2).
Proof. induction 1; intros H2; cbn [app]; [exact H2|]. rewrite <- app_assoc. constructor; auto. Qed.

Lemma sender_reader maxf ms :
  0 < N.of_nat maxf < 65536 ->
  Forall (fun m => fst m <= 2 /\ N.of_nat (length (snd m)) < 2 ^ 63 /\
                   (length (snd m) mod maxf <> 0 \/ length (snd m) = 0)%nat) ms ->
  exists w, send_all maxf ms = Some w /\
            messages (fst (run w)) = map snd ms /\ snd (run w) = Waiting.
Proof.
  intros Hm HF.
  assert (G : exists w fs, send_all maxf ms = Some w /\ WireBytes fs w /\
              delivered [] fs = map snd ms /\ pending [] fs = [] /\ safe [] fs).
  { induction HF as [|[op p] ms (Ho & Hl & Hmod) _ (w & fs & E & HW & HD & HP & HS)].
    - exists [], []. repeat split; constructor.
    - cbn [fst snd] in *. destruct (send_message_spec maxf op p) as (ws & fs1 & E1 & HW1 & HO); [lia|lia|exact Hl|].
      exists (concat ws ++ w), (fs1 ++ fs). cbn [send_all]. rewrite E1, E. split; [reflexivity|].
      split; [apply wire_app; [apply wire_of_forall2, HW1|exact HW]|].
      destruct (frags_delivered maxf op p fs1 Hm Ho HO) as [Hd Hsafe].
      destruct HO as (H1 & H2 & H3 & H4).
      assert (Hc : Nat.eqb (length p mod maxf) 0 && negb (Nat.eqb (length p) 0) = false).
      { destruct Hmod as [Hmod|Hz].
        - destruct (Nat.eqb_spec (length p mod maxf) 0); [contradiction|reflexivity].
        - rewrite Hz, andb_false_r. reflexivity. }
      rewrite Hc in H4. destruct H4 as (init & lst & -> & Hi & Hlst).
      destruct (delivered_message init lst [] Hd Hi Hlst) as [Ed Ep].
      destruct (delivered_app (init ++ [lst]) fs []) as [-> ->]. rewrite Ed, Ep, HD, HP, H1. cbn [app map snd].
      split; [reflexivity|]. split; [reflexivity|]. apply safe_app. split; [apply Hsafe|]. rewrite Ep. exact HS. }
  destruct G as (w & fs & E & HW & HD & HP & HS). exists w. split; [exact E|].
  destruct (reader_delivers fs w HW HS) as [-> ->]. auto.
Qed.

(* a message whose length is a positive multiple of the frame size is never terminated:
   it is prepended to the next one *)
Lemma sender_reader_merge maxf op1 p1 op2 p2 :
  0 < N.of_nat maxf < 65536 -> op1 <= 2 -> op2 <= 2 ->
  N.of_nat (length p1) < 2 ^ 63 -> N.of_nat (length p2) < 2 ^ 63 ->
  (length p1 mod maxf = 0 /\ length p1 <> 0)%nat -> (length p2 mod maxf <> 0 \/ length p2 = 0)%nat ->
  exists w1 w, send_all maxf [(op1, p1)] = Some w1 /\ messages (fst (run w1)) = [] /\
    send_all maxf [(op1, p1); (op2, p2)] = Some w /\ messages (fst (run w)) = [p1 ++ p2].
Proof.
  intros Hm Ho1 Ho2 Hl1 Hl2 [Hz1 Hn1] Hp2.
  destruct (send_message_spec maxf op1 p1) as (ws1 & fs1 & E1 & HW1 & HO1); [lia|lia|exact Hl1|].
  destruct (send_message_spec maxf op2 p2) as (ws2 & fs2 & E2 & HW2 & HO2); [lia|lia|exact Hl2|].
  destruct (frags_delivered maxf op1 p1 fs1 Hm Ho1 HO1) as [Hd1 Hs1].
  destruct (frags_delivered maxf op2 p2 fs2 Hm Ho2 HO2) as [Hd2 Hs2].
  destruct HO1 as (B1 & _ & _ & F1). destruct HO2 as (B2 & _ & _ & F2).
  rewrite Hz1, Nat.eqb_refl in F1. destruct (Nat.eqb_spec (length p1) 0); [contradiction|]. cbn [negb andb] in F1.
  destruct (delivered_unfinished fs1 [] Hd1 F1) as [D1 P1].
  assert (Hc : Nat.eqb (length p2 mod maxf) 0 && negb (Nat.eqb (length p2) 0) = false).
  { destruct Hp2 as [Hq|Hq].
    - destruct (Nat.eqb_spec (length p2 mod maxf) 0); [contradiction|reflexivity].
    - rewrite Hq, andb_false_r. reflexivity. }
  rewrite Hc in F2. destruct F2 as (init & lst & -> & Hi & Hlst).
  exists (concat ws1 ++ []), (concat ws1 ++ (concat ws2 ++ [])).
  cbn [send_all]. rewrite E1, E2. split; [reflexivity|].
  pose proof (wire_of_forall2 _ _ HW1) as W1. pose proof (wire_of_forall2 _ _ HW2) as W2.
  split.
  - rewrite app_nil_r. destruct (reader_delivers fs1 _ W1 (Hs1 [])) as [-> _]. exact D1.
  - split; [reflexivity|]. rewrite app_nil_r.
    destruct (reader_delivers (fs1 ++ init ++ [lst]) _ (wire_app _ _ _ _ W1 W2)) as [-> _].
    { apply safe_app; split; [apply Hs1|apply Hs2]. }
    destruct (delivered_app fs1 (init ++ [lst]) []) as [-> _]. rewrite D1, P1, B1. cbn [app].
    destruct (delivered_message init lst p1 Hd2 Hi Hlst) as [-> _]. rewrite B2. reflexivity.
Qed.

Lemma frags_fragmentation maxf op p fs :
  frags_ok maxf op p fs -> (length p mod maxf <> 0 \/ length p = 0)%nat -> Fragmentation op p fs.
Proof.
  intros (H1 & H2 & H3 & H4) Hmod.
  assert (Hc : Nat.eqb (length p mod maxf) 0 && negb (Nat.eqb (length p) 0) = false).
  { destruct Hmod as [Hmod|Hz].
    - destruct (Nat.eqb_spec (length p mod maxf) 0); [contradiction|reflexivity].
    - rewrite Hz, andb_false_r. reflexivity. }
  rewrite Hc in H4. destruct H4 as (init & lst & E & Hi & Hlst).
  exists init, lst. repeat split; auto.
Qed.

Lemma filter_delivered fs : forall acc, delivered acc (filter is_data fs) = delivered acc fs.
Proof.
  induction fs as [|f fs IH]; intros acc; [reflexivity|]. cbn [filter delivered].
  destruct (is_data f) eqn:E; [cbn [delivered]; rewrite E; destruct (fin f); [f_equal|]; apply IH|apply IH].
Qed.

Lemma filter_safe fs : forall acc, safe acc fs -> safe acc (filter is_data fs).
Proof.
  induction fs as [|f fs IH]; intros acc; [auto|]. cbn [filter safe]. intros [Hf Hs].
  destruct (is_data f) eqn:E; [cbn [safe]; rewrite E; auto|apply IH; exact Hs].
Qed.

Lemma fragmentation_deliver op p fs :
  op <= 2 -> Fragmentation op p fs ->
  Forall (fun f => is_data f = true) fs /\ delivered [] fs = [p] /\ pending [] fs = [].
Proof.
  intros Ho (init & lst & E & Hc & Hi & Hl & Hop).
  assert (Hd : Forall (fun f => is_data f = true) fs).
  { destruct fs as [|f r]; [constructor|]. destruct Hop as [Hf Hr].
    constructor; [unfold is_data; lia|]. eapply Forall_impl; [|exact Hr]. intros g Hg. unfold is_data. cbn in Hg. lia. }
  split; [exact Hd|]. subst fs. destruct (delivered_message init lst [] Hd Hi Hl) as [-> ->].
  rewrite Hc. auto.
Qed.

Lemma tail_unmasked_safe fs : forall acc,
  Forall (fun f => is_data f = true) fs -> Forall (fun f => N.of_nat (length (body f)) < 65536) fs ->
  Forall (fun f => mask f = None) fs -> safe acc fs.
Proof.
  induction fs as [|f fs IH]; intros acc Hd Hl Hm; [exact I|].
  inversion Hd as [|? ? Hd1 Hd2]; subst; inversion Hl as [|? ? Hl1 Hl2]; subst; inversion Hm as [|? ? Hm1 Hm2]; subst.
  cbn [safe]. split; [|apply IH; assumption]. unfold frame_safe. rewrite Hd1. split; [exact Hl1|congruence].
Qed.

(* messages, each fragmented arbitrarily, each masked at most on its first frame *)
Lemma reader_messages (ms : list (N * bytes * list frame)) w :
  Forall (fun m => let '(op, p, fs) := m in
            op <= 2 /\ Fragmentation op p fs /\
            Forall (fun f => N.of_nat (length (body f)) < 65536) fs /\
            Forall (fun f => mask f = None) (tl fs)) ms ->
  WireBytes (concat (map snd ms)) w ->
  messages (fst (run w)) = map (fun m => snd (fst m)) ms /\ snd (run w) = Waiting.
Proof.
  intros HF HW.
  assert (G : delivered [] (concat (map snd ms)) = map (fun m => snd (fst m)) ms /\
              pending [] (concat (map snd ms)) = [] /\ safe [] (concat (map snd ms))).
  { clear HW. induction HF as [|[[op p] fs] ms (Ho & Hfr & Hl & Hm) _ (ID & IP & IS)]; [cbn; auto|].
    cbn [map concat snd fst]. destruct (fragmentation_deliver op p fs Ho Hfr) as (Hd & D & P).
    destruct (delivered_app fs (concat (map snd ms)) []) as [-> ->]. rewrite D, P, ID, IP.
    split; [reflexivity|]. split; [reflexivity|]. apply safe_app. rewrite P. split; [|exact IS].
    destruct fs as [|f r]; [exact I|]. cbn [safe tl] in *.
    inversion Hd as [|? ? Hd1 Hd2]; subst; inversion Hl as [|? ? Hl1 Hl2]; subst.
    split; [|apply tail_unmasked_safe; assumption].
    unfold frame_safe. rewrite Hd1. split; [exact Hl1|auto]. }
  destruct G as (HD & _ & HS). destruct (reader_delivers _ w HW HS) as [-> ->]. auto.
Qed.

(* terminal frames *)
Lemma close_turn acc f w x : FrameBytes f w -> opcode f = 8 -> N.of_nat (length (body f)) < 65536 ->
  read_turn acc (w ++ x) = TStop (EvClose (body f)).
Proof.
  intros HF Ho Hl.
  destruct (frame_turn_header acc f w x HF) as (b0 & b1 & ext & key & E & Hop & Hfin & Hmk & Hk & Hpl).
  rewrite E. unfold dispatch. rewrite Hop, Ho. cbn [orb].
  change ((8 =? 0) || (8 =? 1) || (8 =? 2)) with false. change (8 =? 8) with true. cbn iota.
  rewrite (Hpl Hl), Hmk. destruct (mask f) as [k|].
  - subst k. assert (Hl' : N.of_nat (length (body f)) = N.of_nat (length (masked key (body f)))) by (rewrite masked_length; reflexivity).
    rewrite Hl', take_exact, <- Hl', unmask_all. reflexivity.
  - rewrite take_exact. reflexivity.
Qed.

Lemma reserved_turn acc f w x : FrameBytes f w -> (3 <= opcode f <= 7 \/ 11 <= opcode f) ->
  read_turn acc (w ++ x) = TStop EvBadInput.
Proof.
  intros HF Ho.
  destruct (frame_turn_header acc f w x HF) as (b0 & b1 & ext & key & E & Hop & _).
  rewrite E. unfold dispatch. rewrite Hop.
  assert (E1 : ((opcode f =? 0) || (opcode f =? 1) || (opcode f =? 2)) = false) by lia.
  assert (E2 : (opcode f =? 8) = false) by lia. assert (E3 : (opcode f =? 9) = false) by lia.
  assert (E4 : (opcode f =? 10) = false) by lia. rewrite E1, E2, E3, E4. reflexivity.
Qed.

Lemma terminal_frame fs w g wg x :
  WireBytes fs w -> safe [] fs -> FrameBytes g wg ->
  (opcode g = 8 -> N.of_nat (length (body g)) < 65536 ->
     exists evs, run (w ++ wg ++ x) = (evs ++ [EvClose (body g)], Stopped) /\ messages evs = delivered [] fs) /\
  (3 <= opcode g <= 7 \/ 11 <= opcode g ->
     exists evs, run (w ++ wg ++ x) = (evs ++ [EvBadInput], Stopped) /\ messages evs = delivered [] fs).
Proof.
  intros HW HS HG. destruct (reader_frames fs w HW [] (wg ++ x) HS) as (evs & E & M & _).
  split.
  - intros Ho Hl. exists evs. unfold run. rewrite E, run_from_unfold, (close_turn _ g wg x HG Ho Hl). auto.
  - intros Ho. exists evs. unfold run. rewrite E, run_from_unfold, (reserved_turn _ g wg x HG Ho). auto.
Qed.

Lemma run_prefix s x :
  (snd (run s) = Waiting /\ exists more, fst (run (s ++ x)) = fst (run s) ++ more) \/
  (snd (run s) <> Waiting /\ run (s ++ x) = run s).
Proof. apply (run_from_prefix (length s)). lia. Qed.

Lemma run_terminal_last s :
  match snd (run s) with
  | Stopped => exists evs e, fst (run s) = evs ++ [e] /\ terminal e = true /\
                             forallb (fun e => negb (terminal e)) evs = true
  | _ => forallb (fun e => negb (terminal e)) (fst (run s)) = true
  end.
Proof. apply (run_from_terminal_last (length s)). lia. Qed.

(* ---- what happens exactly ---- *)

Lemma delivered_step fs maxf op p acc : 0 < N.of_nat maxf < 65536 -> op <= 2 -> frags_ok maxf op p fs ->
  let c := Nat.eqb (length p mod maxf) 0 && negb (Nat.eqb (length p) 0) in
  delivered acc fs = (if c then [] else [acc ++ p]) /\ pending acc fs = (if c then acc ++ p else []) /\ forall a, safe a fs.
Proof.
  intros Hm Ho HO. destruct (frags_delivered maxf op p fs Hm Ho HO) as [Hd Hs]. destruct HO as (B & _ & _ & F). cbn zeta.
  destruct (Nat.eqb (length p mod maxf) 0 && negb (Nat.eqb (length p) 0)).
  - destruct (delivered_unfinished fs acc Hd F) as [D P]. rewrite D, P, B. auto.
  - destruct F as (init & lst & -> & Hi & Hl). destruct (delivered_message init lst acc Hd Hi Hl) as [D P]. rewrite D, P, B. auto.
Qed.

Lemma sender_reader_exact maxf ms : 0 < N.of_nat maxf < 65536 -> Forall (fun m => fst m <= 2 /\ N.of_nat (length (snd m)) < 2 ^ 63) ms ->
  exists w, send_all maxf ms = Some w /\ messages (fst (run w)) = merged maxf [] (map snd ms) /\ snd (run w) = Waiting.
Proof.
  intros Hm HF.
  assert (G : exists w fs, send_all maxf ms = Some w /\ WireBytes fs w /\ (forall acc, delivered acc fs = merged maxf acc (map snd ms)) /\ forall a, safe a fs).
  { induction HF as [|[op p] ms (Ho & Hl) _ (w & fs & E & HW & HD & HS)].
    - exists [], []. repeat split; constructor.
    - cbn [fst snd] in *. destruct (send_message_spec maxf op p) as (ws & fs1 & E1 & HW1 & HO); [lia|lia|exact Hl|].
      exists (concat ws ++ w), (fs1 ++ fs). cbn [send_all]. rewrite E1, E. split; [reflexivity|].
      split; [apply wire_app; [apply wire_of_forall2, HW1|exact HW]|]. split.
      + intros acc. destruct (delivered_step fs1 maxf op p acc Hm Ho HO) as (D & P & _). destruct (delivered_app fs1 fs acc) as [-> _]. rewrite D, P. cbn [map snd merged].
        destruct (Nat.eqb _ _ && _); rewrite HD; reflexivity.
      + intros a. destruct (delivered_step fs1 maxf op p a Hm Ho HO) as (_ & _ & S1). apply safe_app. split; [apply S1|apply HS]. }
  destruct G as (w & fs & E & HW & HD & HS). exists w. split; [exact E|]. destruct (reader_delivers fs w HW (HS [])) as [-> ->]. rewrite HD. auto.
Qed.

Lemma filter_shorter {A} (f : A -> bool) l : (length (filter f l) <= length l)%nat.
Proof. induction l as [|x l IH]; [auto|]. cbn. destruct (f x); cbn; lia. Qed.
Lemma merged_length maxf ps : forall acc, length (merged maxf acc ps) = length (filter (fun p => negb (Nat.eqb (length p mod maxf) 0 && negb (Nat.eqb (length p) 0))) ps).
Proof. induction ps as [|p ps IH]; intros acc; [reflexivity|]. cbn [merged filter]. destruct (_ && _); cbn [negb length]; now rewrite IH. Qed.
Lemma merged_same maxf ps : merged maxf [] ps = ps <-> Forall (fun p => (length p mod maxf <> 0 \/ length p = 0)%nat) ps.
Proof.
  split.
  - intros E. apply (f_equal (@length bytes)) in E. rewrite merged_length in E. induction ps as [|p ps IH]; [constructor|]. cbn [filter] in E.
    destruct (Nat.eqb_spec (length p mod maxf) 0) as [A|A], (Nat.eqb_spec (length p) 0) as [B|B]; cbn [negb andb length] in E.
    + constructor; [auto|apply IH; lia].
    + exfalso. pose proof (filter_shorter (fun p => negb (Nat.eqb (length p mod maxf) 0 && negb (Nat.eqb (length p) 0))) ps). lia.
    + constructor; [auto|apply IH; lia].
    + constructor; [auto|apply IH; lia].
  - induction 1 as [|p ps H _ IH]; [reflexivity|]. cbn [merged]. destruct (Nat.eqb_spec (length p mod maxf) 0) as [A|A], (Nat.eqb_spec (length p) 0) as [B|B]; cbn [negb andb app]; try (now rewrite IH). lia.
Qed.

Lemma unmask_split key : forall x i n, unmask_from key (N.of_nat i) (N.of_nat (i + n)) x = masked_from key i (firstn n x) ++ skipn n x.
Proof.
  induction x as [|b x IH]; intros i n; [now destruct n|]. cbn [unmask_from]. destruct n as [|n].
  - cbn [firstn masked_from skipn app]. destruct (N.ltb_spec (N.of_nat i) (N.of_nat (i + 0))); [lia|]. f_equal. replace (N.of_nat i + 1) with (N.of_nat (S i)) by lia.
    replace (i + 0)%nat with i by lia. replace (N.of_nat (S i)) with (N.of_nat i + 1) by lia. clear. generalize (N.of_nat i). clear i. intros i. assert (G : forall j, i <= j -> unmask_from key j i x = x).
    { intros j. revert j. induction x as [|b x IH]; intros j H; [reflexivity|]. cbn. destruct (N.ltb_spec j i); [lia|]. f_equal. apply IH. lia. }
    apply G. lia.
  - cbn [firstn masked_from skipn app]. destruct (N.ltb_spec (N.of_nat i) (N.of_nat (i + S n))); [|lia]. f_equal.
    + f_equal. f_equal. lia.
    + replace (N.of_nat i + 1) with (N.of_nat (S i)) by lia. replace (i + S n)%nat with (S i + n)%nat by lia. apply IH.
Qed.
Lemma unmask_grown acc f key : mask f = Some key -> unmask key (N.of_nat (length (body f))) (acc ++ masked key (body f)) = grown acc f.
Proof. intros E. unfold grown, unmask. rewrite E. cbv zeta. rewrite (masked_eq key (firstn _ _)). apply (unmask_split key (acc ++ masked key (body f)) 0 (length (body f))). Qed.

Lemma grown_nil f : grown [] f = body f.
Proof. destruct (mask f) as [k|] eqn:E; [rewrite <- (unmask_grown [] f k E); apply unmask_all|unfold grown; now rewrite E]. Qed.
Lemma turn_data acc f w rest : FrameBytes f w -> N.of_nat (length (body f)) < 65536 -> is_data f = true ->
  read_turn acc (w ++ rest) = if fin f then TNext [EvMessage (grown acc f)] [] rest else TNext [] (grown acc f) rest.
Proof.
  intros HF Hlen Hd. destruct (frame_turn_header acc f w rest HF) as (b0 & b1 & ext & key & E & Hop & Hfin & Hmk & Hk & Hpl).
  rewrite E. unfold dispatch. rewrite Hop. unfold is_data in Hd. assert (Hc : ((opcode f =? 0) || (opcode f =? 1) || (opcode f =? 2)) = true) by lia.
  rewrite Hc, (Hpl Hlen), Hmk, Hfin. destruct (mask f) as [k|] eqn:Em.
  - subst k. assert (Hl : N.of_nat (length (body f)) = N.of_nat (length (masked key (body f)))) by (rewrite masked_length; reflexivity).
    rewrite Hl, take_exact. rewrite <- Hl, (unmask_grown acc f key Em). reflexivity.
  - rewrite take_exact. unfold grown. rewrite Em. reflexivity.
Qed.
(* a ping or pong: its payload stays where it is *)
Lemma turn_control acc f w rest : FrameBytes f w -> opcode f = 9 \/ opcode f = 10 ->
  read_turn acc (w ++ rest) = TNext [if opcode f =? 9 then EvPing acc else EvPong] acc (sent_body f ++ rest).
Proof.
  intros HF Ho. destruct (frame_turn_header acc f w rest HF) as (b0 & b1 & ext & key & E & Hop & _). rewrite E. unfold dispatch, sent_body. rewrite Hop.
  destruct Ho as [-> | ->]; reflexivity.
Qed.

Lemma reader_exact fs w : WireBytes fs w -> Forall readable fs -> forall acc rest,
  exists evs, run_from acc (w ++ rest) = (evs ++ fst (run_from (unfinished acc fs) rest), snd (run_from (unfinished acc fs) rest)) /\
    messages evs = garbled acc fs /\ forallb (fun e => negb (terminal e)) evs = true.
Proof.
  induction 1 as [|f fs w ws HF HW IH]; intros HR acc rest.
  - exists []. cbn [app unfinished garbled]. destruct (run_from acc rest); auto.
  - inversion HR as [|? ? (Hl & Hk) HR']; subst. rewrite <- app_assoc. cbn [unfinished garbled]. destruct (is_data f) eqn:Hd.
    + pose proof (turn_data acc f w (ws ++ rest) HF Hl Hd) as T. destruct (fin f).
      * rewrite (run_from_next _ _ _ _ _ T). destruct (IH HR' [] rest) as (evs & E & M & Tm). rewrite E. exists (EvMessage (grown acc f) :: evs). cbn [fst snd app].
        split; [reflexivity|]. split; [cbn [messages flat_map app]; f_equal; exact M|exact Tm].
      * rewrite (run_from_next _ _ _ _ _ T). destruct (IH HR' (grown acc f) rest) as (evs & E & M & Tm). rewrite E. exists evs. cbn [fst snd app]. auto.
    + destruct Hk as [Hk|(Ho & Hb)]; [discriminate|]. pose proof (turn_control acc f w (ws ++ rest) HF Ho) as T.
      assert (Hm : sent_body f = []) by (unfold sent_body; rewrite Hb; destruct (mask f); reflexivity). rewrite Hm in T. cbn [app] in T.
      rewrite (run_from_next _ _ _ _ _ T). destruct (IH HR' acc rest) as (evs & E & M & Tm). rewrite E.
      exists ((if opcode f =? 9 then EvPing acc else EvPong) :: evs). cbn [fst snd app forallb]. split; [reflexivity|]. destruct (opcode f =? 9); cbn; auto.
Qed.
