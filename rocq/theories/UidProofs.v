From Coq Require Import ListDec.
From Verif Require Import Base UidModel UidSpec.
Open Scope N_scope.

(* ---- bits ---- *)

Lemma lt_pow x n : x < 2 ^ n <-> forall i, n <= i -> N.testbit x i = false.
Proof.
  split.
  - intros H i Hi. destruct (N.eq_dec x 0) as [->|Hx]; [apply N.bits_0|]. apply N.bits_above_log2. apply N.log2_lt_pow2 in H; lia.
  - intros H. destruct (N.eq_dec x 0) as [->|Hx]; [apply N.neq_0_lt_0, N.pow_nonzero; lia|]. apply N.log2_lt_pow2; [lia|].
    destruct (N.lt_ge_cases (N.log2 x) n) as [L|L]; [exact L|]. pose proof (N.bit_log2 x Hx) as B. rewrite (H _ L) in B. discriminate.
Qed.
Lemma lxor_lt a b n : a < 2 ^ n -> b < 2 ^ n -> N.lxor a b < 2 ^ n.
Proof. rewrite !lt_pow. intros Ha Hb i Hi. rewrite N.lxor_spec, Ha, Hb by exact Hi. reflexivity. Qed.
Lemma land_lt_l a b n : a < 2 ^ n -> N.land a b < 2 ^ n.
Proof. rewrite !lt_pow. intros Ha i Hi. rewrite N.land_spec, Ha by exact Hi. reflexivity. Qed.
Lemma land_lt_r a b n : b < 2 ^ n -> N.land a b < 2 ^ n.
Proof. rewrite N.land_comm. apply land_lt_l. Qed.
Lemma lor_lt a b n : a < 2 ^ n -> b < 2 ^ n -> N.lor a b < 2 ^ n.
Proof. rewrite !lt_pow. intros Ha Hb i Hi. rewrite N.lor_spec, Ha, Hb by exact Hi. reflexivity. Qed.
Lemma shiftr_lt a k n : a < 2 ^ n -> N.shiftr a k < 2 ^ n.
Proof. rewrite !lt_pow. intros Ha i Hi. rewrite N.shiftr_spec', Ha by lia. reflexivity. Qed.

(* functions that respect exclusive or are known by what they do to single bits *)
Definition Linear (f : N -> N) : Prop := forall a b, f (N.lxor a b) = N.lxor (f a) (f b).
Lemma linear_0 f : Linear f -> f 0 = 0.
Proof. intros L. pose proof (L 0 0) as E. rewrite N.lxor_nilpotent in E. rewrite E. apply N.lxor_nilpotent. Qed.
Lemma linear_shiftr k : Linear (fun x => N.shiftr x k). Proof. intros a b. apply N.shiftr_lxor. Qed.
Lemma linear_shiftl k : Linear (fun x => N.shiftl x k). Proof. intros a b. apply N.shiftl_lxor. Qed.
Lemma linear_land m : Linear (fun x => N.land x m).
Proof.
  intros a b. apply N.bits_inj. intros i. rewrite N.land_spec, !N.lxor_spec, !N.land_spec.
  destruct (N.testbit a i), (N.testbit b i), (N.testbit m i); reflexivity.
Qed.
Lemma linear_comp f g : Linear f -> Linear g -> Linear (fun x => f (g x)).
Proof. intros Hf Hg a b. rewrite Hg. apply Hf. Qed.
Lemma lxor4 a b c d : N.lxor (N.lxor a b) (N.lxor c d) = N.lxor (N.lxor a c) (N.lxor b d).
Proof. apply N.bits_inj. intros i. rewrite !N.lxor_spec. destruct (N.testbit a i), (N.testbit b i), (N.testbit c i), (N.testbit d i); reflexivity. Qed.
Lemma linear_lxor f g : Linear f -> Linear g -> Linear (fun x => N.lxor (f x) (g x)).
Proof. intros Hf Hg a b. rewrite Hf, Hg. apply lxor4. Qed.
Lemma linear_id : Linear (fun x => x). Proof. intros a b. reflexivity. Qed.

Lemma top_bit x n : x < 2 ^ N.succ n -> N.testbit x n = true -> exists y, y < 2 ^ n /\ x = N.lxor y (2 ^ n).
Proof.
  intros Hx Hb. exists (N.lxor x (2 ^ n)). split.
  - rewrite lt_pow in *. intros i Hi. rewrite N.lxor_spec. destruct (N.eq_dec i n) as [->|Hne]; [rewrite N.pow2_bits_true, Hb; reflexivity|].
    rewrite Hx by lia. rewrite N.pow2_bits_false by congruence. reflexivity.
  - rewrite N.lxor_assoc, N.lxor_nilpotent, N.lxor_0_r. reflexivity.
Qed.
Lemma linear_basis f (n : nat) : Linear f -> (forall i, (i < n)%nat -> f (2 ^ N.of_nat i) = 2 ^ N.of_nat i) -> forall x, x < 2 ^ N.of_nat n -> f x = x.
Proof.
  intros L. induction n as [|n IH]; intros H x Hx.
  - cbn in Hx. assert (x = 0) by lia. subst x. apply linear_0, L.
  - rewrite Nat2N.inj_succ in Hx. destruct (N.testbit x (N.of_nat n)) eqn:E.
    + destruct (top_bit _ _ Hx E) as (y & Hy & ->). rewrite L, IH, H; [reflexivity|lia| |exact Hy]. intros i Hi. apply H. lia.
    + apply IH; [intros i Hi; apply H; lia|]. rewrite lt_pow in *. intros i Hi. destruct (N.eq_dec i (N.of_nat n)) as [->|Hne]; [exact E|]. apply Hx. lia.
Qed.
Definition basis_ok (f : N -> N) (n : nat) : bool := forallb (fun i => f (2 ^ N.of_nat i) =? 2 ^ N.of_nat i) (seq 0 n).
Lemma linear_check f n : Linear f -> basis_ok f n = true -> forall x, x < 2 ^ N.of_nat n -> f x = x.
Proof.
  intros L H. apply linear_basis; [exact L|]. intros i Hi. unfold basis_ok in H. rewrite forallb_forall in H. apply N.eqb_eq, H, in_seq. lia.
Qed.

(* ---- tempering can be undone ---- *)

Definition undo_r (k x : N) : N := N.lxor x (N.shiftr x k).
Definition mix_l (k m x z : N) : N := N.lxor x (N.land (N.shiftl z k) m).
Definition untemper (y : N) : N :=
  let y := undo_r 18 y in
  let y := mix_l 15 4022730752 y y in
  let y := mix_l 7 2636928640 y (mix_l 7 2636928640 y (mix_l 7 2636928640 y (mix_l 7 2636928640 y y))) in
  N.lxor y (N.shiftr (N.lxor y (N.shiftr y 11)) 11).

Lemma linear_mix k m f g : Linear f -> Linear g -> Linear (fun x => mix_l k m (f x) (g x)).
Proof. intros Hf Hg. unfold mix_l. apply linear_lxor; [exact Hf|]. apply (linear_comp (fun x => N.land x m)); [apply linear_land|]. apply (linear_comp (fun x => N.shiftl x k)); [apply linear_shiftl|exact Hg]. Qed.
Lemma linear_undo k f : Linear f -> Linear (fun x => undo_r k (f x)).
Proof. intros Hf. unfold undo_r. apply linear_lxor; [exact Hf|]. apply (linear_comp (fun x => N.shiftr x k)); [apply linear_shiftr|exact Hf]. Qed.
Lemma temper_eq x : temper x = undo_r 18 (let y := mix_l 7 2636928640 (undo_r 11 x) (undo_r 11 x) in mix_l 15 4022730752 y y).
Proof. reflexivity. Qed.
Lemma linear_temper : Linear temper.
Proof.
  assert (L1 : Linear (fun x => undo_r 11 x)) by (apply linear_undo, linear_id).
  pose proof (linear_mix 7 2636928640 _ _ L1 L1) as L2. pose proof (linear_mix 15 4022730752 _ _ L2 L2) as L3. pose proof (linear_undo 18 _ L3) as L4.
  intros a b. rewrite !temper_eq. apply L4.
Qed.
Lemma linear_untemper : Linear untemper.
Proof.
  assert (L1 : Linear (fun x => undo_r 18 x)) by (apply linear_undo, linear_id).
  pose proof (linear_mix 15 4022730752 _ _ L1 L1) as L2.
  pose proof (linear_mix 7 2636928640 _ _ L2 L2) as L3. pose proof (linear_mix 7 2636928640 _ _ L2 L3) as L4. pose proof (linear_mix 7 2636928640 _ _ L2 L4) as L5.
  pose proof (linear_mix 7 2636928640 _ _ L2 L5) as L6.
  assert (L7 : Linear (fun y => N.lxor y (N.shiftr (N.lxor y (N.shiftr y 11)) 11))).
  { apply linear_lxor; [apply linear_id|]. apply (linear_comp (fun x => N.shiftr x 11) (undo_r 11)); [apply linear_shiftr|apply linear_undo, linear_id]. }
  exact (linear_comp _ _ L7 L6).
Qed.
Lemma untemper_temper x : x < word -> untemper (temper x) = x.
Proof. apply (linear_check (fun x => untemper (temper x)) 32); [apply linear_comp; [apply linear_untemper|apply linear_temper]|vm_compute; reflexivity]. Qed.
Lemma temper_lt x : x < word -> temper x < word.
Proof.
  intros H. rewrite temper_eq. unfold undo_r, mix_l, word in *. cbv zeta.
  repeat first [apply lxor_lt|apply shiftr_lt|apply land_lt_r; reflexivity|exact H].
Qed.

(* ---- the engine ---- *)

Definition Words (s : list N) : Prop := forall x, In x s -> x < word.
Lemma words_nth s k : Words s -> nth k s 0 < word.
Proof. intros H. destruct (nth_in_or_default k s 0) as [Hi| ->]; [apply H, Hi|reflexivity]. Qed.
Definition choose (x0 x1 : N) : N := N.lor (N.land x0 (2 ^ 31)) (N.land x1 (2 ^ 31 - 1)).
Definition turn (y : N) : N := N.lxor (N.shiftr y 1) (if N.odd y then 2567483615 else 0).
Lemma twist_eq x0 x1 x397 : twist x0 x1 x397 = N.lxor x397 (turn (choose x0 x1)).
Proof. unfold twist, turn, choose. rewrite N.lxor_assoc. reflexivity. Qed.
Lemma choose_lt a b : a < word -> b < word -> choose a b < word.
Proof. intros Ha Hb. unfold choose, word in *. apply lor_lt; apply land_lt_l; assumption. Qed.
Lemma turn_lt y : y < word -> turn y < word.
Proof. intros H. unfold turn, word in *. apply lxor_lt; [apply shiftr_lt, H|]. destruct (N.odd y); reflexivity. Qed.
Lemma twist_lt a b c : a < word -> b < word -> c < word -> twist a b c < word.
Proof. intros Ha Hb Hc. rewrite twist_eq. apply lxor_lt; [exact Hc|]. apply turn_lt, choose_lt; assumption. Qed.

Definition new (s : list N) : N := twist (nth 0 s 0) (nth 1 s 0) (nth 397 s 0).
Lemma next_eq s : next s = tl s ++ [new s]. Proof. reflexivity. Qed.
Lemma new_lt s : Words s -> new s < word.
Proof. intros H. apply twist_lt; apply words_nth, H. Qed.
Lemma next_words s : Words s -> Words (next s).
Proof. intros H x Hx. rewrite next_eq in Hx. apply in_app_or in Hx as [Hx|[<-|[]]]; [|apply new_lt, H]. apply H. destruct s; [destruct Hx|right; exact Hx]. Qed.
Lemma next_length s : s <> [] -> length (next s) = length s.
Proof. intros H. rewrite next_eq, app_length. destruct s; [congruence|]. cbn. lia. Qed.
Lemma last_next s : last (next s) 0 = new s.
Proof. rewrite next_eq. apply last_last. Qed.

(* what the engine does in n steps *)
Fixpoint after (n : nat) (s : list N) : list N := match n with O => s | S n' => after n' (next s) end.
Fixpoint raws (n : nat) (s : list N) : list N := match n with O => [] | S n' => new s :: raws n' (next s) end.

Lemma next_not_nil s : next s <> []. Proof. rewrite next_eq. destruct (tl s); discriminate. Qed.
Lemma raws_length n : forall s, length (raws n s) = n.
Proof. induction n as [|n IH]; intros s; [reflexivity|]. cbn. rewrite IH. reflexivity. Qed.
Lemma after_app a b s : after (a + b) s = after b (after a s).
Proof. revert s. induction a as [|a IH]; intros s; [reflexivity|]. cbn. apply IH. Qed.
Lemma raws_app a b s : raws (a + b) s = raws a s ++ raws b (after a s).
Proof. revert s. induction a as [|a IH]; intros s; [reflexivity|]. cbn. rewrite IH. reflexivity. Qed.
Lemma after_words n : forall s, Words s -> Words (after n s).
Proof. induction n as [|n IH]; intros s H; [exact H|]. cbn. apply IH, next_words, H. Qed.
Lemma raws_words n : forall s, Words s -> Words (raws n s).
Proof. induction n as [|n IH]; intros s H x; [intros []|]. intros [<-|Hx]; [apply new_lt, H|]. exact (IH _ (next_words _ H) x Hx). Qed.
Lemma after_raws n : forall s, s <> [] -> (n <= length s)%nat -> after n s = skipn n s ++ raws n s.
Proof.
  induction n as [|n IH]; intros s Hs Hn; [cbn; rewrite app_nil_r; reflexivity|]. cbn [after raws].
  rewrite IH; [|apply next_not_nil|rewrite next_length by exact Hs; lia]. rewrite next_eq at 1. destruct s as [|x s]; [congruence|]. cbn [tl skipn]. cbn in Hn.
  rewrite skipn_app. replace (n - length s)%nat with 0%nat by lia. cbn [skipn]. rewrite <- app_assoc. reflexivity.
Qed.
Lemma after_length n : forall s, s <> [] -> length (after n s) = length s.
Proof. induction n as [|n IH]; intros s H; [reflexivity|]. cbn. rewrite IH by apply next_not_nil. apply next_length, H. Qed.

(* the recurrence *)
Lemma shift_one s R : s <> [] -> s ++ new s :: R = hd 0 s :: (next s ++ R).
Proof. intros H. destruct s as [|x s]; [congruence|]. rewrite next_eq. cbn. rewrite <- app_assoc. reflexivity. Qed.
Lemma recurrence k : forall s n, (length s = 624)%nat -> (k < n)%nat -> let X := s ++ raws n s in
  nth (k + 624) X 0 = twist (nth k X 0) (nth (k + 1) X 0) (nth (k + 397) X 0).
Proof.
  induction k as [|k IH]; intros s n Hl Hn; cbv zeta; (destruct n as [|n]; [lia|]); cbn [raws].
  - rewrite (app_nth2 s) by lia. rewrite Hl. replace (0 + 624 - 624)%nat with 0%nat by lia. cbn [nth]. unfold new. rewrite !app_nth1 by lia. reflexivity.
  - assert (Hs : s <> []) by (intros ->; discriminate). rewrite (shift_one s _ Hs). cbn [Nat.add nth]. apply (IH (next s) n); [|lia].
    rewrite next_length; assumption.
Qed.

(* ---- draws ---- *)

Lemma draw_eq s : draw s = (next s, temper (new s)).
Proof. unfold draw. cbv zeta. rewrite last_next. reflexivity. Qed.
Definition pack (ws : list N) : list N := flat_map bytes_of ws.
Lemma generate_eq s : generate s = (after 4 s, pack (map temper (raws 4 s))).
Proof. unfold generate. rewrite draw_eq. cbv iota beta. rewrite draw_eq. cbv iota beta. rewrite draw_eq. cbv iota beta. rewrite draw_eq. cbv iota beta. reflexivity. Qed.

Fixpoint unpack (bs : list N) : list N :=
  match bs with a :: b :: c :: d :: r => (a + 256 * b + 65536 * c + 16777216 * d) :: unpack r | _ => [] end.
Lemma word_bytes w : w < word -> w mod 256 + 256 * (w / 256 mod 256) + 65536 * (w / 65536 mod 256) + 16777216 * (w / 16777216 mod 256) = w.
Proof.
  unfold word. intros H. change (2 ^ 32) with 4294967296 in H.
  replace 65536 with (256 * 256) by reflexivity. replace 16777216 with (256 * 256 * 256) by reflexivity. rewrite <- !N.div_div by lia.
  set (a := w / 256). set (b := a / 256). set (c := b / 256).
  pose proof (N.div_mod w 256 ltac:(lia)). pose proof (N.div_mod a 256 ltac:(lia)). pose proof (N.div_mod b 256 ltac:(lia)). fold a in H0. fold b in H1. fold c in H2.
  assert (c < 256). { assert (16777216 * c <= w) by lia. lia. }
  rewrite (N.mod_small c) by assumption. lia.
Qed.
Lemma unpack_pack ws : Words ws -> unpack (pack ws) = ws.
Proof.
  induction ws as [|w ws IH]; intros H; [reflexivity|]. cbn [pack flat_map bytes_of app unpack]. f_equal; [apply word_bytes, H; left; reflexivity|].
  apply IH. intros x Hx. apply H. right. exact Hx.
Qed.

Lemma uids_length n : forall s, length (uids n s) = n.
Proof. induction n as [|n IH]; intros s; [reflexivity|]. cbn [uids]. rewrite generate_eq. cbn [length]. rewrite IH. reflexivity. Qed.
Lemma uids_app a b : forall s, uids (a + b) s = uids a s ++ uids b (after (4 * a) s).
Proof.
  induction a as [|a IH]; intros s; [reflexivity|]. cbn [uids Nat.add]. rewrite generate_eq. rewrite IH. replace (4 * S a)%nat with (4 + 4 * a)%nat by lia.
  rewrite (after_app 4). reflexivity.
Qed.
Lemma unpack_app16 u r : length u = 16%nat -> unpack (u ++ r) = unpack u ++ unpack r.
Proof. intros H. do 16 (destruct u as [|? u]; [discriminate|]). destruct u; [reflexivity|discriminate]. Qed.
Lemma uid_length ws : length ws = 4%nat -> length (pack ws) = 16%nat.
Proof. intros H. do 4 (destruct ws as [|? ws]; [discriminate|]). destruct ws; [reflexivity|discriminate]. Qed.
(* the words out of which identifiers were made *)
Definition words_of (us : list (list N)) : list N := flat_map unpack us.
Lemma words_uids n : forall s, Words s -> words_of (uids n s) = map temper (raws (4 * n) s).
Proof.
  induction n as [|n IH]; intros s H; [reflexivity|]. cbn [uids]. rewrite generate_eq. cbn [words_of flat_map]. rewrite unpack_pack.
  - fold (words_of (uids n (after 4 s))). rewrite IH by (apply after_words, H). replace (4 * S n)%nat with (4 + 4 * n)%nat by lia. rewrite raws_app, map_app. reflexivity.
  - intros x Hx. apply in_map_iff in Hx as (y & <- & Hy). apply temper_lt. exact (raws_words 4 s H y Hy).
Qed.

Lemma map_untemper ws : Words ws -> map untemper (map temper ws) = ws.
Proof. intros H. rewrite map_map. transitivity (map (fun x => x) ws); [|apply map_id]. apply map_ext_in. intros x Hx. apply untemper_temper, H, Hx. Qed.

(* ---- the initial state ---- *)

Lemma seeded_length n : forall i x, length (seeded n i x) = n.
Proof. induction n as [|n IH]; intros i x; [reflexivity|]. cbn. rewrite IH. reflexivity. Qed.
Lemma seeded_words n : forall i x, Words (seeded n i x).
Proof. induction n as [|n IH]; intros i x y; [intros []|]. intros [<-|H]; [apply N.mod_lt; discriminate|]. exact (IH _ _ _ H). Qed.
Lemma engine_length seed : length (engine seed) = 624%nat.
Proof. unfold engine. cbv zeta. cbn [length]. rewrite seeded_length. reflexivity. Qed.
Lemma engine_words seed : Words (engine seed).
Proof.
  unfold engine. cbv zeta. generalize (seeded_words 623 1 (seed mod word)). generalize (seeded 623 1 (seed mod word)). intros l Hl x H.
  apply in_inv in H as [<-|H]; [apply N.mod_lt; discriminate|]. exact (Hl x H).
Qed.

(* ---- from 156 identifiers in a row all others follow ---- *)

Definition foretell (us : list (list N)) : list N := snd (generate (map untemper (words_of us))).
Lemma foretell_state s : Words s -> length s = 624%nat -> map untemper (words_of (uids 156 s)) = after 624 s.
Proof.
  intros H Hl. rewrite words_uids by exact H. change (4 * 156)%nat with 624%nat. rewrite map_untemper by (apply raws_words, H).
  rewrite after_raws; [|intros ->; discriminate|lia]. rewrite skipn_all2 by lia. reflexivity.
Qed.

(* ---- different seeds ---- *)

Lemma turn_inj y y' : y < word -> y' < word -> turn y = turn y' -> y = y'.
Proof.
  unfold word. intros Hy Hy' E.
  assert (B : forall z, z < 2 ^ 32 -> N.testbit (turn z) 31 = N.odd z).
  { intros z Hz. unfold turn. rewrite N.lxor_spec, N.shiftr_spec'. rewrite (proj1 (lt_pow z 32) Hz (31 + 1)) by lia. destruct (N.odd z); reflexivity. }
  assert (O : N.odd y = N.odd y') by (rewrite <- !B by assumption; rewrite E; reflexivity).
  unfold turn in E. rewrite O in E. assert (S : N.shiftr y 1 = N.shiftr y' 1).
  { rewrite <- (N.lxor_0_r (N.shiftr y 1)), <- (N.lxor_0_r (N.shiftr y' 1)), <- (N.lxor_nilpotent (if N.odd y' then 2567483615 else 0)), <- !N.lxor_assoc, E. reflexivity. }
  apply N.bits_inj. intros i. destruct (N.eq_dec i 0) as [->|Hi]; [rewrite !N.bit0_odd; exact O|].
  replace i with (N.pred i + 1) by lia. rewrite <- !N.shiftr_spec', S. reflexivity.
Qed.
Lemma choose_bits a b i : N.testbit (choose a b) i = if i =? 31 then N.testbit a 31 else if i <? 31 then N.testbit b i else false.
Proof.
  unfold choose. rewrite N.lor_spec, !N.land_spec. change (2 ^ 31 - 1) with (N.ones 31).
  destruct (i =? 31) eqn:E1; [apply N.eqb_eq in E1; subst i; rewrite N.pow2_bits_true, N.ones_spec_high by lia; rewrite andb_true_r, andb_false_r, orb_false_r; reflexivity|].
  apply N.eqb_neq in E1. rewrite N.pow2_bits_false by congruence. rewrite andb_false_r, orb_false_l. destruct (i <? 31) eqn:E2.
  - apply N.ltb_lt in E2. rewrite N.ones_spec_low by exact E2. apply andb_true_r.
  - apply N.ltb_ge in E2. rewrite N.ones_spec_high by exact E2. apply andb_false_r.
Qed.

Section Back.
(* two runs of the engine which agree from the 624th word on *)
Variables X Y : nat -> N.
Hypothesis HX : forall k, X k < word.
Hypothesis HY : forall k, Y k < word.
Hypothesis RX : forall k, (k < 624)%nat -> X (k + 624)%nat = twist (X k) (X (k + 1)%nat) (X (k + 397)%nat).
Hypothesis RY : forall k, (k < 624)%nat -> Y (k + 624)%nat = twist (Y k) (Y (k + 1)%nat) (Y (k + 397)%nat).
Hypothesis Agree : forall k, (624 <= k < 1248)%nat -> X k = Y k.

Lemma back_choose k : (k < 624)%nat -> X (k + 397)%nat = Y (k + 397)%nat -> choose (X k) (X (k + 1)%nat) = choose (Y k) (Y (k + 1)%nat).
Proof.
  intros Hk E. apply turn_inj; try (apply choose_lt; auto). pose proof (Agree (k + 624)%nat ltac:(lia)) as A. rewrite RX, RY, !twist_eq, E in A by exact Hk.
  rewrite <- (N.lxor_0_l (turn (choose (X k) _))), <- (N.lxor_0_l (turn (choose (Y k) _))), <- (N.lxor_nilpotent (Y (k + 397)%nat)), !N.lxor_assoc, A. reflexivity.
Qed.
Lemma back_full k : choose (X k) (X (k + 1)%nat) = choose (Y k) (Y (k + 1)%nat) -> choose (X (k + 1)%nat) (X (k + 1 + 1)%nat) = choose (Y (k + 1)%nat) (Y (k + 1 + 1)%nat) ->
  X (k + 1)%nat = Y (k + 1)%nat.
Proof.
  intros E1 E2. apply N.bits_inj. intros i.
  destruct (N.lt_ge_cases i 32) as [Hi|Hi].
  - destruct (N.eq_dec i 31) as [->|Hne].
    + pose proof (f_equal (fun z => N.testbit z 31) E2) as B. cbn beta in B. rewrite !choose_bits in B. exact B.
    + pose proof (f_equal (fun z => N.testbit z i) E1) as B. cbn beta in B. rewrite !choose_bits in B.
      rewrite (proj2 (N.eqb_neq i 31) Hne), (proj2 (N.ltb_lt i 31)) in B by lia. exact B.
  - rewrite (proj1 (lt_pow _ 32) (HX _) i Hi), (proj1 (lt_pow _ 32) (HY _) i Hi). reflexivity.
Qed.
Lemma back_all : forall d k, (k + d = 623)%nat -> choose (X k) (X (k + 1)%nat) = choose (Y k) (Y (k + 1)%nat).
Proof.
  intros d. induction d as [d IH] using lt_wf_ind. intros k Hk. apply back_choose; [lia|].
  destruct (Nat.le_gt_cases 624 (k + 397)) as [L|L]; [apply Agree; lia|].
  replace (k + 397)%nat with (k + 396 + 1)%nat by lia. apply back_full.
  - apply (IH (623 - (k + 396))%nat); lia.
  - apply (IH (623 - (k + 396 + 1))%nat); lia.
Qed.
Lemma back_one : X 1%nat = Y 1%nat.
Proof. apply (back_full 0); [apply (back_all 623); reflexivity|apply (back_all 622); reflexivity]. Qed.
End Back.

Lemma seed_word1 seed : seed < word -> nth 1 (engine seed) 0 = (1812433253 * N.lxor seed (N.shiftr seed 30) + 1) mod word.
Proof. intros H. unfold engine. cbv zeta. rewrite (N.mod_small seed) by exact H. reflexivity. Qed.
Lemma times_odd a b : a < word -> b < word -> (1812433253 * a + 1) mod word = (1812433253 * b + 1) mod word -> a = b.
Proof.
  intros Ha Hb E.
  assert (R : forall a, a < word -> (2520285293 * ((1812433253 * a + 1) mod word) + (word - 2520285293)) mod word = a).
  { intros z Hz. assert (W : word <> 0) by discriminate.
    rewrite N.add_mod, (N.mul_mod 2520285293 (_ mod word)), N.mod_mod, <- N.mul_mod, <- N.add_mod by exact W.
    replace (2520285293 * (1812433253 * z + 1) + (word - 2520285293)) with (z + (1063535193 * z + 1) * word); [rewrite N.mod_add by exact W; apply N.mod_small, Hz|].
    unfold word. change (2 ^ 32) with 4294967296. lia. }
  rewrite <- (R a Ha), <- (R b Hb), E. reflexivity.
Qed.
Lemma fold_inj a b : a < word -> b < word -> N.lxor a (N.shiftr a 30) = N.lxor b (N.shiftr b 30) -> a = b.
Proof.
  assert (U : forall x, x < word -> undo_r 30 (undo_r 30 x) = x).
  { apply (linear_check (fun x => undo_r 30 (undo_r 30 x)) 32); [apply linear_comp; apply linear_undo, linear_id|vm_compute; reflexivity]. }
  intros Ha Hb E. rewrite <- (U a Ha), <- (U b Hb). unfold undo_r at 2 4. rewrite E. reflexivity.
Qed.

Lemma seeds_differ a b : a < word -> b < word -> made_with a 156 = made_with b 156 -> a = b.
Proof.
  intros Ha Hb E. unfold made_with in E.
  assert (ER : raws 624 (engine a) = raws 624 (engine b)).
  { apply (f_equal words_of) in E. rewrite !words_uids in E by apply engine_words. change (4 * 156)%nat with 624%nat in E. apply (f_equal (map untemper)) in E.
    rewrite !map_untemper in E by apply raws_words, engine_words. exact E. }
  assert (E1 : nth 1 (engine a) 0 = nth 1 (engine b) 0).
  { set (X := engine a ++ raws 624 (engine a)). set (Y := engine b ++ raws 624 (engine b)).
    assert (L : forall s, Words (engine s ++ raws 624 (engine s))) by (intros s x Hx; apply in_app_or in Hx as [Hx|Hx]; [exact (engine_words s x Hx)|exact (raws_words 624 _ (engine_words s) x Hx)]).
    pose proof (back_one (fun k => nth k X 0) (fun k => nth k Y 0)) as B. cbn beta in B.
    assert (N1 : forall s, nth 1 (engine s ++ raws 624 (engine s)) 0 = nth 1 (engine s) 0) by (intros s; apply app_nth1; rewrite engine_length; lia).
    unfold X, Y in B. rewrite !N1 in B. apply B.
    - intros k. apply words_nth, L.
    - intros k. apply words_nth, L.
    - intros k Hk. apply (recurrence k (engine a) 624); [apply engine_length|exact Hk].
    - intros k Hk. apply (recurrence k (engine b) 624); [apply engine_length|exact Hk].
    - intros k Hk. rewrite !app_nth2 by (rewrite engine_length; lia). rewrite !engine_length, ER. reflexivity. }
  rewrite !seed_word1 in E1 by assumption. apply times_odd in E1; [apply fold_inj; assumption| |]; apply lxor_lt; try apply shiftr_lt; assumption.
Qed.

(* ---- pigeonhole ---- *)

Lemma repeated (l : list N) : ~ NoDup l -> exists x l1 l2 l3, l = l1 ++ x :: l2 ++ x :: l3.
Proof.
  induction l as [|a l IH]; intros D; [destruct D; constructor|]. destruct (in_dec N.eq_dec a l) as [Ha|Ha].
  - apply in_split in Ha as (l2 & l3 & ->). exists a, [], l2, l3. reflexivity.
  - destruct IH as (x & l1 & l2 & l3 & ->); [intros N; apply D; constructor; assumption|]. exists x, (a :: l1), l2, l3. reflexivity.
Qed.
Lemma pigeonhole (l : list N) (m : N) : (forall x, In x l -> x < m) -> m < N.of_nat (length l) ->
  exists i j, (i < j < length l)%nat /\ nth i l 0 = nth j l 0.
Proof.
  intros H Hl. destruct (NoDup_dec N.eq_dec l) as [D|D].
  - exfalso. assert (I : incl l (map N.of_nat (seq 0 (N.to_nat m)))).
    { intros x Hx. apply in_map_iff. exists (N.to_nat x). split; [apply N2Nat.id|]. apply in_seq. specialize (H x Hx). lia. }
    pose proof (NoDup_incl_length D I) as L. rewrite map_length, seq_length in L. lia.
  - apply repeated in D as (x & l1 & l2 & l3 & ->). exists (length l1), (length (l1 ++ x :: l2))%nat. split.
    + rewrite !app_length. cbn. rewrite app_length. cbn. lia.
    + rewrite nth_middle. replace (l1 ++ x :: l2 ++ x :: l3) with ((l1 ++ x :: l2) ++ x :: l3) by (rewrite <- app_assoc; reflexivity). rewrite nth_middle. reflexivity.
Qed.

(* ---- in the browser ---- *)

Definition up (k : N) : bool := let unit := 2 ^ (N.size k - 24) in negb ((2 * (k mod unit) <? unit) || ((2 * (k mod unit) =? unit) && N.even (k / unit))).
Lemma to_float_eq k : to_float k = 2 ^ (N.size k - 24) * (k / 2 ^ (N.size k - 24) + (if up k then 1 else 0)).
Proof. unfold to_float, up. cbv zeta. destruct (_ || _); cbn [negb]; [rewrite N.add_0_r|]; reflexivity. Qed.
Lemma size_le k n : k < 2 ^ n -> N.size k <= n.
Proof. intros H. destruct (N.eq_dec k 0) as [->|Hk]; [cbn; lia|]. apply N.log2_lt_pow2 in H; [|lia]. rewrite N.size_log2 by exact Hk. lia. Qed.
Lemma quot_small k : k / 2 ^ (N.size k - 24) < 2 ^ 24.
Proof.
  apply N.div_lt_upper_bound; [apply N.pow_nonzero; lia|]. eapply N.lt_le_trans; [apply N.size_gt|]. rewrite <- N.pow_add_r. apply N.pow_le_mono_r; lia.
Qed.
Lemma float_le k n : 24 <= n -> k < 2 ^ n -> to_float k <= 2 ^ n.
Proof.
  intros Hn H. rewrite to_float_eq. pose proof (size_le k n H) as Hs. pose proof (quot_small k) as Q.
  replace (2 ^ n) with (2 ^ (n - 24) * 2 ^ 24) by (rewrite <- N.pow_add_r; f_equal; lia).
  apply N.mul_le_mono; [apply N.pow_le_mono_r; lia|]. destruct (up k); lia.
Qed.
Lemma byte_value k : k < 2 ^ 53 -> to_float k * 256 / 2 ^ 53 = k / 2 ^ 45 \/ to_float k * 256 / 2 ^ 53 = k / 2 ^ 45 + 1.
Proof.
  intros H. rewrite to_float_eq. set (e := N.size k - 24). assert (He : e <= 29) by (pose proof (size_le k 53 H); lia). clearbody e. set (d := if up k then 1 else 0).
  assert (Hd : d = 0 \/ d = 1) by (unfold d; destruct (up k); auto). clearbody d.
  assert (P : forall i, 2 ^ i <> 0) by (intros i; apply N.pow_nonzero; lia).
  assert (E : 2 ^ e * (k / 2 ^ e + d) * 256 / 2 ^ 53 = (k / 2 ^ e + d) / 2 ^ (45 - e)).
  { replace (2 ^ 53) with (2 ^ (45 - e) * (2 ^ e * 256)) by (change 256 with (2 ^ 8); rewrite <- !N.pow_add_r; f_equal; lia).
    replace (2 ^ e * (k / 2 ^ e + d) * 256) with ((k / 2 ^ e + d) * (2 ^ e * 256)) by lia. apply N.div_mul_cancel_r; [apply P|]. specialize (P e). lia. }
  rewrite E. assert (E2 : k / 2 ^ 45 = k / 2 ^ e / 2 ^ (45 - e)).
  { rewrite N.div_div by apply P. f_equal. rewrite <- N.pow_add_r. f_equal. lia. }
  rewrite E2. clear E E2. generalize (k / 2 ^ e). intros q. specialize (P (45 - e)). revert P. generalize (2 ^ (45 - e)). intros u P. destruct Hd as [->| ->]; [rewrite N.add_0_r; left; reflexivity|].
  pose proof (N.div_mod q u P). pose proof (N.mod_lt q u P).
  destruct (N.eq_dec (q mod u + 1) u) as [Eu|Eu].
  - right. symmetry. apply (N.div_unique _ _ _ 0); lia.
  - left. symmetry. apply (N.div_unique _ _ _ (q mod u + 1)); lia.
Qed.
Lemma byte_none k : k < 2 ^ 53 -> (byte_of k = None <-> 2 ^ 53 - 2 ^ 28 <= k).
Proof.
  intros H. unfold byte_of. cbv zeta.
  assert (T : to_float k * 256 / 2 ^ 53 < 256 <-> to_float k < 2 ^ 53).
  { split; intros L.
    - destruct (N.lt_ge_cases (to_float k) (2 ^ 53)) as [G|G]; [exact G|]. exfalso. assert (256 <= to_float k * 256 / 2 ^ 53) by (apply N.div_le_lower_bound; lia). lia.
    - apply N.div_lt_upper_bound; lia. }
  destruct (N.lt_ge_cases k (2 ^ 52)) as [S|S].
  { assert (to_float k < 2 ^ 53). { eapply N.le_lt_trans; [apply (float_le k 52); [lia|exact S]|reflexivity]. }
    rewrite (proj2 (N.ltb_lt _ _)) by tauto. split; [discriminate|]. change (2 ^ 52) with 4503599627370496 in S. change (2 ^ 53 - 2 ^ 28) with 9007198986305536. lia. }
  assert (Z : N.size k = 53).
  { pose proof (size_le k 53 H). assert (k <> 0) by (intros ->; change (2 ^ 52) with 4503599627370496 in S; lia). rewrite N.size_log2 in * by assumption.
    assert (52 <= N.log2 k); [|lia]. rewrite <- (N.log2_pow2 52) by lia. apply N.log2_le_mono. exact S. }
  pose proof (to_float_eq k) as E. unfold up in E. rewrite Z in E. change (53 - 24) with 29 in E. cbv zeta in E.
  change (2 ^ 29) with 536870912 in E. change (2 ^ 53 - 2 ^ 28) with 9007198986305536. change (2 ^ 53) with 9007199254740992 in *. change (2 ^ 52) with 4503599627370496 in S.
  pose proof (N.div_mod k 536870912 ltac:(lia)) as D. pose proof (N.mod_lt k 536870912 ltac:(lia)) as M.
  set (q := k / 536870912) in *. set (r := k mod 536870912) in *. clearbody q r.
  assert (Q : q <= 16777215) by lia.
  destruct (N.lt_ge_cases k 9007198986305536) as [L|L].
  - assert (to_float k < 9007199254740992).
    { rewrite E. destruct (N.eq_dec q 16777215) as [->|Hq].
      - rewrite (proj2 (N.ltb_lt (2 * r) 536870912)) by lia. cbn [orb negb]. lia.
      - destruct (negb _); lia. }
    rewrite (proj2 (N.ltb_lt _ _)) by tauto. split; [discriminate|lia].
  - assert (q = 16777215) by lia. subst q. rewrite (proj2 (N.ltb_ge (2 * r) 536870912)) in E by lia. cbn [N.even andb orb] in E. rewrite andb_false_r in E. cbn [negb] in E.
    rewrite (proj2 (N.ltb_ge _ _)); [tauto|]. rewrite E. discriminate.
Qed.
Lemma byte_exact b : b < 256 -> byte_of (b * 2 ^ 45) = Some b.
Proof.
  intros H. assert (A : forallb (fun i => match byte_of (N.of_nat i * 2 ^ 45) with Some v => v =? N.of_nat i | None => false end) (seq 0 256) = true) by (vm_compute; reflexivity).
  rewrite forallb_forall in A. specialize (A (N.to_nat b)). rewrite N2Nat.id in A. destruct (byte_of (b * 2 ^ 45)) as [v|].
  - f_equal. apply N.eqb_eq, A, in_seq. lia.
  - discriminate A. apply in_seq. lia.
Qed.
Lemma byte_some k v : k < 2 ^ 53 -> byte_of k = Some v -> v < 256.
Proof. intros H. unfold byte_of. cbv zeta. destruct (_ <? 256) eqn:E; [|discriminate]. intros X. injection X as <-. apply N.ltb_lt, E. Qed.

Lemma bytes_length ks : forall bs, bytes_from ks = Some bs -> length bs = length ks.
Proof. induction ks as [|k ks IH]; intros bs; cbn; [intros E; injection E as <-; reflexivity|]. destruct (byte_of k); [|discriminate]. destruct (bytes_from ks) as [r|]; [|discriminate]. intros E. injection E as <-. cbn. rewrite (IH r eq_refl). reflexivity. Qed.
Lemma bytes_lt ks : (forall k, In k ks -> k < 2 ^ 53) -> forall bs b, bytes_from ks = Some bs -> In b bs -> b < 256.
Proof.
  induction ks as [|k ks IH]; intros H bs b; cbn; [intros E; injection E as <-; intros []|]. destruct (byte_of k) as [v|] eqn:Ev; [|discriminate]. destruct (bytes_from ks) as [r|]; [|discriminate].
  intros E. injection E as <-. intros [<-|Hb]; [eapply byte_some; [apply H; left; reflexivity|exact Ev]|]. eapply IH; [|reflexivity|exact Hb]. intros x Hx. apply H. right. exact Hx.
Qed.
Lemma bytes_none ks : (forall k, In k ks -> k < 2 ^ 53) -> (bytes_from ks = None <-> exists k, In k ks /\ 2 ^ 53 - 2 ^ 28 <= k).
Proof.
  induction ks as [|k ks IH]; intros H; [split; [discriminate|intros (k & [] & _)]|]. cbn.
  pose proof (byte_none k (H k (or_introl eq_refl))) as B. specialize (IH (fun x Hx => H x (or_intror Hx))).
  destruct (byte_of k) as [v|] eqn:E.
  - destruct (bytes_from ks) as [r|].
    + split; [discriminate|]. intros (x & [<-|Hx] & L); [apply B in L; discriminate|]. assert (Some r = None) by (apply IH; exists x; auto). discriminate.
    + split; [intros _|reflexivity]. destruct (proj1 IH eq_refl) as (x & Hx & L). exists x. auto.
  - split; [intros _|reflexivity]. exists k. split; [auto|]. apply B. reflexivity.
Qed.
Lemma bytes_every bs : (forall b, In b bs -> b < 256) -> bytes_from (map (fun b => b * 2 ^ 45) bs) = Some bs.
Proof. induction bs as [|b bs IH]; intros H; [reflexivity|]. cbn [map bytes_from]. rewrite byte_exact by (apply H; left; reflexivity). rewrite IH; [reflexivity|]. intros x Hx. apply H. right. exact Hx. Qed.
