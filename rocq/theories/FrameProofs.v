From Verif Require Import Base FrameModel FrameSpec.
Open Scope N_scope.

Lemma int32_mod z : (int32 z mod 2 ^ 32 = z mod 2 ^ 32)%Z.
Proof. unfold int32. rewrite Zminus_mod, Zmod_mod, <- Zminus_mod. f_equal. lia. Qed.

Lemma lor_mod a b n : (0 <= n -> Z.lor a b mod 2 ^ n = Z.lor (a mod 2 ^ n) (b mod 2 ^ n))%Z.
Proof. intros H. rewrite <- !Z.land_ones by exact H. apply Z.land_lor_distr_l. Qed.

Lemma of_N_shiftl a n : Z.shiftl (Z.of_N a) (Z.of_N n) = Z.of_N (N.shiftl a n).
Proof. rewrite Z.shiftl_mul_pow2 by lia. rewrite N.shiftl_mul_pow2, N2Z.inj_mul, N2Z.inj_pow. reflexivity. Qed.

Lemma of_N_lor a b : Z.lor (Z.of_N a) (Z.of_N b) = Z.of_N (N.lor a b).
Proof. destruct a, b; reflexivity. Qed.

Lemma get_length_value a b c d : is_byte a -> is_byte b -> is_byte c -> is_byte d ->
  get_length [a; b; c; d] = a * 2 ^ 24 + b * 2 ^ 16 + c * 2 ^ 8 + d.
Proof.
  unfold is_byte. intros Ha Hb Hc Hd. unfold get_length. cbn [nth].
  rewrite !lor_mod by lia. rewrite !int32_mod.
  change 24%Z with (Z.of_N 24). change 16%Z with (Z.of_N 16). change 8%Z with (Z.of_N 8). rewrite !of_N_shiftl.
  assert (M : forall x, x < 2 ^ 32 -> (Z.of_N x mod 2 ^ 32 = Z.of_N x)%Z).
  { intros x Hx. apply Z.mod_small. lia. }
  rewrite !M by (rewrite ?N.shiftl_mul_pow2; lia). rewrite !of_N_lor, N2Z.id.
  assert (S : forall x k n, N.shiftl x (k + n) = N.shiftl (N.shiftl x n) k) by (intros; rewrite N.shiftl_shiftl; f_equal; lia).
  replace (N.lor (N.shiftl a 24) (N.shiftl b 16)) with (N.shiftl (a * 2 ^ 8 + b) 16).
  2:{ rewrite <- lor_shiftl_add by (change (2 ^ 8) with 256; exact Hb). rewrite N.shiftl_lor, N.shiftl_shiftl. reflexivity. }
  replace (N.lor (N.shiftl (a * 2 ^ 8 + b) 16) (N.shiftl c 8)) with (N.shiftl ((a * 2 ^ 8 + b) * 2 ^ 8 + c) 8).
  2:{ rewrite <- lor_shiftl_add by (change (2 ^ 8) with 256; exact Hc). rewrite N.shiftl_lor, N.shiftl_shiftl. reflexivity. }
  rewrite lor_shiftl_add by (change (2 ^ 8) with 256; exact Hd). lia.
Qed.

Lemma put_length_shape n : exists a b c d, put_length n = [a; b; c; d] /\ is_byte a /\ is_byte b /\ is_byte c /\ is_byte d /\
  a * 2 ^ 24 + b * 2 ^ 16 + c * 2 ^ 8 + d = n mod 2 ^ 32.
Proof.
  unfold put_length, is_byte. do 4 eexists. split; [reflexivity|].
  rewrite !N.shiftr_div_pow2. generalize (N.mod_lt n (2 ^ 32) ltac:(discriminate)). generalize (n mod 2 ^ 32). intros x Hx.
  repeat split; try (apply N.mod_lt; discriminate).
  change (2 ^ 32) with 4294967296 in *. change (2 ^ 24) with 16777216. change (2 ^ 16) with 65536. change (2 ^ 8) with 256. lia.
Qed.

Lemma get_put n : get_length (put_length n) = n mod 2 ^ 32.
Proof. destruct (put_length_shape n) as (a & b & c & d & -> & Ha & Hb & Hc & Hd & <-). apply get_length_value; assumption. Qed.

Lemma put_length_4 n : length (put_length n) = 4%nat.
Proof. reflexivity. Qed.

Definition frames (ms : list bytes) : bytes := concat (map frame ms).
Arguments frames : simpl never.
Lemma frames_app a b : frames (a ++ b) = frames a ++ frames b.
Proof. unfold frames. rewrite map_app, concat_app. reflexivity. Qed.

(* the bytes of the message that is being read *)
Definition Partial (p : phase) (b part : bytes) : Prop :=
  match p with
  | ReadLength => part = b /\ (length b <= 4)%nat
  | ReadBody n => exists h, length h = 4%nat /\ get_length h = n /\ part = h ++ b /\ (length b <= N.to_nat n)%nat
  end.
Definition rest (w : option bytes) : bytes := match w with Some b => b | None => [] end.

Record Inv (s : state) : Prop := {
  i_small : Forall small (written s);
  i_split : exists part R, Partial (rphase s) (rbuf s) part /\ written s = delivered s ++ R /\
            frames R = part ++ net s ++ rest (wbuf s) /\ pushed s = frames (delivered s) ++ part ++ net s
}.

Lemma frame_length m : length (frame m) = (4 + length m)%nat.
Proof. unfold frame. rewrite app_length, put_length_4. reflexivity. Qed.

(* the next message is the one that starts the rest of the stream *)
Lemma next_message R h b more : Forall small R -> frames R = h ++ b ++ more -> length h = 4%nat -> (length b <= N.to_nat (get_length h))%nat ->
  exists m R', R = m :: R' /\ h = put_length (N.of_nat (length m)) /\ get_length h = N.of_nat (length m) /\ m ++ frames R' = b ++ more.
Proof.
  intros F E L Hb. destruct R as [|m R']. { destruct h; discriminate. }
  exists m, R'. unfold frames in E. cbn [map concat] in E. unfold frame in E at 1. rewrite <- app_assoc in E.
  assert (h = put_length (N.of_nat (length m)) /\ m ++ frames R' = b ++ more) as [Hh Hm].
  { destruct (put_length_shape (N.of_nat (length m))) as (x & y & z & w & P & _). rewrite P in E |- *.
    destruct h as [|h0 [|h1 [|h2 [|h3 [|]]]]]; try discriminate. cbn [app] in E. injection E. intros. subst. auto. }
  repeat split; try assumption. rewrite Hh, get_put. inversion F; subst. apply N.mod_small. assumption.
Qed.

Lemma inv_init : Inv init.
Proof. split. - constructor. - exists [], []. cbn. repeat split; lia. Qed.

Lemma firstn_skipn_assoc (k : nat) (a b : bytes) : firstn k a ++ skipn k a ++ b = a ++ b.
Proof. rewrite app_assoc, firstn_skipn. reflexivity. Qed.

Lemma inv_step s l s' : Inv s -> step s l = Some s' -> Forall small (written s') -> Inv s'.
Proof.
  intros [Hs (part & R & HP & HW & HF & HU)] E Hs'. split; [exact Hs'|]. clear Hs'.
  destruct s as [wr wb pu ne cl ph rb de fa]. cbn in *. destruct l; cbn in E.
  - destruct wb; [discriminate|]. injection E as <-. cbn in *. exists part, (R ++ [m]). repeat split; try assumption.
    + rewrite HW, app_assoc. reflexivity.
    + rewrite frames_app, HF. unfold frames. cbn [map concat]. rewrite !app_nil_r, <- app_assoc. reflexivity.
  - destruct wb as [b|]; [|discriminate]. destruct (_ && _ && _) eqn:G in E; [|discriminate]. injection E as <-. cbn in *.
    exists part, R. repeat split; try assumption.
    + rewrite <- app_assoc, firstn_skipn. exact HF.
    + rewrite HU, <- !app_assoc. reflexivity.
  - destruct wb as [[|]|]; try discriminate. injection E as <-. cbn in *. exists part, R. auto.
  - destruct (_ && _ && _ && _) eqn:G in E; [|discriminate]. injection E as <-. cbn in *.
    apply andb_prop in G as [G _]. apply andb_prop in G as [G G3]. apply andb_prop in G as [_ G2]. apply Nat.leb_le in G2, G3.
    exists (part ++ firstn k ne), R. repeat split; try assumption.
    + destruct ph as [|n].
      * destruct HP as [-> HP]. split; [reflexivity|]. rewrite app_length, firstn_length_le by exact G2. exact G3.
      * destruct HP as (h & H4 & Hn & -> & HP). exists h. repeat split; try assumption. { rewrite app_assoc. reflexivity. }
        rewrite app_length, firstn_length_le by exact G2. exact G3.
    + rewrite <- app_assoc, firstn_skipn_assoc. exact HF.
    + rewrite <- app_assoc, firstn_skipn. exact HU.
  - destruct (_ && _) eqn:G in E; [|discriminate]. apply andb_prop in G as [G _]. apply Nat.eqb_eq in G.
    destruct ph as [|n]; injection E as <-; cbn in *.
    + destruct HP as [-> HP]. exists rb, R. split; [|auto]. exists rb. rewrite app_nil_r. repeat split; try assumption. cbn. lia.
    + destruct HP as (h & H4 & Hn & -> & HP). assert (FR : Forall small R) by (rewrite HW in Hs; apply Forall_app in Hs; apply Hs).
      rewrite <- app_assoc in HF. subst n.
      destruct (next_message R h rb _ FR HF H4 HP) as (m & R' & -> & Hh & Hl & Hm). rewrite Hl in G. rewrite Nat2N.id in G.
      apply app_eq_app in Hm. assert (rb = m /\ frames R' = ne ++ rest wb) as [-> HF'].
      { destruct Hm as (l & [[A B]|[A B]]); subst; rewrite app_length in G; destruct l; cbn in G; try lia; rewrite ?app_nil_r in *; auto. }
      exists [], R'. repeat split.
      * cbn. lia.
      * rewrite HW, <- app_assoc. reflexivity.
      * exact HF'.
      * rewrite HU. rewrite frames_app. change (frames [m]) with (frame m ++ []).
        unfold frame at 1. rewrite <- Hh, app_nil_r, <- !app_assoc. reflexivity.
  - injection E as <-. exists part, R. auto.
  - destruct ne; [|discriminate]. destruct (_ && _ && _) eqn:G in E; [|discriminate]. injection E as <-. exists part, R. auto.
Qed.

Lemma written_mono s l s' : step s l = Some s' -> exists x, written s' = written s ++ x.
Proof.
  destruct s as [wr wb pu ne cl ph rb de fa], l; cbn; intros E;
    repeat match type of E with context [match ?x with _ => _ end] => destruct x end; try discriminate; injection E as <-; cbn;
    first [exists []; rewrite app_nil_r; reflexivity|eexists; reflexivity].
Qed.

Lemma exec_mono ls : forall s s', exec s ls = Some s' -> exists x, written s' = written s ++ x.
Proof.
  induction ls as [|l ls IH]; intros s s' E; cbn in E.
  - injection E as <-. exists []. rewrite app_nil_r. reflexivity.
  - destruct (step s l) as [s1|] eqn:E1; [|discriminate]. apply IH in E as [x E]. apply written_mono in E1 as [y E1].
    exists (y ++ x). rewrite E, E1, app_assoc. reflexivity.
Qed.

Lemma inv_exec ls : forall s s', Inv s -> exec s ls = Some s' -> Forall small (written s') -> Inv s'.
Proof.
  induction ls as [|l ls IH]; intros s s' I E F; cbn in E; [injection E as <-; exact I|].
  destruct (step s l) as [s1|] eqn:E1; [|discriminate]. apply IH with s1; auto. eapply inv_step; eauto.
  destruct (exec_mono _ _ _ E) as [x Ex]. rewrite Ex in F. apply Forall_app in F. apply F.
Qed.

Lemma inv_reaches s : reaches s -> Forall small (written s) -> Inv s.
Proof. intros [ls E] F. eapply inv_exec; eauto. apply inv_init. Qed.

Lemma on_wire_frame m : small m -> OnWire m (frame m).
Proof.
  intros S. exists (put_length (N.of_nat (length m))). split; [|reflexivity].
  destruct (put_length_shape (N.of_nat (length m))) as (a & b & c & d & -> & Ha & Hb & Hc & Hd & E).
  rewrite (N.mod_small _ _ S) in E. rewrite <- E. constructor; assumption.
Qed.

Lemma be_inj a b n : BigEndian a n -> BigEndian b n -> a = b.
Proof.
  intros A B. inversion A as [a1 b1 c1 d1 ? ? ? ? Ea En]; clear A. inversion B as [a2 b2 c2 d2 ? ? ? ? Eb En2]; clear B. unfold is_byte in *.
  assert (a1 = a2 /\ b1 = b2 /\ c1 = c2 /\ d1 = d2) as (-> & -> & -> & ->); [|reflexivity].
  change (2 ^ 24) with 16777216 in *. change (2 ^ 16) with 65536 in *. change (2 ^ 8) with 256 in *. clear Ea Eb. lia.
Qed.

Lemma on_wire_iff m w : small m -> OnWire m w <-> w = frame m.
Proof.
  intros S. split; [|intros ->; apply on_wire_frame; exact S]. intros (h & B & ->).
  destruct (on_wire_frame m S) as (h' & B' & E). rewrite E. f_equal. eapply be_inj; eauto.
Qed.

Lemma stream_iff ms w : Forall small ms -> Stream ms w <-> w = frames ms.
Proof.
  intros F. revert w. induction F as [|m ms S F IH]; intros w; split.
  - intros X. inversion X. reflexivity.
  - intros ->. constructor.
  - intros X. inversion X; subst. unfold frames. cbn [map concat]. f_equal; [apply on_wire_iff; assumption|apply IH; assumption].
  - intros ->. unfold frames. cbn [map concat]. constructor; [apply on_wire_iff; [assumption|reflexivity]|apply IH; reflexivity].
Qed.

(* an unfinished message does not hold a whole one *)
Lemma no_more R p b part : Forall small R -> Partial p b part -> (length b < need p)%nat ->
  forall more, frames R = part ++ more -> forall m R', R = m :: R' -> (length part < length (frame m))%nat.
Proof.
  intros F HP Hlt more E m R' ->. rewrite frame_length. destruct p as [|n]; cbn in Hlt, HP.
  - destruct HP as [-> HP]. lia.
  - destruct HP as (h & H4 & <- & -> & HP). rewrite <- app_assoc in E. destruct (next_message _ h b more F E H4 HP) as (m' & R2 & X & _ & Hl & _).
    injection X as <- <-. rewrite app_length. lia.
Qed.

Lemma frames_cons m R : frames (m :: R) = frame m ++ frames R.
Proof. reflexivity. Qed.

Lemma complete_at_end s : Inv s -> net s = [] -> (length (rbuf s) < need (rphase s))%nat -> Complete (written s) (delivered s) (pushed s).
Proof.
  intros [F (part & R & HP & HW & HF & HU)] Hn Hlt. rewrite Hn in *. rewrite app_nil_r in HU. cbn [app] in HF.
  assert (FD : Forall small (delivered s)) by (rewrite HW in F; apply Forall_app in F; apply F).
  assert (FR : Forall small R) by (rewrite HW in F; apply Forall_app in F; apply F).
  split; [exists R; exact HW|]. split.
  { exists (frames (delivered s)). split; [apply stream_iff; [exact FD|reflexivity]|]. exists part. exact HU. }
  intros m w [x Hx] St [y Hy]. rewrite <- app_assoc in Hx. cbn [app] in Hx. rewrite HW in Hx. apply app_inv_head in Hx.
  apply stream_iff in St. 2:{ apply Forall_app. split; [exact FD|]. rewrite Hx in FR. inversion FR; subst. constructor; [assumption|constructor]. }
  subst w. rewrite frames_app, HU, <- app_assoc in Hy. apply app_inv_head in Hy. unfold frames in Hy. cbn [map concat] in Hy. rewrite app_nil_r in Hy.
  pose proof (no_more R _ _ _ FR HP Hlt _ HF m x Hx) as L. rewrite Hy, app_length in L. lia.
Qed.

Definition measure (s : state) : nat :=
  4 * length (rest (wbuf s)) + (match wbuf s with Some _ => 1 | None => 0 end) + 3 * length (net s) + 2 * length (rbuf s)
  + (match rphase s with ReadBody _ => 1 | _ => 0 end) + (if failed s then 0 else 1).

Lemma measure_step s l s' : internal l -> step s l = Some s' -> (measure s' < measure s)%nat.
Proof.
  intros [NS NC] E. destruct s as [wr wb pu ne cl ph rb de fa]. unfold measure. destruct l; cbn [step wbuf closed failed net rbuf rphase] in E; try (exfalso; eapply NS; reflexivity); try (exfalso; apply NC; reflexivity).
  - destruct wb as [b|]; [|discriminate]. destruct (_ && _ && _) eqn:G in E; [|discriminate]. injection E as <-. cbn [rest wbuf net rbuf rphase failed].
    apply andb_prop in G as [G _]. apply andb_prop in G as [G1 G2]. apply Nat.ltb_lt in G1. apply Nat.leb_le in G2.
    rewrite app_length, skipn_length, firstn_length_le by exact G2. lia.
  - destruct wb as [[|]|]; try discriminate. injection E as <-. cbn [rest wbuf net rbuf rphase failed length]. lia.
  - destruct (_ && _ && _ && _) eqn:G in E; [|discriminate]. injection E as <-. cbn [rest wbuf net rbuf rphase failed].
    apply andb_prop in G as [G _]. apply andb_prop in G as [G G3]. apply andb_prop in G as [G1 G2]. apply Nat.ltb_lt in G1. apply Nat.leb_le in G2, G3.
    rewrite app_length, skipn_length, firstn_length_le by exact G2. lia.
  - destruct (_ && _) eqn:G in E; [|discriminate]. apply andb_prop in G as [G _]. apply Nat.eqb_eq in G.
    destruct ph as [|n]; injection E as <-; cbn [rest wbuf net rbuf rphase failed length need] in *; lia.
  - destruct ne; [|discriminate]. destruct (_ && _ && _) eqn:G in E; [|discriminate]. injection E as <-. cbn [rest wbuf net rbuf rphase failed length].
    apply andb_prop in G as [_ G]. destruct fa; [discriminate|]. lia.
Qed.

Lemma quiet_reader s : Inv s -> quiet s -> failed s = false -> net s = [] /\ (length (rbuf s) < need (rphase s))%nat.
Proof.
  intros [_ (part & R & HP & _)] Q NF. pose proof (Q ReadDone ltac:(discriminate) ltac:(discriminate)) as Q1.
  pose proof (Q (Pull 1) ltac:(discriminate) ltac:(discriminate)) as Q2. cbn [step] in Q1, Q2. rewrite NF in Q1, Q2. cbn [negb] in Q1, Q2. rewrite andb_true_r in Q1, Q2.
  assert (L : (length (rbuf s) <= need (rphase s))%nat).
  { destruct (rphase s); cbn in HP |- *; [destruct HP as [_ HP]|destruct HP as (? & _ & _ & _ & HP)]; exact HP. }
  destruct (Nat.eqb_spec (length (rbuf s)) (need (rphase s))) as [X|X]. { destruct (rphase s); discriminate. }
  assert (length (rbuf s) < need (rphase s))%nat as L' by lia. split; [|exact L'].
  destruct (net s) as [|x ne]; [reflexivity|]. exfalso. cbn [length] in Q2.
  replace (1 <=? S (length ne))%nat with true in Q2 by (symmetry; apply Nat.leb_le; lia).
  replace (length (rbuf s) + 1 <=? need (rphase s))%nat with true in Q2 by (symmetry; apply Nat.leb_le; lia). cbn in Q2. discriminate.
Qed.

Lemma quiet_all s : Inv s -> quiet s -> failed s = false -> closed s = false -> delivered s = written s.
Proof.
  intros I Q NF NC. destruct (quiet_reader s I Q NF) as [Hn Hlt]. destruct I as [F (part & R & HP & HW & HF & HU)].
  assert (W : wbuf s = None).
  { pose proof (Q WriteDone ltac:(discriminate) ltac:(discriminate)) as Q1. pose proof (Q (Push 1) ltac:(discriminate) ltac:(discriminate)) as Q2.
    cbn in Q1, Q2. rewrite NC in Q2. destruct (wbuf s) as [[|x b]|]; [discriminate| |reflexivity]. cbn in Q2. discriminate. }
  rewrite Hn, W in HF. cbn in HF. rewrite app_nil_r in HF. rewrite HW. destruct R as [|m R']; [rewrite app_nil_r; reflexivity|]. exfalso.
  assert (FR : Forall small (m :: R')) by (rewrite HW in F; apply Forall_app in F; apply F).
  pose proof (no_more _ _ _ _ FR HP Hlt [] ltac:(rewrite app_nil_r; exact HF) m R' eq_refl) as L.
  rewrite <- HF, frames_cons, app_length in L. lia.
Qed.

Lemma failed_closed ls : forall s s', exec s ls = Some s' -> (failed s = true -> net s = [] /\ (length (rbuf s) < need (rphase s))%nat /\ closed s = true) ->
  (failed s' = true -> net s' = [] /\ (length (rbuf s') < need (rphase s'))%nat /\ closed s' = true).
Proof.
  induction ls as [|l ls IH]; intros s s' E H; cbn in E; [injection E as <-; exact H|].
  destruct (step s l) as [s1|] eqn:E1; [|discriminate]. apply (IH s1 s' E). clear IH E.
  destruct s as [wr wb pu ne cl ph rb de fa]. destruct l; cbn in E1, H.
  - destruct wb; [discriminate|]. injection E1 as <-. exact H.
  - destruct wb as [b|]; [|discriminate]. destruct (_ && _ && _) eqn:G in E1; [|discriminate]. injection E1 as <-. cbn. intros X.
    apply H in X as (_ & _ & X). apply andb_prop in G as [_ G]. destruct cl; discriminate.
  - destruct wb as [[|]|]; try discriminate. injection E1 as <-. exact H.
  - destruct (_ && _ && _ && _) eqn:G in E1; [|discriminate]. injection E1 as <-. cbn. intros ->. apply andb_prop in G as [_ G]. discriminate.
  - destruct (_ && _) eqn:G in E1; [|discriminate]. apply andb_prop in G as [_ G]. destruct ph; injection E1 as <-; cbn; intros ->; discriminate.
  - injection E1 as <-. cbn. intros X. apply H in X as (A & B & _). auto.
  - destruct ne; [|discriminate]. destruct (_ && _ && _) eqn:G in E1; [|discriminate]. injection E1 as <-. cbn. intros _.
    apply andb_prop in G as [G _]. apply andb_prop in G as [G1 G2]. apply Nat.ltb_lt in G2. auto.
Qed.
