From Verif Require Import Base TilesModel TilesSpec.
Open Scope N_scope.

Lemma set_nth_length i x b : length (set_nth i x b) = length b.
Proof. revert i; induction b; intros [|i]; cbn; auto. Qed.

Lemma set_nth_same i x b : (i < length b)%nat -> nth_error (set_nth i x b) i = Some x.
Proof. revert i; induction b; intros [|i] H; cbn in *; try lia; auto. apply IHb. lia. Qed.

Lemma set_nth_other i j x b : i <> j -> nth_error (set_nth i x b) j = nth_error b j.
Proof. revert i j; induction b; intros [|i] [|j] H; cbn; auto; try lia. Qed.

Lemma at_ok b i : i < N.of_nat (length b) -> exists x, at_ b i = Ok x /\ nth_error b (N.to_nat i) = Some x.
Proof.
  intros H. unfold at_. destruct (nth_error b (N.to_nat i)) eqn:E; eauto. apply nth_error_None in E. lia.
Qed.

Lemma nth_error_firstn {A} (l : list A) n i : (i < n)%nat -> nth_error (firstn n l) i = nth_error l i.
Proof. revert n i; induction l; intros [|n] [|i] H; cbn; auto; try lia. apply IHl. lia. Qed.

Lemma cell_at g x y : x < width g -> y < height g -> cell g x y = nth_error (board g) (N.to_nat (y * width g + x)).
Proof.
  intros Hx Hy. unfold cell, visible. apply N.ltb_lt in Hx as Hx'. apply N.ltb_lt in Hy as Hy'. rewrite Hx', Hy'. cbn.
  apply nth_error_firstn. nia.
Qed.

Lemma cell_none g x y : ~ (x < width g /\ y < height g) -> cell g x y = None.
Proof. intros H. unfold cell. destruct (N.ltb_spec x (width g)), (N.ltb_spec y (height g)); cbn; auto. tauto. Qed.

Lemma nth_error_ext (l l' : list N) : (forall k, nth_error l k = nth_error l' k) -> l = l'.
Proof.
  revert l'. induction l as [|x l IH]; intros [|y l'] H; auto.
  - specialize (H 0%nat). discriminate.
  - specialize (H 0%nat). discriminate.
  - pose proof (H 0%nat) as H0. injection H0 as ->. f_equal. apply IH. intros k. apply (H (S k)).
Qed.

Lemma nth_error_skipn_ (l : list N) n k : nth_error (skipn n l) k = nth_error l (n + k).
Proof. revert n. induction l; intros [|n]; cbn; auto. now destruct k. Qed.

Lemma swap_ok b i j : i < N.of_nat (length b) -> j < N.of_nat (length b) -> i <> j ->
  exists b', swap b i j = Ok b' /\ length b' = length b /\
    nth_error b' (N.to_nat i) = nth_error b (N.to_nat j) /\ nth_error b' (N.to_nat j) = nth_error b (N.to_nat i) /\
    forall k, k <> N.to_nat i -> k <> N.to_nat j -> nth_error b' k = nth_error b k.
Proof.
  intros Hi Hj Hne. unfold swap.
  destruct (at_ok b i Hi) as (x & -> & Ex). destruct (at_ok b j Hj) as (y & -> & Ey). cbn.
  eexists. split; [reflexivity|]. rewrite !set_nth_length. split; [auto|].
  assert (N.to_nat i <> N.to_nat j) by lia.
  split; [|split].
  - rewrite set_nth_other by lia. rewrite set_nth_same by lia. auto.
  - rewrite set_nth_same; [auto|]. rewrite set_nth_length. lia.
  - intros k H1 H2. rewrite !set_nth_other by lia. auto.
Qed.

(* exchanging two cells of a list permutes it *)
Lemma nth_exchange_perm (l l' : list N) i j : length l' = length l -> (i < length l)%nat -> (j < length l)%nat ->
  nth_error l' i = nth_error l j -> nth_error l' j = nth_error l i ->
  (forall k, k <> i -> k <> j -> nth_error l' k = nth_error l k) -> Permutation l l'.
Proof.
  intros HL Hi Hj H1 H2 H3. apply Permutation_nth_error. split; [auto|].
  exists (fun k => if Nat.eqb k i then j else if Nat.eqb k j then i else k). split.
  - intros a b. repeat match goal with |- context [Nat.eqb ?a ?b] => destruct (Nat.eqb_spec a b) end; intros; subst; auto; try congruence; lia.
  - intros k. destruct (Nat.eqb_spec k i) as [->|Hk]; [auto|]. destruct (Nat.eqb_spec k j) as [->|Hk2]; auto.
Qed.

Lemma cond_true_ok b i : i < N.of_nat (length b) ->
  cond true (at_ b i) = Ok (match nth_error b (N.to_nat i) with Some x => x =? 0 | None => false end).
Proof. intros H. unfold cond. destruct (at_ok b i H) as (x & -> & ->). reflexivity. Qed.

Definition zero_at (b : list N) (i : N) : bool := match nth_error b (N.to_nat i) with Some x => x =? 0 | None => false end.

Lemma cond_ok c b i : (c = true -> i < N.of_nat (length b)) -> cond c (at_ b i) = Ok (c && zero_at b i).
Proof. intros H. destruct c; [|reflexivity]. rewrite cond_true_ok; auto. Qed.

(* the result of the search: i itself, or the first empty neighbour *)
Lemma swap_index_spec g i : wf g -> i < width g * height g ->
  (i <> corner g \/ (zero_at (board g) i = true) \/
     (1 < width g /\ zero_at (board g) (i + 1) = true) \/ (1 < height g /\ zero_at (board g) (i - width g) = true)) ->
  let w := width g in
  let L := negb (i mod w =? 0) && zero_at (board g) (i - 1) in
  let R := negb (i mod w =? w - 1) && zero_at (board g) (i + 1) in
  let A := (w <=? i) && zero_at (board g) (i - w) in
  let B := (i + w <? height g * w) && zero_at (board g) (i + w) in
  get_tile_swap_index g i =
    Ok (if zero_at (board g) i then i else if L then i - 1 else if R then i + 1 else if A then i - w
        else if B then i + w else i).
Proof.
  intros (Hw & Hh & Hs & Hl) Hi Hc. cbv zeta. unfold get_tile_swap_index.
  assert (Hlb : N.of_nat (length (board g)) = 64) by (rewrite Hl; reflexivity).
  destruct (N.eqb_spec (width g) 0) as [|_]; [lia|].
  rewrite cond_ok by (rewrite Hlb; intros; lia). cbn [bind andb].
  destruct (zero_at (board g) i) eqn:E0; [reflexivity|].
  rewrite cond_ok by (rewrite Hlb; intros; lia). cbn [bind].
  destruct (negb (i mod width g =? 0) && zero_at (board g) (i - 1)) eqn:E1.
  { unfold to_index. rewrite N.mod_small by lia. reflexivity. }
  rewrite cond_ok.
  2: { rewrite Hlb. intros H. apply negb_true_iff, N.eqb_neq in H.
       assert (i + 1 < width g * height g); [|lia].
       destruct (N.eq_dec (i + 1) (width g * height g)) as [E|]; [|lia]. exfalso. apply H.
       replace i with (width g * (height g - 1) + (width g - 1)) by nia.
       rewrite N.mul_comm, N.add_comm, N.mod_add by lia. apply N.mod_small. lia. }
  cbn [bind].
  destruct (negb (i mod width g =? width g - 1) && zero_at (board g) (i + 1)) eqn:E2.
  { unfold to_index. rewrite N.mod_small; [reflexivity|]. lia. }
  rewrite cond_ok by (rewrite Hlb; intros; lia). cbn [bind].
  destruct ((width g <=? i) && zero_at (board g) (i - width g)) eqn:E3.
  { unfold to_index. rewrite N.mod_small by lia. reflexivity. }
  assert (Hcor : i <> corner g).
  { intros Hcor. destruct Hc as [H|[H|[[H0 H]|[H0 H]]]]; [congruence|congruence| |].
    - rewrite H, andb_true_r in E2. apply negb_false_iff, N.eqb_eq in E2. unfold corner in Hcor. subst i.
      rewrite N.mul_comm, N.mod_mul in E2 by lia. lia.
    - rewrite H, andb_true_r in E3. apply N.leb_gt in E3. unfold corner in Hcor. subst i. nia. }
  assert (Heq : (i + width g <=? height g * width g) = (i + width g <? height g * width g)).
  { unfold corner in Hcor. destruct (N.leb_spec (i + width g) (height g * width g)), (N.ltb_spec (i + width g) (height g * width g)); auto; nia. }
  rewrite Heq.
  rewrite cond_ok by (rewrite Hlb; intros H; apply N.ltb_lt in H; lia). cbn [bind].
  destruct ((i + width g <? height g * width g) && zero_at (board g) (i + width g)) eqn:E4; [|reflexivity].
  apply andb_true_iff in E4 as [E4 _]. apply N.ltb_lt in E4. unfold to_index. rewrite N.mod_small by lia. reflexivity.
Qed.

Lemma coords w i : 0 < w -> i = (i / w) * w + i mod w /\ i mod w < w.
Proof. intros H. split; [rewrite N.mul_comm; apply N.div_mod; lia|apply N.mod_lt; lia]. Qed.
Lemma coords_unique w x y : x < w -> (y * w + x) mod w = x /\ (y * w + x) / w = y.
Proof.
  intros H. split.
  - rewrite N.add_comm, N.mod_add by lia. now apply N.mod_small.
  - rewrite N.div_add_l by lia. rewrite N.div_small by auto. lia.
Qed.

Lemma zero_cell g x y : x < width g -> y < height g -> zero_at (board g) (y * width g + x) = true <-> cell g x y = Some 0.
Proof.
  intros Hx Hy. rewrite cell_at by auto. unfold zero_at. destruct (nth_error _ _) as [v|].
  - rewrite N.eqb_eq. split; congruence.
  - split; discriminate.
Qed.

(* the swap itself on coordinates *)
Lemma swap_exchanged g x y x' y' b : wf g -> x < width g -> y < height g -> x' < width g -> y' < height g ->
  (x, y) <> (x', y') -> swap (board g) (y * width g + x) (y' * width g + x') = Ok b ->
  let g' := {| width := width g; height := height g; board := b |} in
  wf g' /\ exchanged g g' x y x' y' /\ Permutation (visible g) (visible g') /\ skipn (N.to_nat (width g * height g)) b = skipn (N.to_nat (width g * height g)) (board g).
Proof.
  intros (Hw & Hh & Hs & Hl) Hx Hy Hx' Hy' Hne E. cbv zeta.
  set (i := y * width g + x) in *. set (j := y' * width g + x') in *.
  assert (Hi : i < width g * height g) by (unfold i; nia).
  assert (Hj : j < width g * height g) by (unfold j; nia).
  assert (Hij : i <> j).
  { intros Hij. apply Hne. destruct (coords_unique (width g) x y Hx) as [A1 A2]. destruct (coords_unique (width g) x' y' Hx') as [B1 B2].
    fold i in A1, A2. fold j in B1, B2. rewrite Hij in A1, A2. congruence. }
  destruct (swap_ok (board g) i j) as (b' & E' & L & S1 & S2 & S3); try lia.
  rewrite E' in E. injection E as <-.
  set (g' := {| width := width g; height := height g; board := b' |}).
  assert (Hc : forall u v, u < width g -> v < height g -> cell g' u v = nth_error b' (N.to_nat (v * width g + u))).
  { intros u v Hu Hv. apply (cell_at g'); auto. }
  split; [|split; [|split]].
  - unfold wf. cbn. rewrite L. auto.
  - split; [auto|]. split; [auto|]. split; [|split].
    + rewrite Hc, cell_at by auto. exact S1.
    + rewrite Hc, cell_at by auto. exact S2.
    + intros u v N1 N2. destruct (N.lt_ge_cases u (width g)) as [Hu|Hu]; [|rewrite !cell_none; auto; cbn; lia].
      destruct (N.lt_ge_cases v (height g)) as [Hv|Hv]; [|rewrite !cell_none; auto; cbn; lia].
      rewrite Hc, cell_at by auto. apply S3.
      * intros H. apply N1. destruct (coords_unique (width g) x y Hx) as [A1 A2]. destruct (coords_unique (width g) u v Hu) as [B1 B2].
        fold i in A1, A2. assert (v * width g + u = i) as Hx0 by lia. rewrite Hx0 in *. congruence.
      * intros H. apply N2. destruct (coords_unique (width g) x' y' Hx') as [A1 A2]. destruct (coords_unique (width g) u v Hu) as [B1 B2].
        fold j in A1, A2. assert (v * width g + u = j) as Hx0 by lia. rewrite Hx0 in *. congruence.
  - unfold visible. cbn [width height board g'].
    apply nth_exchange_perm with (i := N.to_nat i) (j := N.to_nat j); rewrite ?firstn_length, ?L; try lia; rewrite ?nth_error_firstn by lia; auto.
    intros k K1 K2. destruct (lt_dec k (N.to_nat (width g * height g))).
    + rewrite !nth_error_firstn by auto. auto.
    + rewrite !(proj2 (nth_error_None _ _)); auto; rewrite firstn_length; lia.
  - apply nth_error_ext. intros k. rewrite !nth_error_skipn_. apply S3; lia.
Qed.

Definition safe_move (g : game) (i : N) : Prop :=
  i <> corner g \/ cell g 0 (height g - 1) = Some 0 \/ cell g 1 (height g - 1) = Some 0
  \/ (1 < height g /\ cell g 0 (height g - 2) = Some 0).

Lemma move_ok g x y : wf g -> x < width g -> y < height g -> safe_move g (y * width g + x) ->
  exists g' b, apply_game_move g (y * width g + x) = Ok (g', b) /\
  (b = true -> wf g' /\ Permutation (visible g) (visible g') /\ exists x' y', x' < width g /\ y' < height g /\ adjacent x y x' y' /\ cell g x' y' = Some 0 /\ cell g x y <> Some 0 /\ exchanged g g' x y x' y') /\
  (b = false -> g' = g /\ (cell g x y = Some 0 \/ forall x' y', adjacent x y x' y' -> cell g x' y' <> Some 0)).
Proof.
  intros Hwf Hx Hy Hs. pose proof Hwf as (Hw & Hh & Hsz & Hl). unfold apply_game_move.
  set (w := width g) in *. set (h := height g) in *. set (i := y * w + x).
  destruct (coords_unique w x y Hx) as [Hm Hd]. fold i in Hm, Hd.
  assert (Hi : i < w * h) by (unfold i; nia).
  destruct (N.leb_spec (w * h) i) as [|_]; [lia|].
  rewrite (swap_index_spec g i Hwf Hi).
  2: { fold w h. destruct Hs as [Hs|Hs]; [now left|]. destruct (N.eq_dec i (corner g)) as [Hc|Hc]; [|now left]. right.
       unfold corner in Hc. fold w h in Hc. assert (Ex : x = 0).
       { rewrite Hc in Hm. rewrite N.mul_comm, N.mod_mul in Hm by lia. auto. }
       assert (Ey : y = h - 1). { unfold i in Hc. rewrite Ex in Hc. nia. }
       destruct Hs as [Hs|[Hs|[Hh1 Hs]]].
       - left. replace i with ((h - 1) * w + 0) by (unfold i; rewrite Ex, Ey; auto). apply zero_cell; auto; fold w h; lia.
       - right. left. destruct (N.lt_ge_cases 1 w) as [H1|H1].
         + split; auto. replace (i + 1) with ((h - 1) * w + 1) by (unfold i; rewrite Ex, Ey; lia). apply zero_cell; auto; fold w h; lia.
         + rewrite cell_none in Hs; [discriminate|]. fold w. lia.
       - right. right. split; auto. replace (i - w) with ((h - 2) * w + 0) by (unfold i; rewrite Ex, Ey; nia). apply zero_cell; auto; fold w h; lia. }
  fold w h. cbn [bind]. rewrite Hm.
  assert (HL : negb (x =? 0) && zero_at (board g) (i - 1) = true <-> 0 < x /\ cell g (x - 1) y = Some 0).
  { destruct (N.eqb_spec x 0); cbn; [split; [discriminate|lia]|].
    replace (i - 1) with (y * w + (x - 1)) by (unfold i; lia). pose proof (zero_cell g (x - 1) y) as Z. fold w h in Z. rewrite Z by lia. split; [|tauto]. intros; split; auto; lia. }
  assert (HR : negb (x =? w - 1) && zero_at (board g) (i + 1) = true <-> x + 1 < w /\ cell g (x + 1) y = Some 0).
  { destruct (N.eqb_spec x (w - 1)); cbn; [split; [discriminate|lia]|].
    replace (i + 1) with (y * w + (x + 1)) by (unfold i; lia). pose proof (zero_cell g (x + 1) y) as Z. fold w h in Z. rewrite Z by lia. split; [|tauto]. intros; split; auto; lia. }
  assert (HA : (w <=? i) && zero_at (board g) (i - w) = true <-> 0 < y /\ cell g x (y - 1) = Some 0).
  { destruct (N.leb_spec w i) as [H|H]; cbn.
    - assert (0 < y) by (unfold i in H; nia). replace (i - w) with ((y - 1) * w + x) by (unfold i; nia). pose proof (zero_cell g x (y - 1)) as Z. fold w h in Z. rewrite Z by lia. tauto.
    - split; [discriminate|]. intros [H0 _]. unfold i in H. nia. }
  assert (HB : (i + w <? h * w) && zero_at (board g) (i + w) = true <-> y + 1 < h /\ cell g x (y + 1) = Some 0).
  { destruct (N.ltb_spec (i + w) (h * w)) as [H|H]; cbn.
    - assert (y + 1 < h) by (unfold i in H; nia). replace (i + w) with ((y + 1) * w + x) by (unfold i; nia). pose proof (zero_cell g x (y + 1)) as Z. fold w h in Z. rewrite Z by lia. tauto.
    - split; [discriminate|]. intros [H0 _]. unfold i in H. nia. }
  pose proof (zero_cell g x y Hx Hy) as H0. fold w i in H0.
  destruct (zero_at (board g) i) eqn:E0.
  { rewrite N.eqb_refl. exists g, false. split; [auto|]. split; [discriminate|]. intros _. split; auto. left. now apply H0. }
  assert (Hnz : cell g x y <> Some 0) by (intros H; apply H0 in H; discriminate).
  assert (Hsw : forall x' y', x' < w -> y' < h -> adjacent x y x' y' -> cell g x' y' = Some 0 -> 
    exists g' b, (if y' * w + x' =? i then Ok (g, false)
      else bind (swap (board g) i (y' * w + x')) (fun b0 => Ok ({| width := w; height := h; board := b0 |}, true))) = Ok (g', b) /\
    (b = true -> wf g' /\ Permutation (visible g) (visible g') /\ exists x' y', x' < w /\ y' < h /\ adjacent x y x' y' /\ cell g x' y' = Some 0 /\ cell g x y <> Some 0 /\ exchanged g g' x y x' y') /\
    (b = false -> g' = g /\ (cell g x y = Some 0 \/ forall x' y', adjacent x y x' y' -> cell g x' y' <> Some 0))).
  { intros x' y' Hx' Hy' Hadj Hz.
    assert (Hne : (x, y) <> (x', y')) by (intros H; injection H as -> ->; congruence).
    assert (Hni : y' * w + x' <> i).
    { intros H. apply Hne. destruct (coords_unique w x' y' Hx') as [B1 B2]. rewrite H in *. congruence. }
    destruct (N.eqb_spec (y' * w + x') i) as [|_]; [contradiction|].
    assert (Hj : y' * w + x' < w * h) by nia.
    destruct (swap_ok (board g) i (y' * w + x')) as (b & Eb & _); try (rewrite Hl); try lia.
    rewrite Eb. cbn [bind]. eexists _, _. split; [reflexivity|]. split; [|discriminate]. intros _.
    destruct (swap_exchanged g x y x' y' b) as (A & B & C & _); auto.
    split; [exact A|]. split; [exact C|]. exists x', y'. auto 10. }
  destruct (negb (x =? 0) && zero_at (board g) (i - 1)) eqn:E1.
  { destruct (proj1 HL eq_refl) as [P1 P2]. replace (i - 1) with (y * w + (x - 1)) by (unfold i; lia).
    apply Hsw; auto; [lia|]. left. split; auto. right. lia. }
  destruct (negb (x =? w - 1) && zero_at (board g) (i + 1)) eqn:E2.
  { destruct (proj1 HR eq_refl) as [P1 P2]. replace (i + 1) with (y * w + (x + 1)) by (unfold i; lia).
    apply Hsw; auto. left. split; auto. }
  destruct ((w <=? i) && zero_at (board g) (i - w)) eqn:E3.
  { destruct (proj1 HA eq_refl) as [P1 P2]. replace (i - w) with ((y - 1) * w + x) by (unfold i; nia).
    apply Hsw; auto; [lia|]. right. split; auto. right. lia. }
  destruct ((i + w <? h * w) && zero_at (board g) (i + w)) eqn:E4.
  { destruct (proj1 HB eq_refl) as [P1 P2]. replace (i + w) with ((y + 1) * w + x) by (unfold i; nia).
    apply Hsw; auto. right. split; auto. }
  rewrite N.eqb_refl. exists g, false. split; [auto|]. split; [discriminate|]. intros _. split; auto. right.
  intros x' y' [[<- [->|He]]|[<- [->|He]]] Hz.
  - assert (H : x + 1 < w). { destruct (N.lt_ge_cases (x + 1) w); auto. rewrite cell_none in Hz; [discriminate|]. fold w; lia. }
    discriminate (proj2 HR (conj H Hz)).
  - replace (x - 1) with x' in HL by lia. assert (H : 0 < x) by lia. discriminate (proj2 HL (conj H Hz)).
  - assert (H : y + 1 < h). { destruct (N.lt_ge_cases (y + 1) h); auto. rewrite cell_none in Hz; [discriminate|]. fold h; lia. }
    discriminate (proj2 HB (conj H Hz)).
  - replace (y - 1) with y' in HA by lia. assert (H : 0 < y) by lia. discriminate (proj2 HA (conj H Hz)).
Qed.
