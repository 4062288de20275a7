(* C49 *)
From Verif Require Import Base TilesModel TilesSpec TilesProofs.
Open Scope N_scope.

(* every accepted move exchanges the tile with an orthogonally adjacent empty cell and conserves the tiles *)
Definition C49_statement : Prop := forall g x y, wf g -> x < width g -> y < height g ->
  exists g' b, apply_game_move g (y * width g + x) = Ok (g', b) /\
  (b = true -> wf g' /\ Permutation (visible g) (visible g') /\
     exists x' y', x' < width g /\ y' < height g /\ adjacent x y x' y' /\ cell g x' y' = Some 0 /\ cell g x y <> Some 0 /\
                   exchanged g g' x y x' y') /\
  (b = false -> g' = g /\ (cell g x y = Some 0 \/ forall x' y', adjacent x y x' y' -> cell g x' y' <> Some 0)).

(* false: already in the initial game, moving the lower left tile exchanges it with a cell below the board *)
Theorem C49_tiles_refuted : ~ C49_statement.
Proof.
  intros H. destruct (H initial_game 0 2) as (g' & b & E & Ht & _).
  - vm_compute; repeat split; auto; discriminate.
  - reflexivity.
  - reflexivity.
  - vm_compute in E. injection E as <- <-. destruct (Ht eq_refl) as (_ & Hp & _).
    vm_compute in Hp. apply Permutation_in with (x := 2) in Hp; [|cbn; auto 20]. cbn in Hp. intuition discriminate.
Qed.
Print Assumptions C49_tiles_refuted.

(* and on an 8 by 8 board the same move reads outside the array *)
Example C49_out_of_bounds : apply_game_move {| width := 8; height := 8; board := repeat 1 64 |} 56 = UB.
Proof. reflexivity. Qed.

(* everywhere but in the lower left corner, and there too when that tile has an empty neighbour (or is empty), it holds *)
Theorem C49_tiles_partial : forall g x y, wf g -> x < width g -> y < height g ->
  ((x, y) <> (0, height g - 1) \/ cell g x y = Some 0 \/ exists x' y', adjacent x y x' y' /\ cell g x' y' = Some 0) ->
  exists g' b, apply_game_move g (y * width g + x) = Ok (g', b) /\
  (b = true -> wf g' /\ Permutation (visible g) (visible g') /\
     exists x' y', x' < width g /\ y' < height g /\ adjacent x y x' y' /\ cell g x' y' = Some 0 /\ cell g x y <> Some 0 /\
                   exchanged g g' x y x' y') /\
  (b = false -> g' = g /\ (cell g x y = Some 0 \/ forall x' y', adjacent x y x' y' -> cell g x' y' <> Some 0)).
Proof.
  intros g x y Hwf Hx Hy Hs. apply move_ok; auto. unfold safe_move.
  destruct (N.eq_dec (y * width g + x) (corner g)) as [Hc|Hc]; [|auto]. right.
  assert (Ex : x = 0 /\ y = height g - 1).
  { destruct (coords_unique (width g) x y Hx) as [A B]. unfold corner in Hc. destruct Hwf as (Hw & _).
    destruct (coords_unique (width g) 0 (height g - 1) Hw) as [C D]. replace ((height g - 1) * width g + 0) with (y * width g + x) in * by lia.
    split; congruence. }
  destruct Ex as [-> ->]. destruct Hs as [Hs|[Hs|(x' & y' & Ha & Hz)]]; [congruence|auto|].
  destruct Ha as [[<- [->|Ha]]|[<- [->|Ha]]].
  - auto.
  - lia.
  - rewrite cell_none in Hz; [discriminate|lia].
  - right. right. split; [lia|]. now replace (height g - 2) with y' by lia.
Qed.
Print Assumptions C49_tiles_partial.

(* and this is what happens in the remaining case: a tile in the lower left corner with no empty cell beside it.  On a board of 64 cells
   memory behind it is read; on a smaller one the tile is exchanged with the byte behind the board if that is 0 *)
Theorem C49_corner : forall g, wf g -> cell g 0 (height g - 1) <> Some 0 ->
  (forall x' y', adjacent 0 (height g - 1) x' y' -> cell g x' y' <> Some 0) ->
  (width g * height g = 64 -> apply_game_move g (corner g) = UB) /\
  (width g * height g < 64 ->
     (nth_error (board g) (N.to_nat (width g * height g)) <> Some 0 -> apply_game_move g (corner g) = Ok (g, false)) /\
     (nth_error (board g) (N.to_nat (width g * height g)) = Some 0 ->
      exists g', apply_game_move g (corner g) = Ok (g', true) /\ wf g' /\ width g' = width g /\ height g' = height g /\
        cell g' 0 (height g - 1) = Some 0 /\ (forall x y, (x, y) <> (0, height g - 1) -> cell g' x y = cell g x y) /\
        nth_error (board g') (N.to_nat (width g * height g)) = cell g 0 (height g - 1))).
Proof.
  intros g Hwf Hz Hn. pose proof Hwf as (Hw & Hh & Hs & Hl). set (i := corner g).
  assert (Ei : (height g - 1) * width g + 0 = i) by (unfold i, corner; lia). assert (Ew : i + width g = width g * height g) by (unfold i, corner; nia).
  assert (Hi : i < width g * height g) by lia. assert (Im : i mod width g = 0) by (unfold i, corner; rewrite N.mul_comm; apply N.mod_mul; lia).
  assert (Hlb : N.of_nat (length (board g)) = 64) by (rewrite Hl; reflexivity).
  assert (Z0 : zero_at (board g) i = false) by (apply not_true_iff_false; rewrite <- Ei, zero_cell by lia; exact Hz).
  assert (ZR : negb (i mod width g =? width g - 1) && zero_at (board g) (i + 1) = false).
  { apply not_true_iff_false. intros H. apply andb_true_iff in H as [H1 H2]. rewrite Im in H1. apply negb_true_iff, N.eqb_neq in H1.
    apply (Hn 1 (height g - 1)); [left; auto|]. apply zero_cell; [lia|lia|]. now replace ((height g - 1) * width g + 1) with (i + 1) by lia. }
  assert (ZA : (width g <=? i) && zero_at (board g) (i - width g) = false).
  { apply not_true_iff_false. intros H. apply andb_true_iff in H as [H1 H2]. apply N.leb_le in H1. assert (1 < height g) by (unfold i, corner in H1; nia).
    apply (Hn 0 (height g - 2)); [right; split; [reflexivity|right; lia]|]. apply zero_cell; [lia|lia|]. now replace ((height g - 2) * width g + 0) with (i - width g) by nia. }
  assert (E : get_tile_swap_index g i = let! c4 := cond true (at_ (board g) (i + width g)) in if c4 then Ok (to_index (i + width g)) else Ok i).
  { unfold get_tile_swap_index. destruct (N.eqb_spec (width g) 0) as [|_]; [lia|]. rewrite cond_ok by (rewrite Hlb; intros; lia). rewrite Z0. cbn [bind andb].
    rewrite cond_ok by (rewrite Hlb; intros; lia). assert (L0 : negb (i mod width g =? 0) = false) by (rewrite Im; reflexivity). rewrite L0. cbn [bind andb]. rewrite cond_ok.
    2: { rewrite Hlb. intros H. apply negb_true_iff, N.eqb_neq in H. rewrite Im in H. nia. }
    rewrite ZR. cbn [bind]. rewrite cond_ok by (rewrite Hlb; intros; lia). rewrite ZA. cbn [bind]. assert ((i + width g <=? height g * width g) = true) as -> by (apply N.leb_le; lia). reflexivity. }
  assert (Em : apply_game_move g i = let! i2 := get_tile_swap_index g i in if i2 =? i then Ok (g, false) else let! b := swap (board g) i i2 in Ok ({| width := width g; height := height g; board := b |}, true)).
  { unfold apply_game_move. destruct (N.leb_spec (width g * height g) i); [lia|reflexivity]. }
  rewrite Em, E, Ew. split.
  - intros H64. unfold cond, at_. replace (nth_error (board g) (N.to_nat (width g * height g))) with (@None N); [reflexivity|]. symmetry. apply nth_error_None. lia.
  - intros H64. rewrite cond_ok by (rewrite Hlb; intros; lia). unfold zero_at. cbn [andb bind]. split.
    + intros Hb. destruct (nth_error (board g) (N.to_nat (width g * height g))) as [v|]; [destruct (N.eqb_spec v 0) as [->|]; [congruence|]|]; cbn [bind]; now rewrite N.eqb_refl.
    + intros Hb. rewrite Hb. change (0 =? 0) with true. cbn iota. cbn [bind]. unfold to_index. rewrite N.mod_small by lia. destruct (N.eqb_spec (width g * height g) i) as [|Hne]; [lia|].
      destruct (swap_ok (board g) i (width g * height g)) as (b & Eb & L & B1 & B2 & B3); [lia|lia|lia|]. rewrite Eb. cbn [bind]. eexists. split; [reflexivity|]. cbn [width height board].
      split; [repeat split; cbn; auto; lia|]. split; [reflexivity|]. split; [reflexivity|]. rewrite !cell_at by (cbn; lia). cbn [width board]. rewrite Ei. split; [congruence|]. split; [|exact B2].
      intros x y Hxy. destruct (N.ltb_spec x (width g)) as [Hx|Hx], (N.ltb_spec y (height g)) as [Hy|Hy]; [|rewrite !cell_none by (cbn; lia); reflexivity..].
      rewrite !cell_at by (cbn; lia). cbn [width board]. apply B3; [|nia]. intros X. apply N2Nat.inj in X. apply Hxy.
      destruct (coords_unique (width g) x y Hx) as [A B]. destruct (coords_unique (width g) 0 (height g - 1) Hw) as [C D]. rewrite Ei in C, D. rewrite X in A, B. congruence.
Qed.
Print Assumptions C49_corner.
(* the move of C49_tiles_refuted: the tile 2 is replaced by an empty cell, and is behind the board *)
Example C49_corner_ex : exists g', apply_game_move initial_game 6 = Ok (g', true) /\ visible g' = [3;4;6; 8;0;1; 0;5;7] /\ nth_error (board g') 9 = Some 2.
Proof. eexists. split; [vm_compute; reflexivity|]. split; reflexivity. Qed.

(* moves whose index is outside the board are ignored *)
Theorem C49_out_of_range_ignored : forall g i, width g * height g <= i -> apply_game_move g i = Ok (g, false).
Proof. intros g i H. unfold apply_game_move. apply N.leb_le in H. now rewrite H. Qed.
Print Assumptions C49_out_of_range_ignored.

(* any history of moves that leaves the lower left tile alone conserves the tiles *)
Theorem C49_history_partial : forall ms g, wf g -> ~ In (corner g) ms ->
  exists g', run g ms = Ok g' /\ wf g' /\ Permutation (visible g) (visible g').
Proof.
  induction ms as [|m ms IH]; intros g Hwf Hn.
  - exists g. cbn. auto.
  - cbn [run]. destruct (N.lt_ge_cases m (width g * height g)) as [Hm|Hm].
    + assert (Hw : 0 < width g) by apply Hwf.
      destruct (coords (width g) m Hw) as [Em Hl].
      assert (Hd : m / width g < height g) by (apply N.div_lt_upper_bound; lia).
      destruct (move_ok g (m mod width g) (m / width g)) as (g1 & b & E & Ht & Hf); auto.
      { left. rewrite <- Em. intros H. apply Hn. now left. }
      rewrite <- Em in E. rewrite E. cbn [bind fst].
      destruct b.
      * destruct (Ht eq_refl) as (Hw1 & Hp & x' & y' & _ & _ & _ & _ & _ & (E1 & E2 & _)).
        destruct (IH g1 Hw1) as (g' & A & B & C).
        { unfold corner. rewrite E1, E2. intros H. apply Hn. now right. }
        exists g'. split; [auto|]. split; [auto|]. eapply Permutation_trans; eauto.
      * destruct (Hf eq_refl) as [-> _]. apply IH; auto. intros H. apply Hn. now right.
    + rewrite C49_out_of_range_ignored by auto. cbn [bind fst]. apply IH; auto. intros H. apply Hn. now right.
Qed.
Print Assumptions C49_history_partial.

(* the game that is played: as long as nobody moves the lower left tile every tile is on the board exactly once *)
Theorem C49_game_partial : forall ms, ~ In 6 ms -> exists g', run initial_game ms = Ok g' /\ width g' = 3 /\ height g' = 3 /\ Permutation (visible g') [0; 1; 2; 3; 4; 5; 6; 7; 8].
Proof.
  intros ms H. assert (W : wf initial_game) by (vm_compute; repeat split; auto; discriminate).
  assert (S : forall ms g g', run g ms = Ok g' -> width g' = width g /\ height g' = height g).
  { clear. induction ms as [|m ms IH]; intros g g' E; cbn [run] in E; [injection E as <-; auto|].
    unfold apply_game_move in E. destruct (width g * height g <=? m); [cbn in E; now apply IH|]. destruct (get_tile_swap_index g m) as [i|]; [|discriminate E]. cbn [bind] in E.
    destruct (i =? m); [cbn in E; now apply IH|]. destruct (swap (board g) m i) as [b|]; [|discriminate E]. cbn [bind fst] in E. now apply IH in E. }
  destruct (C49_history_partial ms initial_game W) as (g' & E & _ & P); [exact H|]. exists g'. split; [exact E|]. destruct (S _ _ _ E) as [E1 E2]. split; [exact E1|]. split; [exact E2|].
  eapply Permutation_trans; [apply Permutation_sym; exact P|]. change (visible initial_game) with [3; 4; 6; 8; 0; 1; 2; 5; 7].
  symmetry. apply (Permutation_cons_app [3; 4; 6; 8] [1; 2; 5; 7] 0). apply (Permutation_cons_app [3; 4; 6; 8] [2; 5; 7] 1). apply (Permutation_cons_app [3; 4; 6; 8] [5; 7] 2).
  do 2 apply perm_skip. apply (Permutation_cons_app [6; 8] [7] 5). apply perm_skip. apply perm_swap.
Qed.
Print Assumptions C49_game_partial.

(* and a tile in the lower left corner that is moved when there is no empty cell beside it is lost, whenever that is for the first time *)
Theorem C49_lost : forall ms g, ~ In 6 ms -> run initial_game ms = Ok g -> cell g 0 2 <> Some 0 -> cell g 0 1 <> Some 0 -> cell g 1 2 <> Some 0 ->
  exists g', apply_game_move g 6 = Ok (g', true) /\ cell g' 0 2 = Some 0 /\ forall x y, (x, y) <> (0, 2) -> cell g' x y = cell g x y.
Proof.
  intros ms g Hn E Z1 Z2 Z3.
  assert (K : forall ms g g', width g = 3 -> height g = 3 -> length (board g) = 64%nat -> nth_error (board g) 9 = Some 0 -> ~ In 6 ms -> run g ms = Ok g' -> width g' = 3 /\ height g' = 3 /\ nth_error (board g') 9 = Some 0).
  { clear. induction ms as [|m ms IH]; intros g g' W H Lb B Hn E; cbn [run] in E; [injection E as <-; auto|].
    assert (Hm : m <> 6) by (intros ->; apply Hn; now left). assert (Hn' : ~ In 6 ms) by (intros I; apply Hn; now right).
    unfold apply_game_move in E. destruct (N.leb_spec (width g * height g) m) as [|Hl]; [cbn in E; now apply (IH g)|].
    destruct (get_tile_swap_index g m) as [i|] eqn:Ei; [|discriminate E]. cbn [bind] in E.
    destruct (N.eqb_spec i m) as [->|Hi]; [cbn in E; now apply (IH g)|]. destruct (swap (board g) m i) as [b|] eqn:Eb; [|discriminate E]. cbn [bind fst] in E. rewrite W, H in Hl.
    assert (Hi9 : i <> 9).
    { assert (Wf : wf g) by (unfold wf; rewrite W, H; repeat split; auto; lia).
      assert (P := swap_index_spec g m Wf ltac:(rewrite W, H; exact Hl) ltac:(left; unfold corner; rewrite W, H; exact Hm)). cbv zeta in P. rewrite W, H in P. rewrite P in Ei. injection Ei as Ei. clear P.
      intros ->. assert (m = 0 \/ m = 1 \/ m = 2 \/ m = 3 \/ m = 4 \/ m = 5 \/ m = 7 \/ m = 8) as C by lia.
      repeat match type of Ei with context [zero_at ?b ?n] => destruct (zero_at b n) end; repeat (destruct C as [C|C]); rewrite C in Ei; vm_compute in Ei; discriminate Ei. }
    unfold swap in Eb. destruct (at_ (board g) m); [|discriminate Eb]. cbn [bind] in Eb. destruct (at_ (board g) i); [|discriminate Eb]. cbn [bind] in Eb. injection Eb as <-.
    apply IH in E; cbn [width height board]; auto; [rewrite !set_nth_length; exact Lb|]. rewrite !set_nth_other by lia. exact B. }
  destruct (K ms initial_game g eq_refl eq_refl eq_refl eq_refl Hn E) as (W & H & B).
  destruct (C49_history_partial ms initial_game ltac:(vm_compute; repeat split; auto; discriminate) Hn) as (g0 & E0 & Wf & _). rewrite E in E0. injection E0 as <-.
  destruct (C49_corner g Wf) as (_ & C).
  - rewrite H. exact Z1.
  - rewrite H. intros x' y' [[A D]|[A D]].
    + change (3 - 1) with 2 in *. subst y'. destruct D as [D|D]; [|lia]. subst x'. exact Z3.
    + change (3 - 1) with 2 in *. subst x'. destruct D as [D|D]; [|assert (y' = 1) by lia; subst y'; exact Z2]. subst y'. unfold cell. rewrite W, H. discriminate.
  - rewrite W, H in C. destruct (C eq_refl) as (_ & C'). destruct (C' B) as (g' & A & _ & _ & _ & D & F & _). exists g'. unfold corner in A. rewrite W, H in A. auto.
Qed.
Print Assumptions C49_lost.

Example C49_ex : exists g', run initial_game [1; 0; 3; 200; 4] = Ok g' /\ visible g' = [8;3;6; 4;0;1; 2;5;7]
  /\ wf initial_game /\ ~ In (corner initial_game) [1; 0; 3; 200; 4].
Proof. eexists. split; [vm_compute; reflexivity|]. split; [reflexivity|]. split; [vm_compute; repeat split; auto; discriminate|]. vm_compute. intuition discriminate. Qed.

Example C49_lost_tile : exists g', run initial_game [6] = Ok g' /\ visible g' = [3;4;6; 8;0;1; 0;5;7].
Proof. eexists. split; vm_compute; reflexivity. Qed.
