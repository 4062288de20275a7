(* Proofs about routes. *)
From Verif Require Import Base RouteModel RouteSpec.
Open Scope N_scope.

(* ---- numbers ---- *)
Lemma number_from : forall s a, fold_left (fun n c => n * 10 + (c - 48)) s a = a * 10 ^ N.of_nat (length s) + number s.
Proof.
  unfold number. induction s as [|c s IH]; intros a; cbn [fold_left length]; [change (10 ^ N.of_nat 0) with 1; lia|].
  rewrite IH, (IH (0 * 10 + _)). rewrite Nat2N.inj_succ, N.pow_succ_r'. lia.
Qed.

Lemma number_snoc : forall s c, number (s ++ [c]) = number s * 10 + (c - 48).
Proof. intros. unfold number. now rewrite fold_left_app. Qed.

Lemma number_cons : forall s c, number (c :: s) = (c - 48) * 10 ^ N.of_nat (length s) + number s.
Proof. intros. unfold number. cbn [fold_left]. rewrite number_from. change (0 * 10 + (c - 48)) with (0 + (c - 48)). now rewrite N.add_0_l. Qed.

Lemma digit_dec c : {digit c} + {~ digit c}.
Proof. unfold digit. destruct (48 <=? c) eqn:E1, (c <=? 57) eqn:E2; (left; lia) || (right; lia). Defined.

Lemma digit_value c : is_byte c -> (9 <? size_t (c + 2 ^ 64 - 48)) = (if digit_dec c then false else true) /\ (digit c -> size_t (c + 2 ^ 64 - 48) = c - 48).
Proof.
  unfold is_byte, size_t. intros H. assert (E : 48 <= c -> (c + 2 ^ 64 - 48) mod 2 ^ 64 = c - 48).
  { intros G. replace (c + 2 ^ 64 - 48) with ((c - 48) + 1 * 2 ^ 64) by lia. rewrite N.mod_add by lia. apply N.mod_small. lia. }
  assert (E2 : c < 48 -> (c + 2 ^ 64 - 48) mod 2 ^ 64 = c + 2 ^ 64 - 48) by (intros; apply N.mod_small; lia).
  destruct (digit_dec c) as [d|d]; unfold digit in d.
  - split; [|intros; apply E; lia]. rewrite E by lia. apply N.ltb_ge. lia.
  - split; [|intros D; exfalso; exact (d D)]. apply N.ltb_lt. destruct (N.ltb_spec c 48); [rewrite E2 by lia; lia|rewrite E by lia; lia].
Qed.

Lemma integral_from : forall p r, all_bytes p ->
  (Forall digit p -> to_integral_from (size_t r) p = size_t (fold_left (fun n c => n * 10 + (c - 48)) p r)) /\
  (~ Forall digit p -> to_integral_from (size_t r) p = 0).
Proof.
  induction p as [|c p IH]; intros r HB.
  - split; [reflexivity|]. intros H. exfalso. apply H. constructor.
  - inversion HB as [|? ? Hc HB' e1]; subst. destruct (digit_value c Hc) as [D1 D2]. cbn [to_integral_from fold_left]. rewrite D1.
    destruct (digit_dec c) as [d|d].
    + assert (E : size_t (size_t (size_t r * 10) + size_t (c + 2 ^ 64 - 48)) = size_t (r * 10 + (c - 48))).
      { rewrite (D2 d). unfold size_t. rewrite N.mul_mod_idemp_l, N.add_mod_idemp_l by lia. reflexivity. }
      rewrite E. destruct (IH (r * 10 + (c - 48)) HB') as [I1 I2]. split.
      * intros H. inversion H. auto.
      * intros H. apply I2. intros X. apply H. auto.
    + split; [intros H; inversion H; contradiction|reflexivity].
Qed.

Lemma integral_digits p : all_bytes p -> Forall digit p -> to_integral_param p = number p mod 2 ^ 64.
Proof. intros HB. exact (proj1 (integral_from p 0 HB)). Qed.
Lemma integral_other p : all_bytes p -> ~ Forall digit p -> to_integral_param p = 0.
Proof. intros HB. exact (proj2 (integral_from p 0 HB)). Qed.

Lemma dec_fuel_spec : forall f n, n < 2 ^ N.of_nat f -> number (dec_fuel f n) = n /\ Forall digit (dec_fuel f n) /\ (f <> 0%nat -> dec_fuel f n <> []).
Proof.
  induction f as [|f IH]; intros n H.
  - cbn. change (2 ^ N.of_nat 0) with 1 in H. assert (n = 0) by lia. subst. repeat split; auto.
  - cbn [dec_fuel]. rewrite Nat2N.inj_succ, N.pow_succ_r' in H. destruct (N.ltb_spec n 10) as [L|L].
    + split; [cbn; lia|]. split; [repeat constructor; unfold digit; lia|discriminate].
    + destruct (IH (n / 10)) as (I1 & I2 & I3). { apply N.div_lt_upper_bound; lia. }
      split; [|split].
      * rewrite number_snoc, I1. pose proof (N.mod_lt n 10 ltac:(lia)). pose proof (N.div_mod' n 10). lia.
      * apply Forall_app. split; auto. repeat constructor; unfold digit; pose proof (N.mod_lt n 10 ltac:(lia)); lia.
      * intros _ X. apply app_eq_nil in X as [_ X]. discriminate.
Qed.

Lemma dec_spec n : number (dec n) = n /\ Forall digit (dec n) /\ dec n <> [].
Proof.
  unfold dec. destruct (dec_fuel_spec (S (N.to_nat (N.log2 n))) n) as (A & B & C).
  - rewrite Nat2N.inj_succ, N2Nat.id. destruct (N.eq_dec n 0) as [->|]; [reflexivity|]. apply N.log2_spec. lia.
  - split; [auto|]. split; [auto|]. apply C. discriminate.
Qed.

(* ---- splitting ---- *)
Lemma find_slash_spec : forall r, ~ In 47 (firstn (find_slash r) r) /\
  (skipn (find_slash r) r = [] \/ exists t, skipn (find_slash r) r = 47 :: t).
Proof.
  induction r as [|c r [IH1 IH2]]; cbn; auto. destruct (N.eqb_spec c 47) as [->|Hc]; cbn; eauto.
  split; auto. intros [X|X]; auto.
Qed.

Lemma find_slash_app : forall x y, ~ In 47 x -> (y = [] \/ exists t, y = 47 :: t) -> find_slash (x ++ y) = length x.
Proof.
  induction x as [|c x IH]; intros y Hx Hy; cbn.
  - destruct Hy as [-> | [t ->]]; reflexivity.
  - destruct (N.eqb_spec c 47) as [->|Hc]; [exfalso; apply Hx; now left|]. rewrite IH; auto. intros X. apply Hx. now right.
Qed.

Definition piece (x : list N) : Prop := x <> [] /\ ~ In 47 x.

Lemma flat_head : forall P t, flat_map (cons 47) P ++ t = t \/ exists u, flat_map (cons 47) P ++ t = 47 :: u.
Proof. intros [|x P] t; cbn; eauto. Qed.

Lemma parse_piece x y : ~ In 47 x -> (y = [] \/ exists t, y = 47 :: t) -> parse_route_param (47 :: x ++ y) = (x, y).
Proof.
  intros Hx Hy. cbn [parse_route_param]. change (negb (47 =? 47)) with false. cbv iota. rewrite (find_slash_app x y Hx Hy).
  now rewrite firstn_app, Nat.sub_diag, firstn_all, app_nil_r, skipn_app, Nat.sub_diag, skipn_all.
Qed.

Lemma collect_pieces : forall P n, Forall piece P -> (length P <= n)%nat -> collect n (flat_map (cons 47) P) = (P, []).
Proof.
  induction P as [|x P IH]; intros n HP Hn; cbn [flat_map app].
  - destruct n; reflexivity.
  - destruct n as [|n]; [cbn in Hn; lia|]. inversion HP as [|? ? [H1 H2] HP' e1]; subst. cbn [collect].
    rewrite parse_piece; auto.
    + destruct (N.eqb_spec (N.of_nat (length x)) 0) as [E|E]; [destruct x; [congruence|cbn in E; lia]|]. rewrite IH; auto. cbn in Hn. lia.
    + destruct (flat_head P []) as [E|[u E]]; rewrite app_nil_r in E; eauto.
Qed.

Lemma collect_trailing : forall P n, Forall piece P -> (length P < n)%nat -> collect n (flat_map (cons 47) P ++ [47]) = (P, []).
Proof.
  induction P as [|x P IH]; intros n HP Hn; destruct n as [|n]; try (cbn in Hn; lia).
  - reflexivity.
  - inversion HP as [|? ? [H1 H2] HP' e1]; subst. cbn [flat_map app collect]. rewrite <- app_assoc. rewrite parse_piece; auto.
    + destruct (N.eqb_spec (N.of_nat (length x)) 0) as [E|E]; [destruct x; [congruence|cbn in E; lia]|]. rewrite IH; auto. cbn in Hn. lia.
    + destruct (flat_head P [47]) as [E|[u E]]; eauto.
Qed.

Lemma collect_inv : forall n s xs, collect n s = (xs, []) -> Forall piece xs /\ (length xs <= n)%nat /\
  (s = flat_map (cons 47) xs \/ (s = flat_map (cons 47) xs ++ [47] /\ (length xs < n)%nat)).
Proof.
  induction n as [|n IH]; intros s xs E; cbn [collect] in E.
  - injection E as <- ->. cbn. auto.
  - destruct s as [|c r].
    + cbn in E. injection E as <-. cbn. split; [auto|]. split; [lia|auto].
    + cbn [parse_route_param] in E. destruct (N.eqb_spec c 47) as [->|Hc]; cbn [negb] in E.
      * destruct (find_slash_spec r) as [F1 F2]. pose proof (firstn_skipn (find_slash r) r) as FS.
        destruct (N.eqb_spec (N.of_nat (length (firstn (find_slash r) r))) 0) as [L|L].
        -- injection E as <- Er. assert (firstn (find_slash r) r = []) as X by (destruct (firstn (find_slash r) r); [auto|cbn in L; lia]).
           rewrite X, Er in FS. subst r. cbn. split; [auto|]. split; [lia|]. right. split; [auto|lia].
        -- destruct (collect n (skipn (find_slash r) r)) as [ys v] eqn:Ec. injection E as <- ->.
           destruct (IH _ _ Ec) as (I1 & I2 & I3). split; [|split].
           ++ constructor; auto. split; auto. intros X. rewrite X in L. now apply L.
           ++ cbn. lia.
           ++ cbn [flat_map app length]. destruct I3 as [I3|[I3 I4]]; [left|right; split; [|lia]]; rewrite <- FS at 1; rewrite I3; auto.
              now rewrite <- app_assoc.
      * cbn in E. discriminate.
Qed.

(* ---- binding ---- *)
Lemma bind_param_means t p v : all_bytes p -> piece p ->
  (bind_route_param t p = (v, true) <-> code_means t p v).
Proof.
  intros HB [P1 P2]. unfold code_means.
  assert (I : forall t, t <> TString -> let z := convert t (to_integral_param p) in
     (VInt z, negb (Z.eqb z 0)) = (v, true) <-> p <> [] /\ ~ In 47 p /\ match v with VInt z => Forall digit p /\ z = convert t (number p mod 2 ^ 64) /\ z <> 0%Z | VStr _ => False end).
  { intros t' Ht z. destruct (Forall_dec digit digit_dec p) as [D|D].
    - unfold z. rewrite (integral_digits p HB D). set (z' := convert t' (number p mod 2 ^ 64)). split.
      + intros E. injection E as <- E. apply negb_true_iff, Z.eqb_neq in E. auto.
      + intros (_ & _ & H). destruct v as [s|y]; [contradiction|]. destruct H as (_ & -> & Hz). fold z' in Hz. fold z'. f_equal. now apply negb_true_iff, Z.eqb_neq.
    - unfold z. rewrite (integral_other p HB D). assert (C : convert t' 0 = 0%Z).
      { destruct t' as [| |b|b]; auto; cbn -[N.modulo Z.of_N]; rewrite N.mod_0_l by (apply N.pow_nonzero; lia); auto.
        destruct (N.ltb_spec 0 (2 ^ (b - 1))) as [|X]; auto. pose proof (N.pow_nonzero 2 (b - 1)). lia. }
      rewrite C. split; [intros E; discriminate|]. intros (_ & _ & H). destruct v; [contradiction|]. destruct H as [H _]. contradiction. }
  destruct t as [| |b|b]; [|apply I; discriminate|apply I; discriminate|apply I; discriminate].
  cbn. split.
  - intros E. injection E as <- E. auto.
  - intros (_ & _ & H). destruct v; [|contradiction]. subst. f_equal. apply N.ltb_lt. destruct p; [congruence|cbn; lia].
Qed.

Lemma bind_members_means : forall ts params extra vs, Forall (fun p => all_bytes p /\ piece p) params -> length params = length ts ->
  (bind_members ts (params ++ extra) = Some vs <->
   length vs = length ts /\ forall k t p v, nth_error ts k = Some t -> nth_error params k = Some p -> nth_error vs k = Some v -> code_means t p v).
Proof.
  induction ts as [|t ts IH]; intros params extra vs HP HL; destruct params as [|p params]; try discriminate; cbn [bind_members app].
  - split.
    + intros E. injection E as <-. split; auto. intros [|k] ? ? ? H; discriminate.
    + intros [H _]. now destruct vs.
  - injection HL as HL. inversion HP as [|? ? [Hb Hp] HP' e1]; subst. specialize (IH params extra).
    destruct (bind_route_param t p) as [v ok] eqn:Eb. split.
    + destruct ok; [|discriminate]. destruct (bind_members ts (params ++ extra)) as [us|] eqn:Em; [|discriminate]. intros E. injection E as <-.
      destruct (proj1 (IH us HP' HL) eq_refl) as [L M]. split; [cbn; lia|]. intros [|k] t' p' v'; cbn; [|apply M].
      intros E1 E2 E3. injection E1 as <-. injection E2 as <-. injection E3 as <-. now apply bind_param_means.
    + intros [L M]. destruct vs as [|u us]; [discriminate|]. pose proof (M 0%nat t p u eq_refl eq_refl eq_refl) as M0.
      apply bind_param_means in M0; auto. rewrite Eb in M0. injection M0 as -> ->.
      rewrite (proj2 (IH us HP' HL)); auto. split; [cbn in L; lia|]. intros k. exact (M (S k)).
Qed.

Lemma find_name_nth : forall m i name ts, NoDup (map fst m) -> nth_error m i = Some (name, ts) -> find_name name m = Some i.
Proof.
  induction m as [|[n t] m IH]; intros [|i] name ts HN E; try discriminate; cbn in *.
  - injection E as -> ->. now rewrite bytes_eqb_refl.
  - inversion HN as [|? ? H1 H2 e1]; subst. destruct (bytes_eqb_spec name n) as [->|Hn].
    + exfalso. apply H1. apply nth_error_In in E. now apply (in_map fst) in E.
    + now rewrite (IH i name ts).
Qed.

Lemma find_name_inv : forall m x i, find_name x m = Some i -> exists ts, nth_error m i = Some (x, ts) /\ nth i m ([], []) = (x, ts).
Proof.
  induction m as [|[n t] m IH]; intros x i E; try discriminate; cbn in E. destruct (bytes_eqb_spec x n) as [->|Hn].
  - injection E as <-. cbn. eauto.
  - destruct (find_name x m) as [j|] eqn:F; [|discriminate]. injection E as <-. apply IH. exact F.
Qed.

Lemma flat_bytes P t : all_bytes (flat_map (cons 47) P ++ t) -> Forall all_bytes P.
Proof.
  induction P as [|x P IH]; cbn; intros H; auto. inversion H as [|? ? _ H' e]; subst. rewrite <- app_assoc in H'. apply Forall_app in H' as [H1 H2]. auto.
Qed.

Lemma route_text_eq name params : route_text name params = flat_map (cons 47) (name :: params).
Proof. reflexivity. Qed.

(* from_string on a collected list of pieces *)
Lemma make_spec m x xs i vs : wf_map m -> Forall piece (x :: xs) -> Forall all_bytes (x :: xs) -> (length (x :: xs) <= 10)%nat ->
  let r := make_from_params m ((x :: xs) ++ repeat [] (10 - length (x :: xs))) (N.of_nat (length (x :: xs))) in
  r <> UB /\ (r = Ok (Route i vs) <-> exists ts, nth_error m i = Some (x, ts) /\ length xs = length ts /\ length vs = length ts /\
    forall k t p v, nth_error ts k = Some t -> nth_error xs k = Some p -> nth_error vs k = Some v -> code_means t p v).
Proof.
  intros [W1 W2] HP HB HL. cbv zeta. unfold make_from_params. cbn [app nth tl].
  inversion HP as [|? ? P1 P2 e1]; subst. inversion HB as [|? ? B1 B2 e2]; subst.
  destruct (find_name x m) as [j|] eqn:F.
  - destruct (find_name_inv m x j F) as (ts & N1 & N2). rewrite N2. cbn [snd].
    destruct (W2 x ts (nth_error_In _ _ N1)) as (W3 & W4 & W5).
    assert (L10 : length (x :: xs ++ repeat [] (10 - length (x :: xs))) = 10%nat).
    { cbn [length] in *. rewrite app_length, repeat_length. lia. }
    rewrite L10. destruct (Nat.ltb_spec 10 (S (length ts))) as [X|_]; [lia|].
    assert (EC : size_t (N.of_nat (length (x :: xs)) + 2 ^ 64 - 1) = N.of_nat (length xs)).
    { unfold size_t. cbn [length] in *. replace (N.of_nat (S (length xs)) + 2 ^ 64 - 1) with (N.of_nat (length xs) + 1 * 2 ^ 64) by lia.
      rewrite N.mod_add by lia. apply N.mod_small. lia. }
    rewrite EC. destruct (N.eqb_spec (N.of_nat (length ts)) (N.of_nat (length xs))) as [EL|EL]; cbn [negb].
    + apply Nat2N.inj in EL. assert (Hps : Forall (fun p => all_bytes p /\ piece p) xs).
      { apply Forall_forall. intros p Hp. split; [exact (proj1 (Forall_forall _ _) B2 p Hp)|exact (proj1 (Forall_forall _ _) P2 p Hp)]. }
      pose proof (bind_members_means ts xs (repeat [] (10 - length (x :: xs)))) as BM.
      destruct (bind_members ts (xs ++ repeat [] (10 - length (x :: xs)))) as [us|] eqn:Eb.
      * split; [discriminate|]. split.
        -- intros E. injection E as <- <-. exists ts. destruct (proj1 (BM us Hps (eq_sym EL)) eq_refl) as [A1 A2]. auto.
        -- intros (ts' & E1 & E2 & E3 & E4). pose proof (find_name_nth m i x ts' W1 E1) as E5. rewrite F in E5. injection E5 as ->.
           rewrite N1 in E1. injection E1 as <-. pose proof (proj2 (BM vs Hps E2) (conj E3 E4)) as E6. now injection E6 as ->.
      * split; [discriminate|]. split; [discriminate|]. intros (ts' & E1 & E2 & E3 & E4). exfalso.
        pose proof (find_name_nth m i x ts' W1 E1) as E5. rewrite F in E5. injection E5 as ->.
        rewrite N1 in E1. injection E1 as <-. discriminate (proj2 (BM vs Hps E2) (conj E3 E4)).
    + split; [discriminate|]. split; [discriminate|]. intros (ts' & E1 & E2 & _).
      pose proof (find_name_nth m i x ts' W1 E1) as E5. rewrite F in E5. injection E5 as ->. rewrite N1 in E1. injection E1 as <-. congruence.
  - split; [discriminate|]. split; [discriminate|]. intros (ts & E1 & _). rewrite (find_name_nth m i x ts W1 E1) in F. discriminate.
Qed.

Theorem from_string_spec m s : wf_map m -> all_bytes s ->
  from_string m s <> UB /\ forall i vs, from_string m s = Ok (Route i vs) <-> denotes code_means m s i vs.
Proof.
  intros HW HB. pose proof HW as [W1 W2].
  assert (NS : forall i vs, denotes code_means m s i vs -> exists r, s = 47 :: r).
  { intros i vs (name & ts & params & _ & _ & _ & _ & [(_ & [-> | [-> _]])|(_ & _ & ->)]); unfold route_text; cbn; eauto. }
  unfold from_string. destruct s as [|c r].
  { split; [discriminate|]. intros i vs. split; [discriminate|]. intros H. destruct (NS _ _ H). discriminate. }
  destruct (N.eqb_spec c 47) as [->|Hc]; cbn [negb].
  2:{ split; [discriminate|]. intros i vs. split; [discriminate|]. intros H. destruct (NS _ _ H) as [r' E]. congruence. }
  destruct (N.eqb_spec (N.of_nat (length (47 :: r))) 1) as [L1|L1].
  { destruct r; [|cbn in L1; lia]. unfold make_from_params. cbn [repeat nth].
    assert (PC : size_t (1 + 2 ^ 64 - 1) = 0) by reflexivity. rewrite PC.
    assert (K : forall i vs, denotes code_means m [47] i vs <-> nth_error m i = Some ([], []) /\ vs = []).
    { intros i vs. split.
      - intros (name & ts & params & E1 & E2 & E3 & _ & [(Hn & [E|[E _]])|(-> & -> & _)]).
        + destruct name; [congruence|]. discriminate.
        + unfold route_text in E. injection E as E. destruct name; [congruence|]. discriminate.
        + split; auto. now destruct vs.
      - intros [E1 ->]. exists [], [], []. split; [auto|]. split; [auto|]. split; [auto|]. split; [intros [|k]; discriminate|]. right. auto. }
    destruct (find_name [] m) as [j|] eqn:F.
    - destruct (find_name_inv m [] j F) as (ts & N1 & N2). rewrite N2. cbn [snd length]. destruct (W2 [] ts (nth_error_In _ _ N1)) as (_ & W4 & _).
      destruct (Nat.ltb_spec 10 (S (length ts))) as [X|_]; [lia|]. destruct ts as [|t ts].
      + cbn. split; [discriminate|]. intros i vs. rewrite K. split.
        * intros E. injection E as <- <-. auto.
        * intros [E ->]. pose proof (find_name_nth m i [] [] W1 E) as E5. rewrite F in E5. now injection E5 as ->.
      + change (N.of_nat (length (t :: ts)) =? 0) with false. cbn [negb]. split; [discriminate|]. intros i vs. rewrite K. split; [discriminate|].
        intros [E _]. pose proof (find_name_nth m i [] [] W1 E) as E5. rewrite F in E5. injection E5 as ->. congruence.
    - split; [discriminate|]. intros i vs. rewrite K. split; [discriminate|]. intros [E _]. rewrite (find_name_nth m i [] [] W1 E) in F. discriminate. }
  destruct (collect 10 (47 :: r)) as [xs view] eqn:Ec.
  assert (COMP : forall name ts params, name <> [] -> In (name, ts) m -> length params = length ts -> Forall piece params ->
    (47 :: r = route_text name params \/ (47 :: r = route_text name params ++ [47] /\ (length ts <= 8)%nat)) -> xs = name :: params /\ view = []).
  { intros name ts params Hn Hin Hl Hp E. destruct (W2 name ts Hin) as (W3 & W4 & _). rewrite route_text_eq in E.
    assert (HP : Forall piece (name :: params)) by (constructor; [split|]; auto).
    destruct E as [E|[E L8]]; rewrite E in Ec.
    - rewrite (collect_pieces _ 10 HP) in Ec by (cbn; lia). injection Ec as <- <-. auto.
    - rewrite (collect_trailing _ 10 HP) in Ec by (cbn; lia). injection Ec as <- <-. auto. }
  destruct (N.eqb_spec (N.of_nat (length view)) 0) as [V|V]; cbn [negb].
  - destruct view; [|cbn in V; lia]. destruct (collect_inv _ _ _ Ec) as (I1 & I2 & I3).
    destruct xs as [|x xs].
    { exfalso. destruct I3 as [I3|[I3 _]]; [discriminate|]. injection I3 as ->. now apply L1. }
    assert (HBx : Forall all_bytes (x :: xs)). { destruct I3 as [I3|[I3 _]]; rewrite I3 in HB; eapply flat_bytes; [rewrite app_nil_r|]; exact HB. }
    split; [exact (proj1 (make_spec m x xs 0%nat [] HW I1 HBx I2))|]. intros i vs.
    rewrite (proj2 (make_spec m x xs i vs HW I1 HBx I2)). split.
    + intros (ts & E1 & E2 & E3 & E4). exists x, ts, xs. split; [auto|]. split; [auto|]. split; [auto|]. split; [auto|]. left.
      inversion I1 as [|? ? [X1 X2] _ e]; subst. split; [auto|]. rewrite route_text_eq. destruct I3 as [I3|[I3 I4]]; auto. right. split; auto. cbn in I4. lia.
    + intros (name & ts & params & E1 & E2 & E3 & E4 & [(Hn & E)|(-> & -> & E)]).
      * assert (Hp : Forall piece params).
        { apply Forall_forall. intros p Hp. apply In_nth_error in Hp as [k Hk]. assert (k < length params)%nat as Lk by (apply nth_error_Some; congruence).
          destruct (nth_error ts k) as [t|] eqn:Et; [|apply nth_error_None in Et; lia]. destruct (nth_error vs k) as [v|] eqn:Ev; [|apply nth_error_None in Ev; lia].
          destruct (E4 k t p v Et Hk Ev) as (X1 & X2 & _). split; auto. }
        destruct (COMP name ts params Hn (nth_error_In _ _ E1) E2 Hp E) as [E5 _]. injection E5 as -> ->. eauto.
      * exfalso. injection E as ->. now apply L1.
  - split; [discriminate|]. intros i vs. split; [discriminate|]. intros (name & ts & params & E1 & E2 & E3 & E4 & [(Hn & E)|(-> & -> & E)]).
    + exfalso. assert (Hp : Forall piece params).
      { apply Forall_forall. intros p Hp. apply In_nth_error in Hp as [k Hk]. assert (k < length params)%nat as Lk by (apply nth_error_Some; congruence).
        destruct (nth_error ts k) as [t|] eqn:Et; [|apply nth_error_None in Et; lia]. destruct (nth_error vs k) as [v|] eqn:Ev; [|apply nth_error_None in Ev; lia].
        destruct (E4 k t p v Et Hk Ev) as (X1 & X2 & _). split; auto. }
      destruct (COMP name ts params Hn (nth_error_In _ _ E1) E2 Hp E) as [_ E5]. now rewrite E5 in V.
    + exfalso. injection E as ->. now apply L1.
Qed.

(* ---- in range ---- *)
Lemma convert_exact t p z : real_type t -> z = Z.of_N (number p) -> z <> 0%Z -> has_type t (VInt z) -> convert t (number p mod 2 ^ 64) = z.
Proof.
  intros Ht Ez Hz Hh. destruct t as [| |b|b]; cbn in *; [contradiction| | |].
  - assert (E1 : number p = 1) by lia. rewrite E1 in *. change (1 mod 2 ^ 64 =? 0) with false. cbv iota. lia.
  - assert (P : Z.of_N (2 ^ b) = (2 ^ Z.of_N b)%Z) by apply N2Z.inj_pow. assert (L : number p < 2 ^ b) by lia.
    assert (2 ^ b <= 2 ^ 64) by (apply N.pow_le_mono_r; lia). rewrite (N.mod_small (number p)) by lia. rewrite N.mod_small by lia. auto.
  - assert (P : Z.of_N (2 ^ (b - 1)) = (2 ^ (Z.of_N b - 1))%Z) by (rewrite N2Z.inj_pow; f_equal; lia). assert (L : number p < 2 ^ (b - 1)) by lia.
    assert (2 ^ (b - 1) <= 2 ^ b) by (apply N.pow_le_mono_r; lia). assert (2 ^ b <= 2 ^ 64) by (apply N.pow_le_mono_r; lia).
    rewrite (N.mod_small (number p)) by lia. rewrite N.mod_small by lia. destruct (N.ltb_spec (number p) (2 ^ (b - 1))); [auto|lia].
Qed.

Lemma param_code t p v : real_type t -> param_means t p v -> code_means t p v.
Proof.
  intros Ht (H1 & H2 & H3). split; [auto|]. split; [auto|]. destruct t as [| |b|b], v as [s|z]; auto; destruct H3 as (D & E & Hz & Hh);
    (split; [auto|]); (split; [|auto]); symmetry; now apply convert_exact.
Qed.

(* ---- to_string ---- *)
Definition param_text (v : mvalue) : list N := match v with VStr t => t | VInt z => std_to_string z end.

Lemma append_all : forall ms s, fold_left append_route_param ms s = s ++ flat_map (cons 47) (map param_text ms).
Proof.
  induction ms as [|v ms IH]; intros s; cbn [fold_left map flat_map]; [now rewrite app_nil_r|].
  rewrite IH. unfold append_route_param. rewrite <- !app_assoc. reflexivity.
Qed.

Lemma to_string_text m i name ts ms : nth_error m i = Some (name, ts) -> to_string m i ms = route_text name (map param_text ms).
Proof. intros E. unfold to_string. rewrite append_all. rewrite (nth_error_nth m i ([], []) E). reflexivity. Qed.

Lemma digits_no_slash s : Forall digit s -> ~ In 47 s.
Proof. intros H X. apply (proj1 (Forall_forall _ _) H) in X. unfold digit in X. lia. Qed.

Lemma int_means t z : t <> TString -> has_type t (VInt z) -> (0 < z)%Z -> param_means t (std_to_string z) (VInt z).
Proof.
  intros Ht Hh Hz. destruct (dec_spec (Z.to_N z)) as (D1 & D2 & D3). assert (E : std_to_string z = dec (Z.to_N z)) by (destruct z; try reflexivity; lia).
  rewrite E. split; [auto|]. split; [now apply digits_no_slash|]. destruct t; [congruence| | |]; (split; [auto|]); (split; [rewrite D1; lia|]); (split; [lia|auto]).
Qed.
