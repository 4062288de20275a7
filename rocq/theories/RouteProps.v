(* C47, C48: routes and their strings. *)
From Coq Require Import String.
From Verif Require Import Base RouteModel RouteSpec RouteProofs.
Open Scope N_scope.

(* C48: exactly the strings that denote a route are accepted, every other string is not found, and no array is overrun.
   The meaning of a number is what the code makes of it. *)
Theorem C48_accepts_exactly_partial : forall m s, wf_map m -> all_bytes s ->
  (forall i vs, from_string m s = Ok (Route i vs) <-> denotes code_means m s i vs) /\
  ((forall i vs, ~ denotes code_means m s i vs) -> from_string m s = Ok NotFound).
Proof.
  intros m s HW HB. destruct (from_string_spec m s HW HB) as [H1 H2]. split; [auto|]. intros HN.
  destruct (from_string m s) as [[|i vs]|] eqn:E; auto; try congruence. exfalso. apply (HN i vs). now apply H2.
Qed.

(* every string that denotes a route in the intended sense is accepted *)
Theorem C48_accepts_routes : forall m s i vs, wf_map m -> all_bytes s -> denotes param_means m s i vs -> from_string m s = Ok (Route i vs).
Proof.
  intros m s i vs HW HB (name & ts & params & H1 & H2 & H3 & H4 & H5). apply from_string_spec; auto.
  exists name, ts, params. split; [auto|]. split; [auto|]. split; [auto|]. split; [|auto].
  intros k t p v Ht Hp Hv. apply param_code; [|eauto]. destruct (proj2 HW name ts (nth_error_In _ _ H1)) as (_ & _ & HR).
  exact (proj1 (Forall_forall _ _) HR t (nth_error_In _ _ Ht)).
Qed.

(* and what is accepted is meant so unless a number is too large for its member *)
Definition fits (t : mtype) (n : N) : Prop :=
  match t with TString => True | TBool => n <= 1 | TUnsigned b => n < 2 ^ b | TSigned b => n < 2 ^ (b - 1) end.
Theorem C48_sound_if_fits : forall m s i vs, wf_map m -> all_bytes s -> from_string m s = Ok (Route i vs) ->
  denotes (fun t p v => fits t (number p) -> param_means t p v) m s i vs.
Proof.
  intros m s i vs HW HB E. apply from_string_spec in E; auto. destruct E as (name & ts & params & H1 & H2 & H3 & H4 & H5).
  exists name, ts, params. split; [auto|]. split; [auto|]. split; [auto|]. split; [|auto]. intros k t p v Ht Hp Hv Hf.
  destruct (proj2 HW name ts (nth_error_In _ _ H1)) as (_ & _ & HR). pose proof (proj1 (Forall_forall _ _) HR t (nth_error_In _ _ Ht)) as Hr.
  destruct (H4 k t p v Ht Hp Hv) as (M1 & M2 & M3). split; [auto|]. split; [auto|].
  destruct t as [| |b|b], v as [x|z]; auto; destruct M3 as (D & Ez & Hz); cbn [fits real_type] in *; (split; [auto|]); subst z.
  - assert (number p = 0 \/ number p = 1) as [X|X] by lia; rewrite X in *; [now exfalso; apply Hz|]. repeat split; vm_compute; (reflexivity || discriminate).
  - cbn [convert] in *. assert (2 ^ b <= 2 ^ 64) by (apply N.pow_le_mono_r; lia). rewrite (N.mod_small (number p)) in * by lia. rewrite N.mod_small in * by lia.
    split; [auto|]. split; [auto|]. cbn. assert (P : Z.of_N (2 ^ b) = (2 ^ Z.of_N b)%Z) by apply N2Z.inj_pow. lia.
  - cbn [convert] in *. assert (2 ^ (b - 1) <= 2 ^ b) by (apply N.pow_le_mono_r; lia). assert (2 ^ b <= 2 ^ 64) by (apply N.pow_le_mono_r; lia).
    rewrite (N.mod_small (number p)) in * by lia. rewrite N.mod_small in * by lia. destruct (N.ltb_spec (number p) (2 ^ (b - 1))); [|lia].
    split; [auto|]. split; [auto|]. cbn. assert (P : Z.of_N (2 ^ (b - 1)) = (2 ^ (Z.of_N b - 1))%Z) by (rewrite N2Z.inj_pow; f_equal; lia). lia.
Qed.

(* what the code makes of a number, without its conversions *)
Lemma modulo_unique (m a b k : Z) lo : (lo <= a < lo + m)%Z -> (lo <= b < lo + m)%Z -> a = (b + k * m)%Z -> a = b.
Proof. intros A B E. assert (k = 0)%Z by nia. subst k. lia. Qed.
Lemma code_modulo t p v : real_type t -> (code_means t p v <-> taken_modulo t p v).
Proof.
  intros R. unfold code_means, taken_modulo. destruct t as [| |b|b], v as [x|z]; try tauto.
  - cbn [convert]. destruct (N.eqb_spec (number p mod 2 ^ 64) 0) as [E|E].
    + split; [intros (_ & _ & _ & -> & H); now exfalso|]. intros (_ & _ & _ & _ & H). exfalso. apply H. apply N.mod_divide; [discriminate|exact E].
    + assert (~ (2 ^ 64 | number p)) by (intros D; apply E; apply N.mod_divide; [discriminate|exact D]). intuition lia.
  - cbn [real_type has_type convert] in *.
    assert (M : number p mod 2 ^ 64 mod 2 ^ b = number p mod 2 ^ b).
    { replace 64 with (b + (64 - b)) by lia. rewrite N.pow_add_r. rewrite N.mod_mul_r by (apply N.pow_nonzero; discriminate). rewrite N.mul_comm, N.mod_add by (apply N.pow_nonzero; discriminate).
      apply N.mod_mod. apply N.pow_nonzero; discriminate. }
    rewrite M. assert (P : Z.of_N (2 ^ b) = (2 ^ Z.of_N b)%Z) by apply N2Z.inj_pow.
    assert (L : number p mod 2 ^ b < 2 ^ b) by (apply N.mod_lt; apply N.pow_nonzero; discriminate).
    pose proof (N.div_mod (number p) (2 ^ b) ltac:(apply N.pow_nonzero; discriminate)) as D.
    split.
    + intros (A & B & C & -> & Z0). split; [exact A|]. split; [exact B|]. split; [exact C|]. split; [exact Z0|]. split; [lia|]. exists (Z.of_N (number p / 2 ^ b)). rewrite <- P. rewrite <- N2Z.inj_mul, <- N2Z.inj_add. f_equal. lia.
    + intros (A & B & C & Z0 & H & k & E). split; [exact A|]. split; [exact B|]. split; [exact C|]. split; [|exact Z0].
      apply (modulo_unique (2 ^ Z.of_N b) z (Z.of_N (number p mod 2 ^ b)) (Z.of_N (number p / 2 ^ b) - k) 0); [lia|lia|].
      assert (Z.of_N (number p) = 2 ^ Z.of_N b * Z.of_N (number p / 2 ^ b) + Z.of_N (number p mod 2 ^ b))%Z by (rewrite <- P, <- N2Z.inj_mul, <- N2Z.inj_add; f_equal; exact D). lia.
  - cbn [real_type has_type convert] in *.
    assert (M : number p mod 2 ^ 64 mod 2 ^ b = number p mod 2 ^ b).
    { replace 64 with (b + (64 - b)) by lia. rewrite N.pow_add_r. rewrite N.mod_mul_r by (apply N.pow_nonzero; discriminate). rewrite N.mul_comm, N.mod_add by (apply N.pow_nonzero; discriminate).
      apply N.mod_mod. apply N.pow_nonzero; discriminate. }
    rewrite M. assert (P : Z.of_N (2 ^ b) = (2 ^ Z.of_N b)%Z) by apply N2Z.inj_pow.
    assert (P1 : Z.of_N (2 ^ (b - 1)) = (2 ^ (Z.of_N b - 1))%Z) by (rewrite N2Z.inj_pow; f_equal; lia).
    assert (P2 : (2 ^ Z.of_N b = 2 * 2 ^ (Z.of_N b - 1))%Z) by (rewrite <- Z.pow_succ_r by lia; f_equal; lia).
    assert (L : number p mod 2 ^ b < 2 ^ b) by (apply N.mod_lt; apply N.pow_nonzero; discriminate).
    pose proof (N.div_mod (number p) (2 ^ b) ltac:(apply N.pow_nonzero; discriminate)) as D.
    assert (E0 : Z.of_N (number p) = (2 ^ Z.of_N b * Z.of_N (number p / 2 ^ b) + Z.of_N (number p mod 2 ^ b))%Z) by (rewrite <- P, <- N2Z.inj_mul, <- N2Z.inj_add; f_equal; exact D).
    set (c := if number p mod 2 ^ b <? 2 ^ (b - 1) then Z.of_N (number p mod 2 ^ b) else (Z.of_N (number p mod 2 ^ b) - Z.of_N (2 ^ b))%Z).
    assert (C0 : (- 2 ^ (Z.of_N b - 1) <= c < 2 ^ (Z.of_N b - 1))%Z /\ exists k, Z.of_N (number p) = (c + k * 2 ^ Z.of_N b)%Z).
    { unfold c. rewrite E0, P, P2 in *. clear M D E0. set (r := number p mod 2 ^ b) in *. set (q := Z.of_N (number p / 2 ^ b)) in *. set (h := (2 ^ (Z.of_N b - 1))%Z) in *.
      set (a := 2 ^ (b - 1)) in *. set (d := 2 ^ b) in *. clearbody r q h a d.
      destruct (N.ltb_spec r a); (split; [lia|]); [exists q|exists (q + 1)%Z]; rewrite ?Z.mul_add_distr_r, (Z.mul_comm q); lia. }
    destruct C0 as (C0 & k0 & E1). clearbody c. split.
    + intros (A & B & C & -> & Z0). split; [exact A|]. split; [exact B|]. split; [exact C|]. split; [exact Z0|]. split; [exact C0|]. now exists k0.
    + intros (A & B & C & Z0 & H & k & E). split; [exact A|]. split; [exact B|]. split; [exact C|]. split; [|exact Z0].
      clear M P P1 L D E0. rewrite P2 in E, E1. set (h := (2 ^ (Z.of_N b - 1))%Z) in *. clearbody h.
      apply (modulo_unique (2 * h) z c (k0 - k) (- h)); [lia|lia|]. rewrite Z.mul_sub_distr_r. lia.
Qed.
Theorem C48_modulo : forall m s, wf_map m -> all_bytes s -> forall i vs, from_string m s = Ok (Route i vs) <-> denotes taken_modulo m s i vs.
Proof.
  intros m s HW HB i vs. rewrite (proj1 (C48_accepts_exactly_partial m s HW HB) i vs).
  split; intros (name & ts & params & H1 & H2 & H3 & H4 & H5); exists name, ts, params; (split; [auto|]); (split; [auto|]); (split; [auto|]); (split; [|auto]);
    intros k t p v Ht Hp Hv; apply code_modulo; eauto;
    destruct (proj2 HW name ts (nth_error_In _ _ H1)) as (_ & _ & HR); exact (proj1 (Forall_forall _ _) HR t (nth_error_In _ _ Ht)).
Qed.
Print Assumptions C48_modulo.
(* 200 in a signed byte is -56, 2^40 + 7 in 32 bits is 7, 256 in a byte is 0 and not found *)
Example C48_modulo_ex : let m := [(bs "a", [TSigned 8]); (bs "b", [TUnsigned 32])] in
  from_string m (bs "/a/200") = Ok (Route 0 [VInt (-56)]) /\ from_string m (bs "/b/1099511627783") = Ok (Route 1 [VInt 7]) /\ from_string m (bs "/a/256") = Ok NotFound.
Proof. vm_compute. repeat split. Qed.

(* the routes of /repo/test/nbdl/webui/route_map.cpp:42-48 *)
Definition test_map : route_map :=
  [(bs "", []); (bs "foo", [TUnsigned 64]); (bs "bar", [TString]); (bs "baz", [TUnsigned 64; TString]); (bs "boo-moo", [])].
Lemma test_map_wf : wf_map test_map.
Proof.
  split.
  - cbn. repeat constructor; cbn; intuition discriminate.
  - intros name ts H. cbn in H. repeat (destruct H as [H|H]; [injection H as <- <-; cbn; split; [intuition discriminate|split; [lia|]];
      repeat apply Forall_cons; try apply Forall_nil; cbn; try exact I; lia|]). contradiction.
Qed.

(* a number that does not fit is not rejected: /foo/18446744073709551621 is taken for /foo/5 *)
Theorem C48_rejects_large_numbers_refuted :
  ~ (forall m s i vs, wf_map m -> all_bytes s -> from_string m s = Ok (Route i vs) -> denotes param_means m s i vs).
Proof.
  intros H. specialize (H test_map (bs "/foo/18446744073709551621") 1%nat [VInt 5] test_map_wf).
  destruct H as (name & ts & params & H1 & H2 & H3 & H4 & H5).
  - unfold all_bytes. repeat constructor.
  - vm_compute. reflexivity.
  - cbn in H1. injection H1 as <- <-. destruct params as [|p [|]]; try discriminate. specialize (H4 0%nat _ _ _ eq_refl eq_refl eq_refl) as (_ & _ & _ & E & _).
    destruct H5 as [(_ & [X|[X _]])|(X & _)]; [| |discriminate].
    + unfold route_text in X. cbn in X. rewrite app_nil_r in X. injection X as <-. vm_compute in E. discriminate.
    + apply (f_equal (@rev N)) in X. rewrite rev_app_distr in X. cbn in X. discriminate.
Qed.

(* a route with ten members makes from_string read past the array of parameters *)
Theorem C48_in_bounds_refuted : ~ (forall m s, NoDup (map fst m) -> from_string m s <> UB).
Proof.
  intros H. apply (H [(bs "foo", repeat TString 10)] (bs "/foo")); [|vm_compute; reflexivity]. repeat constructor. cbn. tauto.
Qed.

(* C47: exactly which values survive *)
Definition survives (v : mvalue) : Prop := match v with VStr s => s <> [] /\ ~ In 47 s | VInt z => (0 < z)%Z end.

Lemma nth_error_Forall2 {A B} (R : A -> B -> Prop) l1 l2 k x y : Forall2 R l1 l2 -> nth_error l1 k = Some x -> nth_error l2 k = Some y -> R x y.
Proof.
  intros H. revert k. induction H as [|a b l1 l2 Hab H IH]; intros [|k] E1 E2; try discriminate; cbn in *; [|eauto]. injection E1 as <-. injection E2 as <-. auto.
Qed.

Theorem C47_round_trip_iff : forall m i name ts vs, wf_map m -> all_bytes name -> nth_error m i = Some (name, ts) -> Forall2 has_type ts vs ->
  from_string m (to_string m i vs) = Ok (Route i vs) <-> (name <> [] \/ ts = []) /\ Forall survives vs.
Proof.
  intros m i name ts vs HW HBn E HT. rewrite (to_string_text m i name ts vs E).
  assert (HL : length vs = length ts) by (clear -HT; induction HT; cbn; congruence).
  destruct (proj2 HW name ts (nth_error_In _ _ E)) as (Wn & Wl & Wr).
  assert (DB : forall s, Forall digit s -> all_bytes s) by (intros s; apply Forall_impl; unfold digit, is_byte; lia).
  assert (HB : all_bytes (route_text name (map param_text vs))).
  { unfold route_text. constructor; [reflexivity|]. apply Forall_app. split; auto. clear -HT DB. induction HT as [|t v ts vs Hv HT IH]; cbn; [constructor|].
    constructor; [reflexivity|]. apply Forall_app. split; auto. destruct v as [s|z]; cbn; [destruct t; auto; contradiction|].
    destruct z as [|q|q]; [repeat constructor|apply DB, (dec_spec (N.pos q))|constructor; [reflexivity|apply DB, (dec_spec (N.pos q))]]. }
  split.
  - intros EF. apply from_string_spec in EF; auto. destruct EF as (name' & ts' & params & E1 & E2 & E3 & E4 & E5). rewrite E in E1. injection E1 as <- <-.
    split; [destruct E5 as [[? _]|(_ & ? & _)]; auto|].
    assert (M : forall k v, nth_error vs k = Some v -> exists t p, nth_error ts k = Some t /\ nth_error params k = Some p /\ code_means t p v /\ has_type t v).
    { intros k v Hv. assert (k < length vs)%nat as Lk by (apply nth_error_Some; congruence).
      destruct (nth_error ts k) as [t|] eqn:Et; [|apply nth_error_None in Et; lia]. destruct (nth_error params k) as [p|] eqn:Ep; [|apply nth_error_None in Ep; lia].
      exists t, p. split; [auto|]. split; [auto|]. split; [eauto|]. eapply nth_error_Forall2; eauto. }
    assert (NEG : forall z, ~ In 47 (std_to_string z) /\ std_to_string z <> []).
    { intros z. destruct z as [|q|q]; cbn.
      - split; [intros [X|X]; [discriminate|auto]|discriminate].
      - destruct (dec_spec (N.pos q)) as (_ & D2 & D3). split; auto. now apply digits_no_slash.
      - destruct (dec_spec (N.pos q)) as (_ & D2 & D3). split; [|discriminate]. intros [X|X]; [discriminate|]. revert X. now apply digits_no_slash. }
    assert (HP : Forall piece (map param_text vs)).
    { apply Forall_forall. intros x Hx. apply in_map_iff in Hx as (v & <- & Hv). apply In_nth_error in Hv as [k Hk].
      destruct (M k v Hk) as (t & p & _ & _ & (C1 & C2 & C3) & HTv). destruct v as [s|z]; cbn; [|split; apply NEG].
      destruct t; cbn in C3; try contradiction; subst; split; auto. }
    assert (HPp : Forall piece params).
    { apply Forall_forall. intros x Hx. apply In_nth_error in Hx as [k Hk]. assert (k < length params)%nat as Lk by (apply nth_error_Some; congruence).
      destruct (nth_error ts k) as [t|] eqn:Et; [|apply nth_error_None in Et; lia]. destruct (nth_error vs k) as [v|] eqn:Ev; [|apply nth_error_None in Ev; lia].
      destruct (E4 k t x v Et Hk Ev) as (X1 & X2 & _). split; auto. }
    apply Forall_forall. intros v Hv. apply In_nth_error in Hv as [k Hk]. destruct (M k v Hk) as (t & p & Ht & Hp & HC & HTv).
    destruct v as [s|z]; cbn.
    + destruct HC as (C1 & C2 & C3). destruct t; cbn in C3; try contradiction. subst. auto.
    + assert (EP : params = map param_text vs).
      { destruct E5 as [(Hn & E5)|(_ & -> & _)].
        - assert (Q1 : Forall piece (name :: map param_text vs)) by (constructor; [split|]; auto).
          assert (Q2 : Forall piece (name :: params)) by (constructor; [split|]; auto).
          assert (L1 : (length (name :: map param_text vs) <= 10)%nat) by (cbn; rewrite map_length; lia).
          pose proof (collect_pieces _ 10 Q1 L1) as K1. rewrite <- route_text_eq in K1. destruct E5 as [E5|[E5 L8]]; rewrite E5, route_text_eq in K1.
          + rewrite (collect_pieces _ 10 Q2) in K1 by (cbn; lia). now injection K1.
          + rewrite (collect_trailing _ 10 Q2) in K1 by (cbn; lia). now injection K1.
        - destruct vs, params; cbn in *; congruence. }
      rewrite EP in Hp. rewrite nth_error_map, Hk in Hp. cbn in Hp. injection Hp as <-.
      destruct HC as (_ & _ & C3). destruct t as [| |b|b]; try contradiction; destruct C3 as (D & _ & Hz);
        (destruct z as [|q|q]; [congruence|lia|]; cbn in D; inversion D as [|? ? X _ e]; subst; unfold digit in X; lia).
  - intros [Hn HS]. apply C48_accepts_routes; auto. exists name, ts, (map param_text vs). rewrite map_length. split; [auto|]. split; [auto|]. split; [auto|]. split.
    + intros k t p v Ht Hp Hv. rewrite nth_error_map, Hv in Hp. cbn in Hp. injection Hp as <-. pose proof (nth_error_Forall2 _ _ _ _ _ _ HT Ht Hv) as HTv.
      pose proof (proj1 (Forall_forall _ _) HS v (nth_error_In _ _ Hv)) as Sv. destruct v as [s|z]; cbn in *.
      * destruct t; try contradiction. destruct Sv. split; auto.
      * apply int_means; auto. destruct t; [contradiction| | |]; discriminate.
    + destruct name as [|c name]; [|left; split; [discriminate|auto]]. right. destruct Hn as [Hn| ->]; [congruence|]. destruct vs; [auto|discriminate].
Qed.

(* so the values that are lost are those with a zero or negative number or a string that is empty or has a '/' *)
Theorem C47_round_trip_refuted :
  ~ (forall m i name ts vs, wf_map m -> all_bytes name -> nth_error m i = Some (name, ts) -> Forall2 has_type ts vs ->
     from_string m (to_string m i vs) = Ok (Route i vs)).
Proof.
  intros H. pose proof (H test_map 1%nat (bs "foo") [TUnsigned 64] [VInt 0] test_map_wf ltac:(repeat constructor) eq_refl ltac:(repeat constructor; lia)) as X.
  vm_compute in X. discriminate.
Qed.

(* ---- examples ---- *)
Example C47_ex :
  to_string test_map 3 [VInt 42; VStr (bs "world")] = bs "/baz/42/world" /\
  from_string test_map (bs "/baz/42/world") = Ok (Route 3 [VInt 42; VStr (bs "world")]) /\
  from_string test_map (bs "/") = Ok (Route 0 []) /\
  to_string test_map 2 [VStr (bs "a/b")] = bs "/bar/a/b" /\ from_string test_map (bs "/bar/a/b") = Ok NotFound /\
  from_string test_map (to_string test_map 1 [VInt 0]) = Ok NotFound.
Proof. repeat split; vm_compute; reflexivity. Qed.

(* from /repo/test/nbdl/webui/route_map.cpp:83-122 *)
Example C48_ex :
  from_string test_map (bs "/foo/426") = Ok (Route 1 [VInt 426]) /\ from_string test_map (bs "/foo/moo") = Ok NotFound /\
  from_string test_map (bs "/foo/4/4") = Ok NotFound /\ from_string test_map (bs "/bar/") = Ok NotFound /\
  from_string test_map (bs "/baz/0/nozeros") = Ok NotFound /\ from_string test_map (bs "/boo-moo/") = Ok (Route 4 []) /\
  from_string test_map (bs "/boo-moo/42") = Ok NotFound /\ from_string test_map (bs "/platypus") = Ok NotFound /\ from_string test_map [] = Ok NotFound.
Proof. repeat split; vm_compute; reflexivity. Qed.

Print Assumptions C48_accepts_exactly_partial.
Print Assumptions C48_accepts_routes.
Print Assumptions C48_sound_if_fits.
Print Assumptions C48_rejects_large_numbers_refuted.
Print Assumptions C48_in_bounds_refuted.
Print Assumptions C47_round_trip_iff.
Print Assumptions C47_round_trip_refuted.
