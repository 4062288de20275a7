(* Shared vocabulary: bytes, outcomes, and the few arithmetic lemmas that
   every byte-level model needs.  Nothing here models a file of /repo. *)
From Coq Require Import Ascii String.
From Coq Require Export List Arith NArith ZArith Lia Bool.
From Coq Require Export ZifyBool ZifyNat ZifyN.

Export ListNotations.
Ltac Zify.zify_post_hook ::= Z.div_mod_to_equations.

Arguments N.add : simpl never.
Arguments N.sub : simpl never.
Arguments N.mul : simpl never.
Arguments N.div : simpl never.
Arguments N.modulo : simpl never.
Arguments N.pow : simpl never.
Arguments N.shiftl : simpl never.
Arguments N.shiftr : simpl never.
Arguments N.lor : simpl never.
Arguments N.land : simpl never.
Arguments N.lxor : simpl never.
Arguments N.eqb : simpl never.
Arguments N.ltb : simpl never.
Arguments N.leb : simpl never.
Arguments N.of_nat : simpl never.
Arguments N.to_nat : simpl never.

(* A byte is an N below 256; a buffer or string is a list of them. *)
Notation byte := N (only parsing).
Notation bytes := (list N) (only parsing).
Definition is_byte (b : byte) : Prop := (b < 256)%N.
Definition all_bytes (bs : bytes) : Prop := Forall is_byte bs.

(* String literals as byte lists. *)
Fixpoint bs (s : String.string) : bytes :=
  match s with
  | EmptyString => []
  | String c r => N_of_ascii c :: bs r
  end.

(* Boolean equality of byte strings. *)
Fixpoint bytes_eqb (a b : bytes) : bool :=
  match a, b with
  | [], [] => true
  | x :: a', y :: b' => N.eqb x y && bytes_eqb a' b'
  | _, _ => false
  end.

Lemma bytes_eqb_spec a b : reflect (a = b) (bytes_eqb a b).
Proof.
  revert b; induction a as [|x a IH]; intros [|y b]; simpl; try (constructor; congruence).
  destruct (N.eqb_spec x y) as [->|Hne]; simpl.
  - destruct (IH b) as [->|Hn]; constructor; congruence.
  - constructor; congruence.
Qed.

Lemma bytes_eqb_refl a : bytes_eqb a a = true.
Proof. destruct (bytes_eqb_spec a a); congruence. Qed.

(* Result of running C++ code: a value, or undefined behaviour
   (out-of-bounds access, failed assert, invalid shift, ...). *)
Inductive res (A : Type) : Type :=
| Ok : A -> res A
| UB : res A.
Arguments bs s%string_scope.
Arguments Ok {A}.
Arguments UB {A}.

Definition bind {A B} (x : res A) (f : A -> res B) : res B :=
  match x with Ok a => f a | UB => UB end.

Notation "'let!' x ':=' e 'in' k" := (bind e (fun x => k))
  (at level 200, x pattern, e at level 100, k at level 200).

(* --- finite sweep over all byte values ------------------------------ *)
Definition all_byte_values : list N := map N.of_nat (seq 0 256).

Lemma in_all_byte_values b : is_byte b -> In b all_byte_values.
Proof.
  unfold is_byte, all_byte_values; intros H.
  apply in_map_iff; exists (N.to_nat b); split; [lia|].
  apply in_seq; lia.
Qed.

Lemma byte_sweep (P : N -> bool) :
  forallb P all_byte_values = true -> forall b, is_byte b -> P b = true.
Proof.
  intros H b Hb. rewrite forallb_forall in H. apply H, in_all_byte_values, Hb.
Qed.

(* --- shifts and masks ------------------------------------------------ *)
Lemma land_shiftl_disjoint a b n : (b < 2 ^ n)%N -> N.land (N.shiftl a n) b = 0%N.
Proof.
  intros Hb. apply N.bits_inj; intros i. rewrite N.land_spec, N.bits_0.
  destruct (N.lt_ge_cases i n) as [Hi|Hi].
  - rewrite N.shiftl_spec_low by exact Hi. reflexivity.
  - destruct (N.eq_dec b 0) as [->|Hz]; [rewrite N.bits_0; apply andb_false_r|].
    rewrite (N.bits_above_log2 b i); [apply andb_false_r|].
    apply N.log2_lt_pow2 in Hb; lia.
Qed.

Lemma lor_disjoint_add a b : N.land a b = 0%N -> N.lor a b = (a + b)%N.
Proof.
  intros H. rewrite N.add_nocarry_lxor by exact H.
  apply N.bits_inj; intros i. rewrite N.lor_spec, N.lxor_spec.
  assert (Hi : N.testbit (N.land a b) i = false) by (rewrite H; apply N.bits_0).
  rewrite N.land_spec in Hi. destruct (N.testbit a i), (N.testbit b i); simpl in *; congruence.
Qed.

Lemma lor_shiftl_add a b n : (b < 2 ^ n)%N -> N.lor (N.shiftl a n) b = (a * 2 ^ n + b)%N.
Proof.
  intros Hb. rewrite lor_disjoint_add by (apply land_shiftl_disjoint; exact Hb).
  rewrite N.shiftl_mul_pow2. reflexivity.
Qed.

Lemma shiftr_land_mask f off k :
  N.shiftr (N.land f (N.shiftl (N.ones k) off)) off = ((f / 2 ^ off) mod 2 ^ k)%N.
Proof.
  rewrite N.shiftr_land, N.shiftr_shiftl_l by lia.
  rewrite N.sub_diag, N.shiftl_0_r, N.land_ones, N.shiftr_div_pow2. reflexivity.
Qed.

(* --- list induction in steps of 3 and 4 ----------------------------- *)
Lemma list_ind3 {A} (P : list A -> Prop) :
  P [] -> (forall a, P [a]) -> (forall a b, P [a; b]) ->
  (forall a b c l, P l -> P (a :: b :: c :: l)) -> forall l, P l.
Proof.
  intros H0 H1 H2 H3.
  assert (H : forall n l, (length l <= n)%nat -> P l).
  { induction n as [|n IH]; intros l Hl.
    - destruct l; simpl in Hl; [exact H0|lia].
    - destruct l as [|a [|b [|c l]]]; auto. apply H3, IH. simpl in Hl; lia. }
  intros l; apply (H (length l)); lia.
Qed.

Lemma list_ind4 {A} (P : list A -> Prop) :
  P [] -> (forall a, P [a]) -> (forall a b, P [a; b]) -> (forall a b c, P [a; b; c]) ->
  (forall a b c d l, P l -> P (a :: b :: c :: d :: l)) -> forall l, P l.
Proof.
  intros H0 H1 H2 H3 H4.
  assert (H : forall n l, (length l <= n)%nat -> P l).
  { induction n as [|n IH]; intros l Hl.
    - destruct l; simpl in Hl; [exact H0|lia].
    - destruct l as [|a [|b [|c [|d l]]]]; auto. apply H4, IH. simpl in Hl; lia. }
  intros l; apply (H (length l)); lia.
Qed.

Lemma N_sweep (n : nat) (P : N -> bool) :
  forallb P (map N.of_nat (seq 0 n)) = true -> forall b, (b < N.of_nat n)%N -> P b = true.
Proof.
  intros H b Hb. rewrite forallb_forall in H. apply H.
  apply in_map_iff; exists (N.to_nat b); split; [lia|]. apply in_seq; lia.
Qed.

Fixpoint bools_eqb (a b : list bool) : bool :=
  match a, b with
  | [], [] => true
  | x :: a', y :: b' => Bool.eqb x y && bools_eqb a' b'
  | _, _ => false
  end.

Lemma bools_eqb_eq a b : bools_eqb a b = true -> a = b.
Proof.
  revert b; induction a as [|x a IH]; intros [|y b]; simpl; try congruence.
  intros H; apply andb_prop in H as [Hx Hr]. apply Bool.eqb_prop in Hx. f_equal; auto.
Qed.
