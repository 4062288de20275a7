(* C26 *)
From Coq Require Import Permutation.
From Verif Require Import Base HashModel.
Open Scope N_scope.

(* Spec: what contributes to the digest, in order *)
Section Spec.
Context {leaf : Type}.
Inductive atom := Id (i : nat) | At (x : leaf).
Fixpoint atoms (v : value leaf) : list atom :=
  match v with
  | Leaf x => [At x]
  | Empty => []
  | Seq l => flat_map atoms l
  | Var i w => Id i :: atoms w
  | Cont l | Bag l => map At l
  end.
Fixpoint no_bag (v : value leaf) : Prop :=
  match v with
  | Seq l => (fix go l := match l with [] => True | x :: r => no_bag x /\ go r end) l
  | Var _ w => no_bag w
  | Bag _ => False
  | _ => True
  end.
(* boost::hash_combine in arithmetic modulo 2^64 *)
Definition mix (digest h : N) : N := N.lxor digest ((h + 2654435769 + 64 * digest + digest / 4) mod 2 ^ 64).
(* equality of values: unordered sets are equal when they hold the same elements *)
Inductive same : value leaf -> value leaf -> Prop :=
| S_leaf x : same (Leaf x) (Leaf x)
| S_empty : same Empty Empty
| S_seq l m : Forall2 same l m -> same (Seq l) (Seq m)
| S_var i v w : same v w -> same (Var i v) (Var i w)
| S_cont l : same (Cont l) (Cont l)
| S_bag l m : Permutation l m -> same (Bag l) (Bag m).
End Spec.
Arguments atom : clear implicits.

Section ValueInd.
Context {leaf : Type}.
Variable P : value leaf -> Prop.
Hypothesis HLeaf : forall x, P (Leaf x).
Hypothesis HEmpty : P Empty.
Hypothesis HSeq : forall l, Forall P l -> P (Seq l).
Hypothesis HVar : forall i v, P v -> P (Var i v).
Hypothesis HCont : forall l, P (Cont l).
Hypothesis HBag : forall l, P (Bag l).
Fixpoint value_ind' (v : value leaf) : P v :=
  match v with
  | Leaf x => HLeaf x | Empty => HEmpty | Var i w => HVar i w (value_ind' w) | Cont l => HCont l | Bag l => HBag l
  | Seq l => HSeq l ((fix go (l : list (value leaf)) : Forall P l := match l with [] => Forall_nil P | x :: r => Forall_cons x (value_ind' x) (go r) end) l)
  end.
End ValueInd.

Section Props.
Context {leaf : Type} (hasher : leaf -> N) (type_id_hash : nat -> N) (leaf_eq : leaf -> leaf -> bool).

Definition atom_hash (a : atom leaf) : N := match a with Id i => type_id_hash i | At x => hasher x end.

Lemma bind_atoms : forall v d, bind leaf hasher type_id_hash d v = fold_left (fun d a => hash_combine d (atom_hash a)) (atoms v) d.
Proof.
  induction v using value_ind'; intros d; cbn; try reflexivity.
  - revert d. induction H as [|v l Hv Hl IH]; intros d; cbn; [reflexivity|]. rewrite fold_left_app, <- Hv.
    rewrite <- IH. now destruct v.
  - apply IHv.
  - revert d. induction l as [|x l IH]; intros d; cbn; [reflexivity|]. apply IH.
  - revert d. induction l as [|x l IH]; intros d; cbn; [reflexivity|]. apply IH.
Qed.

(* C26: the digest is that of the leaves and type ids of the value, combined in order *)
Lemma combine_mix d h : hash_combine d h = mix d h.
Proof.
  unfold hash_combine, mix. f_equal. rewrite N.shiftl_mul_pow2, N.shiftr_div_pow2. change (2 ^ 6) with 64. change (2 ^ 2) with 4. change 0x9e3779b9 with 2654435769.
  rewrite (N.mul_comm d 64), <- !N.add_assoc, (N.add_comm (64 * d mod 2 ^ 64)), (N.add_comm (64 * d)), !N.add_assoc. apply N.add_mod_idemp_r. discriminate.
Qed.
Theorem C26_digest : forall v, hash leaf hasher type_id_hash v = fold_left (fun d a => mix d (atom_hash a)) (atoms v) 0.
Proof. intros v. unfold hash. rewrite bind_atoms. generalize 0 as d. induction (atoms v) as [|a l IH]; intros d; cbn [fold_left]; [reflexivity|]. now rewrite combine_mix, IH. Qed.

Hypothesis contract : forall x y, leaf_eq x y = true -> hasher x = hasher y.

Lemma forall2b_map : forall l1 l2, forall2b leaf_eq l1 l2 = true -> map atom_hash (map At l1) = map atom_hash (map At l2).
Proof.
  induction l1 as [|x l1 IH]; destruct l2 as [|y l2]; cbn; intros H; try discriminate; auto.
  apply andb_true_iff in H as [H1 H2]. f_equal; auto.
Qed.

Lemma equal_atoms : forall a b, no_bag a -> equal leaf leaf_eq a b = true -> map atom_hash (atoms a) = map atom_hash (atoms b).
Proof.
  induction a using value_ind'; intros b N E; destruct b; cbn in N, E |- *; try discriminate; try contradiction; auto.
  - f_equal. auto.
  - revert l0 E N. induction H as [|v l Hv Hl IH]; intros [|w l0] E N; cbn in E |- *; try discriminate; auto.
    apply andb_true_iff in E as [E1 E2]. destruct N as [N1 N2]. rewrite !map_app. f_equal; auto.
  - apply andb_true_iff in E as [E1 E2]. apply Nat.eqb_eq in E1 as ->. f_equal. auto.
  - apply forall2b_map; auto.
Qed.

Lemma fold_map : forall (l : list (atom leaf)) d, fold_left (fun d a => mix d (atom_hash a)) l d = fold_left mix (map atom_hash l) d.
Proof. induction l as [|x l IH]; intros d; cbn; auto. Qed.

(* values that are equal have equal hashes, whenever std::hash does so for the leaves, except for containers that compare
   without looking at the order of their elements *)
Theorem C26_hash_respects_equality_partial : forall a b, no_bag a -> equal leaf leaf_eq a b = true -> hash leaf hasher type_id_hash a = hash leaf hasher type_id_hash b.
Proof. intros a b N E. rewrite !C26_digest, !fold_map. f_equal. now apply equal_atoms. Qed.

(* what is compared is the kind of the value, the alternative of a variant and every element *)
Lemma remove_one_spec (f : leaf -> bool) l :
  match remove_one f l with
  | Some r => exists y, f y = true /\ Permutation l (y :: r)
  | None => forall y, In y l -> f y = false
  end.
Proof.
  induction l as [|z l IH]; cbn; [tauto|]. destruct (f z) eqn:E; [exists z; split; auto|]. destruct (remove_one f l) as [r|]; cbn.
  - destruct IH as (y & Hy & P). exists y. split; auto. rewrite P. apply perm_swap.
  - intros y [<-|Hy]; auto.
Qed.
Theorem C26_equal : (forall x y, leaf_eq x y = true <-> x = y) -> forall a b, equal leaf leaf_eq a b = true <-> same a b.
Proof.
  intros D. assert (L : forall l m, forall2b leaf_eq l m = true <-> l = m).
  { induction l as [|x l IH]; intros [|y m]; cbn; split; intros H; try discriminate; auto.
    - apply andb_true_iff in H as [H1 H2]. apply D in H1. apply IH in H2. now subst.
    - injection H as -> ->. apply andb_true_iff. split; [now apply D|now apply IH]. }
  assert (P : forall l m, is_permutation leaf_eq l m = true <-> Permutation l m).
  { induction l as [|x l IH]; intros m; cbn.
    - split; [destruct m; [auto|discriminate]|]. intros H. now apply Permutation_nil in H as ->.
    - pose proof (remove_one_spec (leaf_eq x) m) as R. destruct (remove_one (leaf_eq x) m) as [r|].
      + destruct R as (y & Hy & R). apply D in Hy as <-. rewrite IH. split; intros H; [now rewrite R, H|]. rewrite R in H. now apply Permutation_cons_inv in H.
      + split; [discriminate|]. intros H. assert (In x m) as X by (rewrite <- H; now left). apply R in X. now rewrite (proj2 (D x x) eq_refl) in X. }
  intros a. induction a using value_ind'; intros b; destruct b; cbn; try (split; [discriminate|intros H0; now inversion H0]).
  - rewrite D. split; intros H; [subst; constructor|now inversion H].
  - split; constructor.
  - split.
    + intros E. constructor. revert l0 E. induction H as [|v l Hv Hl IH]; intros [|w m] E; cbn in E; try discriminate; constructor; apply andb_true_iff in E as [E1 E2]; [now apply Hv|auto].
    + intros E. inversion E as [| |? ? F| | |]; subst. clear E. revert l0 F. induction H as [|v l Hv Hl IH]; intros m F; inversion F; subst; cbn; auto.
      apply andb_true_iff. split; [now apply Hv|auto].
  - rewrite andb_true_iff, Nat.eqb_eq, IHa. split; [intros [-> H]; now constructor|]. intros H. inversion H; auto.
  - rewrite L. split; intros H; [subst; constructor|now inversion H].
  - rewrite P. split; intros H; [now constructor|now inversion H].
Qed.

(* the digest is a size_t *)
Theorem C26_range : (forall x, hasher x < 2 ^ 64) -> (forall i, type_id_hash i < 2 ^ 64) -> forall v, hash leaf hasher type_id_hash v < 2 ^ 64.
Proof.
  intros H1 H2 v. rewrite C26_digest.
  assert (A : forall (l : list (atom leaf)) d, d < 2 ^ 64 -> fold_left (fun d a => mix d (atom_hash a)) l d < 2 ^ 64).
  { induction l as [|a l IH]; intros d Hd; cbn [fold_left]; [exact Hd|]. apply IH. unfold mix.
    set (y := _ mod 2 ^ 64). assert (Hy : y < 2 ^ 64) by (apply N.mod_lt; discriminate).
    destruct (N.eq_dec (N.lxor d y) 0) as [->|Hz]; [reflexivity|]. apply N.log2_lt_pow2; [lia|].
    eapply N.le_lt_trans; [apply N.log2_lxor|]. 
    assert (B : forall z, z < 2 ^ 64 -> N.log2 z < 64).
    { intros z Hz'. destruct (N.eq_dec z 0) as [->|]; [reflexivity|]. apply N.log2_lt_pow2; lia. }
    apply N.max_lub_lt; auto. }
  apply A. reflexivity.
Qed.
End Props.
Print Assumptions C26_digest.
Print Assumptions C26_hash_respects_equality_partial.
Print Assumptions C26_range.

(* It is false for all bindable values: nbdl::Container admits std::unordered_set, whose == ignores the order in which the
   elements are iterated while the hash depends on it (hash.hpp:51-56) *)
Theorem C26_hash_respects_equality_refuted : exists (hasher : N -> N) a b, (forall x y, N.eqb x y = true -> hasher x = hasher y) /\
  equal N N.eqb a b = true /\ hash N hasher N.of_nat a <> hash N hasher N.of_nat b.
Proof.
  exists (fun x => x), (Bag [1; 2]), (Bag [2; 1]). split; [intros x y H; now apply N.eqb_eq in H|].
  split; [reflexivity|]. vm_compute. discriminate.
Qed.
Print Assumptions C26_hash_respects_equality_refuted.
Print Assumptions C26_equal.
Example C26_equal_ex : equal N N.eqb (Seq [Bag [1; 2; 1]; Var 0 (Cont [])]) (Seq [Bag [1; 1; 2]; Var 0 (Cont [])]) = true
  /\ equal N N.eqb (Bag []) (Bag [1]) = false /\ equal N N.eqb (Bag [1; 1]) (Bag [1; 2]) = false.
Proof. vm_compute. auto. Qed.

Example C26_ex : let v := Seq [Leaf 1; Empty; Var 2 (Seq [Leaf 3]); Cont [4; 5]] in
  equal N N.eqb v v = true /\ hash N (fun x => x) N.of_nat v = 46082543957171356 /\ hash N (fun x => x) N.of_nat v <> hash N (fun x => x) N.of_nat (Seq [Leaf 1; Empty; Var 2 (Seq [Leaf 3]); Cont [5; 4]]).
Proof. vm_compute. repeat split. discriminate. Qed.
