(* C102: a tree of views and its list of actions. *)
From Verif Require Import Base VwModel VwSpec VwProofs.
Open Scope nat_scope.

(* which trees have one *)
Theorem C102_compiles : forall s, (exists l, flatten_spec s = Some l) <-> complete s.
Proof. exact compiles. Qed.
Print Assumptions C102_compiles.

(* begins and ends are paired, in the alternatives of matches too *)
Theorem C102_nested : forall s l o, flatten_spec s = Some l -> leads o l o.
Proof. intros s l o E. rewrite <- (app_nil_r l). eapply leads_flat; [exact E|constructor]. Qed.
Print Assumptions C102_nested.

(* every view is begun once, in order and at its depth *)
Theorem C102_outline : forall s l d, flatten_spec s = Some l -> outlined d l (outline d s).
Proof. intros s l d E. rewrite <- (app_nil_r l), <- (app_nil_r (outline d s)). eapply outlined_flat; [exact E|constructor]. Qed.
Print Assumptions C102_outline.

(* two trees never have the same list *)
Theorem C102_determined : forall s s' l, flatten_spec s = Some l -> flatten_spec s' = Some l -> s = s'.
Proof. intros s s' l E E'. now destruct (determined s s' l l [] [] E E' eq_refl). Qed.
Print Assumptions C102_determined.

(* a window with a label, and another one or an image *)
Definition window (inner : spec) : spec := Pair 1 [Leaf 10; Leaf 20; Pair 1 [Leaf 11; Leaf 21]; Match 5 [(0, inner); (1, Pair 1 [Leaf 12; Leaf 22; Leaf 7])]].
Example C102_ex : flatten_spec (window (Leaf 9)) =
  Some [Begin 1 (Leaf 10) (Leaf 20); Begin 1 (Leaf 11) (Leaf 21); End 1 (Leaf 11);
        Branch 5 [(0, [Same 9]); (1, [Begin 1 (Leaf 12) (Leaf 22); Same 7; End 1 (Leaf 12)])]; End 1 (Leaf 10)] /\
  complete (window (Leaf 9)) /\ map fst (outline 0 (window (Leaf 9))) = [0; 1; 1].
Proof. split; [reflexivity|]. split; [repeat constructor|reflexivity]. Qed.

(* A trap: the second entry is the function, whatever it is.  A view that is given none has the first of its views taken for it, which is then not begun
   and has no room for what is in it *)
Theorem C102_no_function : forall t ty c cs l, flatten_spec (Pair t (ty :: c :: cs)) = Some l ->
  (forall c', complete c' -> exists r, l = Begin t ty c :: r /\ flatten_spec (Pair t (ty :: c' :: cs)) = Some (Begin t ty c' :: r)) /\
  (forall d, length (outline d (Pair t (ty :: c :: cs))) = S (length (flat_map (outline (S d)) cs))).
Proof.
  intros t ty c cs l E. split; [|reflexivity]. intros c' _. apply flatten_pair in E as (fs & F & ->). eexists. split; [reflexivity|]. apply flatten_pair. eauto.
Qed.
Print Assumptions C102_no_function.
Example C102_no_function_ex : flatten_spec (Pair 1 [Leaf 10; Pair 1 [Leaf 11; Leaf 21]]) = Some [Begin 1 (Leaf 10) (Pair 1 [Leaf 11; Leaf 21]); End 1 (Leaf 10)].
Proof. reflexivity. Qed.
