From Verif Require Import Base RegModel RegSpec.
Open Scope N_scope.

Section Proofs.
Context {V : Type} (undef : V).
Notation get := (js_get undef).

Lemma get_set (r : @registry V) a b v : get (js_set r a v) b = if b =? a then v else get r b.
Proof.
  induction r as [|[k w] r IH]; cbn.
  - destruct (N.eqb_spec a b), (N.eqb_spec b a); congruence.
  - destruct (N.eqb_spec k a) as [->|Hk]; cbn.
    + destruct (N.eqb_spec a b), (N.eqb_spec b a); congruence.
    + rewrite IH. destruct (N.eqb_spec k b), (N.eqb_spec b a); congruence.
Qed.

Lemma get_delete (r : @registry V) a b : get (js_delete r a) b = if b =? a then undef else get r b.
Proof.
  induction r as [|[k w] r IH]; cbn; [now destruct (b =? a)|].
  destruct (N.eqb_spec k a) as [->|Hk]; cbn; rewrite IH; [destruct (N.eqb_spec a b), (N.eqb_spec b a); congruence|].
  destruct (N.eqb_spec k b), (N.eqb_spec b a); congruence.
Qed.

Lemma keys_set (r : @registry V) a v b : In b (map fst (js_set r a v)) <-> b = a \/ In b (map fst r).
Proof.
  induction r as [|[k w] r IH]; cbn; [intuition|]. destruct (N.eqb_spec k a) as [->|Hk]; cbn; [intuition|]. rewrite IH. intuition.
Qed.

Lemma keys_delete (r : @registry V) a b : In b (map fst (js_delete r a)) <-> b <> a /\ In b (map fst r).
Proof.
  induction r as [|[k w] r IH]; cbn; [intuition|]. destruct (N.eqb_spec k a) as [->|Hk]; cbn; rewrite IH; intuition congruence.
Qed.

Lemma nodup_set (r : @registry V) a v : NoDup (map fst r) -> NoDup (map fst (js_set r a v)).
Proof.
  induction r as [|[k w] r IH]; cbn; intros H; [repeat constructor; auto|]. inversion H; subst.
  destruct (N.eqb_spec k a) as [->|Hk]; cbn; [now constructor|]. constructor; auto. rewrite keys_set. intuition.
Qed.

Lemma nodup_delete (r : @registry V) a : NoDup (map fst r) -> NoDup (map fst (js_delete r a)).
Proof.
  induction r as [|[k w] r IH]; cbn; intros H; [constructor|]. inversion H; subst.
  destruct (N.eqb_spec k a) as [->|Hk]; cbn; auto. constructor; auto. rewrite keys_delete. intuition.
Qed.

Lemma holds_set r c a v : holds undef r c -> holds undef (js_set r a v) (upd c a (Some v)).
Proof.
  intros (H1 & H2 & H3). unfold upd. split; [|split; [|now apply nodup_set]].
  - intros b w E. rewrite get_set. destruct (N.eqb_spec b a); [congruence|auto].
  - intros b Hb. apply keys_set in Hb. destruct (N.eqb_spec b a); [discriminate|]. apply H2. intuition.
Qed.

(* deleting the entry of an object leaves it undefined *)
Lemma holds_delete r c a x : holds undef r c -> (x = None \/ x = Some undef) -> holds undef (js_delete r a) (upd c a x).
Proof.
  intros (H1 & H2 & H3) Hx. unfold upd. split; [|split; [|now apply nodup_delete]].
  - intros b w E. rewrite get_delete. destruct (N.eqb_spec b a); [|auto]. destruct Hx; congruence.
  - intros b Hb. apply keys_delete in Hb. destruct (N.eqb_spec b a); [intuition|]. apply H2. intuition.
Qed.

Lemma holds_new r c a : holds undef r c -> c a = None -> holds undef r (upd c a (Some undef)).
Proof.
  intros (H1 & H2 & H3) E. unfold upd. split; [|split; [|auto]].
  - intros b w. destruct (N.eqb_spec b a) as [->|]; [|auto]. intros Ew. injection Ew as <-.
    assert (N : ~ In a (map fst r)) by (intros Hi; now apply (H2 a Hi)). clear -N. induction r as [|[k w] r IH]; cbn in *; auto.
    destruct (N.eqb_spec k a); intuition.
  - intros b Hb. destruct (N.eqb_spec b a); [discriminate|auto].
Qed.

Lemma step_holds o r c c' : holds undef r c -> means undef o c = Some c' -> exists r', step undef o (Some r) = Some (Some r') /\ holds undef r' c'.
Proof.
  intros H E. destruct o as [|a|a b|a b|a b|a b|a f|a]; cbn in *.
  - injection E as <-. eauto.
  - destruct (c a) eqn:Ea; [discriminate|]. injection E as <-. eexists. split; [reflexivity|]. now apply holds_new.
  - destruct (c a) eqn:Ea; [discriminate|]. destruct (c b) as [v|] eqn:Eb; [|discriminate]. injection E as <-.
    eexists. split; [reflexivity|]. unfold copy. rewrite (proj1 H b v Eb). now apply holds_set.
  - destruct (c a) eqn:Ea; [discriminate|]. destruct (c b) as [v|] eqn:Eb; [|discriminate]. injection E as <-.
    eexists. split; [reflexivity|]. unfold copy, unregister. rewrite (proj1 H b v Eb). apply holds_delete; auto. now apply holds_set.
  - destruct (c a) eqn:Ea; [|discriminate]. destruct (c b) as [w|] eqn:Eb; [|discriminate]. injection E as <-.
    eexists. split; [reflexivity|]. unfold copy. rewrite (proj1 H b w Eb). now apply holds_set.
  - destruct (c a) eqn:Ea; [|discriminate]. destruct (c b) as [w|] eqn:Eb; [|discriminate]. injection E as <-.
    eexists. split; [reflexivity|]. unfold copy, unregister. rewrite (proj1 H b w Eb). apply holds_delete; auto. now apply holds_set.
  - destruct (c a) eqn:Ea; [|discriminate]. injection E as <-. eexists. split; [reflexivity|]. rewrite (proj1 H a v Ea). now apply holds_set.
  - destruct (c a) eqn:Ea; [|discriminate]. injection E as <-. eexists. split; [reflexivity|]. apply holds_delete; auto.
Qed.

Lemma run_holds l : forall r c c', holds undef r c -> means_all undef l c = Some c' -> exists r', run undef l (Some r) = Some (Some r') /\ holds undef r' c'.
Proof.
  induction l as [|o l IH]; intros r c c' H E; cbn in *.
  - injection E as <-. eauto.
  - destruct (means undef o c) as [c1|] eqn:E1; [|discriminate]. destruct (step_holds o r c c1 H E1) as (r1 & -> & H1). eauto.
Qed.

(* ---- vectors ---- *)
Lemma addresses_nth base n i : (i < n)%nat -> nth_error (addresses base n) i = Some (base + N.of_nat i).
Proof.
  revert base i. induction n as [|n IH]; intros base i Hi; [lia|]. destruct i as [|i]; cbn; [f_equal; lia|]. rewrite IH by lia. f_equal. lia.
Qed.

Lemma addresses_in base n a : In a (addresses base n) <-> base <= a < base + N.of_nat n.
Proof.
  revert base. induction n as [|n IH]; intros base; cbn [addresses In]; [lia|]. rewrite IH. lia.
Qed.

Lemma addresses_length base n : length (addresses base n) = n.
Proof. revert base. induction n; intros; cbn; auto. Qed.

Lemma addresses_app base n m : addresses base (n + m) = addresses base n ++ addresses (base + N.of_nat n) m.
Proof.
  revert base. induction n as [|n IH]; intros base; cbn [addresses Nat.add app]; [f_equal; lia|]. rewrite IH. do 2 f_equal. f_equal. lia.
Qed.

Definition values (r : @registry V) (base : N) (n : nat) : list V := map (get r) (addresses base n).

Lemma fold_delete_get l : forall (r : @registry V) b, get (fold_left js_delete l r) b = if existsb (N.eqb b) l then undef else get r b.
Proof.
  induction l as [|a l IH]; intros r b; cbn; [reflexivity|]. rewrite IH, get_delete. destruct (b =? a); cbn; [now destruct existsb|reflexivity].
Qed.

Lemma fold_delete_keys l : forall (r : @registry V) b, In b (map fst (fold_left js_delete l r)) <-> ~ In b l /\ In b (map fst r).
Proof.
  induction l as [|a l IH]; intros r b; cbn; [intuition|]. rewrite IH, keys_delete. intuition.
Qed.

(* remove_if keeps, from [dst] on, the values that stay *)
Lemma remove_if_spec (p : V -> bool) (pred : @registry V -> N -> bool) conn base lim :
  (conn < base \/ lim <= conn) -> let outside := fun r r' => get r conn = get r' conn in
  forall n r r0 dst src r' e, (forall r x, outside r r0 -> pred r x = p (get r x)) -> outside r r0 ->
  base <= dst <= src -> src + N.of_nat n = lim ->
  remove_if undef pred r dst src n = (r', e) ->
  outside r' r0 /\ (forall b, b < dst \/ lim <= b -> get r' b = get r b) /\
  dst <= e <= lim /\ e = dst + N.of_nat (length (filter (fun v => negb (p v)) (values r src n))) /\
  values r' dst (N.to_nat (e - dst)) = filter (fun v => negb (p v)) (values r src n) /\
  (forall b, In b (map fst r') -> In b (map fst r) \/ dst <= b < e).
Proof.
  intros HO outside. induction n as [|n IH]; intros r r0 dst src r' e HP HR Hd Hl E; cbn [remove_if] in E.
  - injection E as <- <-. cbn [values addresses map filter length]. rewrite N.sub_diag. split; [auto|]. split; [auto|]. split; [lia|]. split; [lia|]. split; [reflexivity|auto].
  - rewrite (HP r src HR) in E. cbn [values addresses map filter]. fold (values r (src + 1) n). destruct (p (get r src)) eqn:Ep; cbn [negb].
    + destruct (IH r r0 dst (src + 1) r' e HP HR ltac:(lia) ltac:(lia) E) as (A & B & C & D & F & G). split; [auto|]. split; [auto|]. split; [lia|]. auto.
    + set (r1 := if dst =? src then r else unregister (copy undef r dst src) src) in *.
      assert (G1 : forall b, get r1 b = if dst =? src then get r b else if b =? src then undef else if b =? dst then get r src else get r b).
      { intros b. unfold r1. destruct (N.eqb_spec dst src); [reflexivity|]. unfold unregister, copy. rewrite get_delete, get_set. reflexivity. }
      assert (HR1 : outside r1 r0).
      { unfold outside in *. rewrite G1. destruct (N.eqb_spec dst src); [auto|]. destruct (N.eqb_spec conn src); [lia|]. destruct (N.eqb_spec conn dst); [lia|auto]. }
      destruct (IH r1 r0 (dst + 1) (src + 1) r' e HP HR1 ltac:(lia) ltac:(lia) E) as (A & B & C & D & F & G).
      assert (EV : values r1 (src + 1) n = values r (src + 1) n).
      { unfold values. apply map_ext_in. intros b Hb. apply addresses_in in Hb. rewrite G1. destruct (N.eqb_spec dst src); [reflexivity|].
        destruct (N.eqb_spec b src); [lia|]. destruct (N.eqb_spec b dst); [lia|reflexivity]. }
      rewrite EV in *. split; [auto|]. split; [|split; [lia|split; [|split]]].
      * intros b Hb. rewrite B by lia. rewrite G1. destruct (N.eqb_spec dst src); [reflexivity|]. destruct (N.eqb_spec b src); [lia|]. destruct (N.eqb_spec b dst); [lia|reflexivity].
      * cbn [length]. lia.
      * replace (N.to_nat (e - dst)) with (S (N.to_nat (e - (dst + 1)))) by lia. cbn [values addresses map]. fold (values r' (dst + 1) (N.to_nat (e - (dst + 1)))).
        rewrite F. f_equal. rewrite B by lia. rewrite G1. destruct (N.eqb_spec dst src) as [<-|]; [reflexivity|]. destruct (N.eqb_spec dst src); [lia|]. now rewrite N.eqb_refl.
      * intros b Hb. destruct (G b Hb) as [Hi|Hi]; [|lia]. unfold r1 in Hi. destruct (N.eqb_spec dst src); [auto|].
        unfold unregister, copy in Hi. apply keys_delete in Hi. destruct Hi as [_ Hi]. apply keys_set in Hi. destruct Hi; [right; lia|auto].
Qed.
End Proofs.
