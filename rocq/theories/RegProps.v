(* C66: objects that hold JavaScript values behave as variables; C67: JavaScript promises. *)
From Coq Require Import String.
From Verif Require Import Base RegModel RegSpec RegProofs.
Open Scope N_scope.

Section Props.
Context {V : Type} (undef : V).
Notation get := (js_get undef).

(* C66.  Any program that creates, copies, moves, assigns, changes and destroys objects as C++ allows: nothing throws, each
   live object has the value it should have, and the table in JavaScript has entries for live objects only *)
Theorem C66_variables : forall l c, means_all undef l (fun _ => None) = Some c ->
  exists r, run undef (Init :: l) None = Some (Some r) /\
    (forall a v, c a = Some v -> get r a = v) /\ (forall a, In a (map fst r) -> c a <> None).
Proof.
  intros l c E. destruct (run_holds undef l [] (fun _ => None) c) as (r & R & H1 & H2 & H3); eauto.
  split; [discriminate|]. split; [intros a []|constructor].
Qed.

(* when every object is gone, so is every entry *)
Theorem C66_no_leak : forall l c, means_all undef l (fun _ => None) = Some c -> (forall a, c a = None) ->
  run undef (Init :: l) None = Some (Some []).
Proof.
  intros l c E HN. destruct (C66_variables l c E) as (r & R & _ & H). rewrite R. destruct r as [|[a v] r]; [reflexivity|].
  exfalso. apply (H a); [now left|auto].
Qed.

(* calling init again in between changes nothing *)
Theorem C66_init_again : forall l1 l2 m, m <> None -> run undef (l1 ++ Init :: l2) m = run undef (l1 ++ l2) m.
Proof.
  intros l1 l2 m Hm. assert (K : forall o m m', m <> None -> step undef o m = Some m' -> m' <> None).
  { intros o [r|] m' H E; [|congruence]. destruct o; cbn in E; injection E as <-; discriminate. }
  revert m Hm. induction l1 as [|o l1 IH]; intros m Hm; cbn.
  - destruct m; [reflexivity|congruence].
  - destruct (step undef o m) as [m'|] eqn:E; [|reflexivity]. apply IH. eauto.
Qed.

(* std::swap exchanges two values, of one object with itself too *)
Theorem C66_swap : forall r c tmp a b va vb, holds undef r c -> c tmp = None -> c a = Some va -> c b = Some vb ->
  exists r', run undef (swap_ops tmp a b) (Some r) = Some (Some r') /\ get r' a = vb /\ get r' b = va /\
    forall x, x <> a -> x <> b -> c x <> None -> get r' x = get r x.
Proof.
  intros r c tmp a b va vb H Ht Ha Hb.
  assert (Nta : tmp <> a) by congruence. assert (Ntb : tmp <> b) by congruence.
  eexists. split; [reflexivity|]. unfold unregister, copy. repeat rewrite ?get_delete, ?get_set.
  rewrite !N.eqb_refl. destruct H as (H1 & _). rewrite <- (H1 a va Ha), <- (H1 b vb Hb).
  assert (X : forall u v, u <> v -> (u =? v) = false) by (intros; now apply N.eqb_neq).
  rewrite !(X tmp a), !(X tmp b), !(X a tmp), !(X b tmp) by congruence.
  split; [|split].
  - destruct (N.eqb_spec a b) as [->|E]; [now rewrite ?N.eqb_refl|]. rewrite ?(X b a) by congruence. reflexivity.
  - reflexivity.
  - intros x Hxa Hxb Hx. repeat rewrite ?get_delete, ?get_set. assert (x <> tmp) by congruence. now rewrite !(X x a), !(X x b), !(X x tmp).
Qed.

(* a vector that grows keeps its values, and nothing stays behind in the old memory *)
Theorem C66_vector_grows : forall r c base new x n, holds undef r c -> (forall i, (i < n)%nat -> c (base + N.of_nat i) <> None) ->
  (forall i, (i <= n)%nat -> c (new + N.of_nat i) = None) -> c x <> None -> (x < base \/ base + N.of_nat n <= x) ->
  exists r', run undef (grow_ops base new x n) (Some r) = Some (Some r') /\
    values undef r' new (S n) = values undef r base n ++ [get r x] /\ (forall i, (i < n)%nat -> ~ In (base + N.of_nat i) (map fst r')).
Proof.
  intros r c base new x n H Hold Hnew Hx Hxb.
  (* copying into the new memory *)
  assert (K : forall k o nw r c, holds undef r c -> (forall i, (i < k)%nat -> c (o + N.of_nat i) <> None) -> (forall i, (i < k)%nat -> c (nw + N.of_nat i) = None) ->
    exists r' c', run undef (map (fun p => CopyNew (fst p) (snd p)) (combine (addresses nw k) (addresses o k))) (Some r) = Some (Some r') /\ holds undef r' c' /\
      (forall b, c' b <> None <-> c b <> None \/ nw <= b < nw + N.of_nat k) /\ (forall b, ~ (nw <= b < nw + N.of_nat k) -> c' b = c b) /\
      forall i, (i < k)%nat -> c' (nw + N.of_nat i) = c (o + N.of_nat i)).
  { clear. induction k as [|k IH]; intros o nw r c H Ho Hn.
    - exists r, c. split; [reflexivity|]. split; [auto|]. split; [intros; split; [auto|intros [?|?]; [auto|lia]]|]. split; [auto|intros; lia].
    - pose proof (Ho 0%nat ltac:(lia)) as Ho0. pose proof (Hn 0%nat ltac:(lia)) as Hn0. rewrite N.add_0_r in Ho0, Hn0.
      destruct (c o) as [v|] eqn:Eo; [|congruence].
      assert (E1 : means undef (CopyNew nw o) c = Some (upd c nw (Some v))) by (cbn; now rewrite Hn0, Eo).
      destruct (step_holds undef _ r c _ H E1) as (r1 & S1 & H1).
      destruct (IH (o + 1) (nw + 1) r1 (upd c nw (Some v)) H1) as (r' & c' & R & H' & L & F & VV).
      + intros i Hi. unfold upd. destruct (N.eqb_spec (o + 1 + N.of_nat i) nw); [discriminate|]. replace (o + 1 + N.of_nat i) with (o + N.of_nat (S i)) by lia. apply Ho. lia.
      + intros i Hi. unfold upd. destruct (N.eqb_spec (nw + 1 + N.of_nat i) nw); [lia|]. replace (nw + 1 + N.of_nat i) with (nw + N.of_nat (S i)) by lia. apply Hn. lia.
      + exists r', c'. split; [cbn [addresses combine map run fst snd]; rewrite S1; exact R|]. split; [auto|]. split; [|split].
        * intros b. rewrite L. unfold upd. destruct (N.eqb_spec b nw) as [->|]; [split; [right; lia|left; discriminate]|]. split; (intros [?|?]; [auto|right; lia]).
        * intros b Hb. rewrite F by lia. unfold upd. destruct (N.eqb_spec b nw); [lia|reflexivity].
        * intros [|i] Hi.
          -- rewrite F by lia. unfold upd. rewrite !N.add_0_r, N.eqb_refl. auto.
          -- replace (nw + N.of_nat (S i)) with (nw + 1 + N.of_nat i) by lia. rewrite VV by lia. unfold upd. destruct (N.eqb_spec (o + 1 + N.of_nat i) nw) as [E|].
             ++ exfalso. apply (Ho (S i)); [lia|]. replace (o + N.of_nat (S i)) with nw by lia. auto.
             ++ f_equal. lia. }
  destruct (c x) as [vx|] eqn:Ex; [|congruence]. pose proof (Hnew n ltac:(lia)) as Hn0.
  assert (E1 : means undef (MoveNew (new + N.of_nat n) x) c = Some (upd (upd c (new + N.of_nat n) (Some vx)) x (Some undef))) by (cbn; now rewrite Hn0, Ex).
  destruct (step_holds undef _ r c _ H E1) as (r1 & S1 & H1). set (c1 := upd (upd c (new + N.of_nat n) (Some vx)) x (Some undef)) in *.
  assert (C1 : forall b, b <> x -> b <> new + N.of_nat n -> c1 b = c b).
  { intros b A B. unfold c1, upd. destruct (N.eqb_spec b x); [congruence|]. destruct (N.eqb_spec b (new + N.of_nat n)); [congruence|reflexivity]. }
  destruct (K n base new r1 c1 H1) as (r2 & c2 & R2 & H2 & L2 & F2 & V2).
  { intros i Hi. rewrite C1; [auto|lia|]. intros E. apply (Hold i Hi). rewrite E. auto. }
  { intros i Hi. rewrite C1; [apply Hnew; lia| |lia]. intros E. rewrite <- E, Hnew in Ex by lia. discriminate. }
  (* the new memory is not the old *)
  assert (D : forall i j, (i < n)%nat -> (j <= n)%nat -> base + N.of_nat i <> new + N.of_nat j).
  { intros i j Hi Hj E. apply (Hold i Hi). rewrite E. apply Hnew. lia. }
  assert (KD : forall l r, run undef (map Destroy l) (Some r) = Some (Some (fold_left js_delete l r))) by (clear; induction l; intros r; cbn; auto).
  exists (fold_left js_delete (addresses base n) r2). split; [|split].
  - unfold grow_ops. cbn [run]. rewrite S1. assert (RA : forall l1 l2 m m', run undef l1 m = Some m' -> run undef (l1 ++ l2) m = run undef l2 m').
    { clear. induction l1 as [|o l1 IH]; intros l2 m m' E; cbn in *; [now injection E as ->|]. destruct (step undef o m); [eauto|discriminate]. }
    rewrite (RA _ _ _ _ R2). apply KD.
  - assert (G2 : forall b, ~ In b (addresses base n) -> get (fold_left js_delete (addresses base n) r2) b = get r2 b).
    { intros b Hb. rewrite fold_delete_get. destruct (existsb (N.eqb b) (addresses base n)) eqn:Eb; [|reflexivity].
      apply existsb_exists in Eb. destruct Eb as (y & Hy & Ey). apply N.eqb_eq in Ey. now subst. }
    unfold values at 1. replace (S n) with (n + 1)%nat by lia. rewrite addresses_app, map_app. cbn [addresses map]. f_equal.
    + unfold values. apply nth_ext with undef undef; rewrite !map_length, !addresses_length; [reflexivity|]. intros i Hi.
      rewrite !(nth_indep _ undef (get r 0)) at 1 by (now rewrite map_length, addresses_length).
      rewrite (nth_error_nth (map _ (addresses new n)) i _ (map_nth_error _ _ _ (addresses_nth new n i Hi))).
      rewrite (nth_error_nth (map _ (addresses base n)) i _ (map_nth_error _ _ _ (addresses_nth base n i Hi))).
      rewrite G2; [|rewrite addresses_in; intros A; apply (D (N.to_nat (new + N.of_nat i - base)) i); lia].
      pose proof (Hold i Hi) as A. destruct (c (base + N.of_nat i)) as [v|] eqn:Ev; [|congruence]. rewrite (proj1 H _ _ Ev).
      apply (proj1 H2). rewrite V2 by lia. rewrite C1; [exact Ev|lia|]. intros E. now apply (D i n Hi).
    + f_equal. rewrite G2; [|rewrite addresses_in; intros A; apply (D (N.to_nat (new + N.of_nat n - base)) n); lia].
      rewrite (proj1 H _ _ Ex). apply (proj1 H2). rewrite F2 by lia. unfold c1, upd. rewrite N.eqb_refl.
      destruct (N.eqb_spec (new + N.of_nat n) x) as [E|]; [|reflexivity]. rewrite <- E in Ex. congruence.
  - intros i Hi Hin. apply fold_delete_keys in Hin. apply (proj1 Hin). apply addresses_in. lia.
Qed.

(* dropping a connection: exactly the others stay, in order, wherever they were *)
Theorem C66_drop_connection : forall eqb (r : @registry V) base n conn, (conn < base \/ base + N.of_nat n <= conn) ->
  let (r', m) := drop_connection undef eqb r base n conn in
  values undef r' base m = filter (fun v => negb (eqb (get r conn) v)) (values undef r base n) /\ get r' conn = get r conn /\
  forall b, In b (map fst r') -> ~ base <= b < base + N.of_nat n \/ base <= b < base + N.of_nat m.
Proof.
  intros eqb r base n conn Hc. unfold drop_connection, erase_if.
  destruct (remove_if undef _ r base base n) as [r' e] eqn:E.
  destruct (remove_if_spec undef (eqb (get r conn)) (fun r x => eqb (get r conn) (get r x)) conn base (base + N.of_nat n) Hc n r r base base r' e) as (A & B & C & D & F & G); auto; try lia.
  { intros r1 x Er. cbn in Er. now rewrite Er. }
  set (m := N.to_nat (e - base)) in *. split; [|split].
  - rewrite <- F. unfold values. apply map_ext_in. intros b Hb. apply addresses_in in Hb. rewrite fold_delete_get.
    destruct (existsb (N.eqb b) (addresses e (n - m))) eqn:Eb; [|reflexivity]. apply existsb_exists in Eb. destruct Eb as (y & Hy & Ey).
    apply N.eqb_eq in Ey. subst y. apply addresses_in in Hy. lia.
  - rewrite fold_delete_get. destruct (existsb (N.eqb conn) (addresses e (n - m))) eqn:Eb; [|auto]. apply existsb_exists in Eb.
    destruct Eb as (y & Hy & Ey). apply N.eqb_eq in Ey. subst y. apply addresses_in in Hy. lia.
  - intros b Hb. apply fold_delete_keys in Hb. destruct Hb as [Hb _]. rewrite addresses_in in Hb. lia.
Qed.

(* without init even an object that is created and destroyed makes JavaScript throw *)
Theorem C66_uninitialised_refuted : exists l c, means_all undef l (fun _ => None) = Some c /\ run undef l None = None.
Proof. exists [New 1; Destroy 1]. eexists. split; reflexivity. Qed.

(* Exactly: nothing throws if, and only if, init comes before everything but constructors of empty objects; then the objects are variables as well *)
Theorem C66_init_exact : forall l c, means_all undef l (fun _ => None) = Some c ->
  (run undef l None <> None <-> forall l1 o l2, l = l1 ++ o :: l2 -> (exists a, o = New a) \/ In Init (l1 ++ [o])) /\
  (run undef l None <> None -> In Init l -> exists r, run undef l None = Some (Some r) /\
    (forall a v, c a = Some v -> get r a = v) /\ (forall a, In a (map fst r) -> c a <> None)).
Proof.
  intros l c. assert (K : forall l c0, (forall a v, c0 a = Some v -> v = undef) -> means_all undef l c0 = Some c ->
    (run undef l None <> None <-> forall l1 o l2, l = l1 ++ o :: l2 -> (exists a, o = New a) \/ In Init (l1 ++ [o])) /\
    (run undef l None <> None -> In Init l -> exists r, run undef l None = Some (Some r) /\
      (forall a v, c a = Some v -> get r a = v) /\ (forall a, In a (map fst r) -> c a <> None))).
  { clear l. induction l as [|o l IH]; intros c0 H0 E.
    - split; [|intros _ []]. split; [intros _ [|? ?] ? ? X; discriminate X|discriminate].
    - assert (Cases : o = Init \/ (exists a, o = New a) \/ (forall a, o <> New a) /\ o <> Init /\ step undef o None = None).
      { destruct o; auto; try (right; right; split; [intros ? X; discriminate X|split; [discriminate|reflexivity]]). right. left. eauto. }
      destruct Cases as [->|[[a ->]|(Na & Ni & Es)]].
      + cbn [means_all means] in E. destruct (run_holds undef l [] c0 c) as (r & R & H1 & H2 & H3); auto.
        { split; [intros a v Hv; now rewrite (H0 a v Hv)|]. split; [intros a []|constructor]. }
        assert (R' : run undef (Init :: l) None = Some (Some r)) by exact R. rewrite R'. split; [|intros _ _; eauto]. split; [|discriminate].
        intros _ [|x l1] o' l2 X; injection X as <- X; right; now left.
      + cbn [means_all means] in E. destruct (c0 a) eqn:Ea; [discriminate|].
        destruct (IH (upd c0 a (Some undef))) as [A B]; [|exact E|].
        { intros b v. unfold upd. destruct (b =? a); [intros X; now injection X as <-|apply H0]. }
        cbn [run step]. split.
        * rewrite A. split.
          { intros H [|x l1] o' l2 X; injection X as <- X; [left; eauto|]. destruct (H _ _ _ X) as [?|?]; [now left|right; now right]. }
          { intros H l1 o' l2 X. destruct (H (New a :: l1) o' l2) as [?|[X'|?]]; [now rewrite X|now left|discriminate X'|now right]. }
        * intros H [X|HI]; [discriminate X|]. now apply B.
      + cbn [run]. rewrite Es. split; [|congruence]. split; [congruence|]. intros H _.
        destruct (H [] o l eq_refl) as [[a X]|[X|[]]]; [now apply (Na a)|now apply Ni]. }
  intros E. apply (K l (fun _ => None)); [discriminate|exact E].
Qed.

(* an object moved to itself is left undefined *)
Theorem C66_self_move_refuted : forall v, v <> undef -> exists r', run undef [Init; New 1; Transform 1 (fun _ => v); MoveAssign 1 1] None = Some (Some r') /\ get r' 1 <> v.
Proof. intros v Hv. eexists. split; [reflexivity|]. vm_compute. congruence. Qed.
End Props.

(* C67.  The promise is told each thing the routine calls, in order; a routine that calls one callback once settles it once *)
Theorem C67_told_partial : forall V (calls : list (js_call V)) completes pairs t p, make_promise completes calls pairs = Ok (t, p) -> t = calls.
Proof.
  intros V calls completes pairs t p. unfold make_promise. assert (K : forall alive t, pass_on completes alive calls = Ok t -> t = calls).
  { clear. induction calls as [|c calls IH]; intros alive t E; cbn in E; [now injection E|]. destruct alive; [|discriminate].
    destruct (pass_on completes (negb completes) calls) as [t'|] eqn:E'; cbn in E; [|discriminate]. injection E as <-. f_equal. eauto. }
  destruct (pass_on completes true calls) as [t'|] eqn:E; cbn; [|discriminate]. intros X. injection X as <- _. eauto.
Qed.
Theorem C67_safe_iff : forall V (calls : list (js_call V)) pairs, make_promise true calls pairs <> UB <-> (length calls <= 1)%nat.
Proof.
  intros V [|c [|d calls]] pairs; cbn; split; intros; try lia; try discriminate. now exfalso.
Qed.
(* a JavaScript promise ignores all calls but the first; this one goes on with what has been freed *)
Theorem C67_second_call_refuted : exists calls : list (js_call N), make_promise true calls 0 = UB.
Proof. exists [CallResolve 1; CallResolve 2]. reflexivity. Qed.
(* the callbacks are never freed *)
Theorem C67_callbacks_freed_refuted : forall V (calls : list (js_call V)) completes pairs t p, make_promise completes calls pairs = Ok (t, p) -> p = S pairs.
Proof. intros V calls completes pairs t p. unfold make_promise. destruct (pass_on completes true calls); cbn; [|discriminate]. intros E. now injection E. Qed.

(* each captured name is its value, whatever their number, and a C function gets its arguments in order *)
Lemma arg_handles_rev {A} (d : A) l : arg_handles d l (length l) = rev l.
Proof.
  assert (K : forall n, (n <= length l)%nat -> arg_handles d l n = rev (firstn n l)).
  { induction n as [|n IH]; intros Hn; [reflexivity|]. cbn [arg_handles]. rewrite IH by lia.
    rewrite <- (firstn_skipn n l) at 1. rewrite app_nth2; rewrite firstn_length_le by lia; [|lia]. rewrite Nat.sub_diag.
    destruct (skipn n l) as [|x r] eqn:E.
    - apply (f_equal (@length A)) in E. rewrite skipn_length in E. cbn in E. lia.
    - cbn [nth]. assert (firstn (S n) l = firstn n l ++ [x]) as ->.
      { rewrite <- (firstn_skipn n l) at 1. rewrite E. rewrite firstn_app, firstn_length_le by lia. replace (S n - n)%nat with 1%nat by lia.
        rewrite firstn_firstn. replace (Nat.min (S n) n) with n by lia. reflexivity. }
      now rewrite rev_app_distr. }
  rewrite K by lia. now rewrite firstn_all.
Qed.
Theorem C67_captures : forall A B (d res rej : B) (names : list A) vals, length names = length vals ->
  with_capture d res rej names vals = combine names vals.
Proof.
  intros A B d res rej names vals HL. unfold with_capture, collect_js_vals. rewrite arg_handles_rev.
  assert (K : forall (ns : list A) vs pre, length ns = length vs -> init_captures d ns (res :: rej :: rev vs ++ pre) = combine ns vs).
  { induction ns as [|x ns IH]; intros [|v vs] pre H; try discriminate; [reflexivity|]. cbn [init_captures combine rev length em_arg nth] in *. f_equal.
    - f_equal. unfold em_arg. cbn [nth]. rewrite <- app_assoc. injection H as H. rewrite H, <- rev_length, app_nth2 by lia. now rewrite Nat.sub_diag.
    - rewrite <- app_assoc. apply IH. now injection H. }
  specialize (K names vals [] HL). now rewrite app_nil_r in K.
Qed.
Theorem C67_c_function : forall B (d res rej : B) vals, c_func d res rej vals = res :: rej :: vals.
Proof. intros. unfold c_func, collect_js_vals_reverse. rewrite <- (rev_length vals), arg_handles_rev, rev_involutive. reflexivity. Qed.

(* ---- examples ---- *)
Example C66_ex : run 0 [Init; New 10; Transform 10 (fun _ => 7); CopyNew 11 10; Transform 11 (fun x => x + 1); MoveNew 12 10; Destroy 10; New 10] None
  = Some (Some [(11, 8); (12, 7)]).
Proof. vm_compute. reflexivity. Qed.
Example C66_init_exact_ex : run 0 [New 1; New 2; Init; Transform 1 (fun _ => 5); CopyNew 3 1; Destroy 2] None = Some (Some [(1, 5); (3, 5)]) /\ run 0 [New 1; New 2; CopyNew 3 1; Init] None = None.
Proof. split; vm_compute; reflexivity. Qed.
Example C66_ex_drop : drop_connection 0 N.eqb [(1, 5); (2, 9); (3, 6); (4, 5); (77, 5)] 1 4 77 = ([(1, 9); (77, 5); (2, 6)], 2%nat).
Proof. vm_compute. reflexivity. Qed.
Example C66_ex_grow : run 0 (grow_ops 10 20 77 2) (Some [(10, 1); (11, 2); (77, 3)]) = Some (Some [(22, 3); (20, 1); (21, 2)]).
Proof. vm_compute. reflexivity. Qed.
Example C67_ex : with_capture 0 100 101 ["a"%string; "b"%string; "c"%string] [1; 2; 3] = [("a"%string, 1); ("b"%string, 2); ("c"%string, 3)] /\
  c_func 0 100 101 [1; 2; 3] = [100; 101; 1; 2; 3].
Proof. vm_compute. split; reflexivity. Qed.
Example C67_ex_once : make_promise true [CallReject 5] 3 = Ok ([CallReject 5], 4%nat).
Proof. reflexivity. Qed.
Print Assumptions C66_variables.
Print Assumptions C66_no_leak.
Print Assumptions C66_init_again.
Print Assumptions C66_swap.
Print Assumptions C66_vector_grows.
Print Assumptions C66_drop_connection.
Print Assumptions C66_uninitialised_refuted.
Print Assumptions C66_init_exact.
Print Assumptions C66_self_move_refuted.
Print Assumptions C67_told_partial.
Print Assumptions C67_safe_iff.
Print Assumptions C67_second_call_refuted.
Print Assumptions C67_callbacks_freed_refuted.
Print Assumptions C67_captures.
Print Assumptions C67_c_function.
