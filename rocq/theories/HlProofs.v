From Verif Require Import Base HlModel HlSpec.
Open Scope nat_scope.

Definition births (h : list event) : list (nat * nat) := flat_map (fun e => match e with Born i o => [(i, o)] | _ => [] end) h.
Definition rans (h : list event) : list nat := flat_map (fun e => match e with Ran i => [i] | _ => [] end) h.
Definition mortal (e : event) : Prop := match e with Died _ _ | Freed => True | _ => False end.
Fixpoint last_of (h : list event) : nat -> option nat :=
  match h with
  | [] => fun _ => None
  | Born i o :: r => fun j => match last_of r j with Some p => Some p | None => if j =? i then Some o else None end
  | _ :: r => last_of r
  end.

Lemma some_inj {A} (x y : A) : Some x = Some y -> x = y. Proof. congruence. Qed.
Lemma births_app a b : births (a ++ b) = births a ++ births b. Proof. apply flat_map_app. Qed.
Lemma rans_app a b : rans (a ++ b) = rans a ++ rans b. Proof. apply flat_map_app. Qed.

Lemma in_births h i o : In (i, o) (births h) <-> In (Born i o) h.
Proof.
  unfold births. rewrite in_flat_map. split.
  - intros (e & He & Hi). destruct e; cbn in Hi; try contradiction. destruct Hi as [Hi|[]]. injection Hi as -> ->. exact He.
  - intros H. exists (Born i o). split; [exact H|]. left. reflexivity.
Qed.
Lemma in_rans h i : In i (rans h) <-> In (Ran i) h.
Proof.
  unfold rans. rewrite in_flat_map. split.
  - intros (e & He & Hi). destruct e; cbn in Hi; try contradiction. destruct Hi as [->|[]]. exact He.
  - intros H. exists (Ran i). split; [exact H|]. left. reflexivity.
Qed.

Lemma last_of_app a b j : last_of (a ++ b) j = match last_of b j with Some p => Some p | None => last_of a j end.
Proof.
  induction a as [|e a IH]; cbn; [destruct (last_of b j); reflexivity|].
  destruct e; cbn; try exact IH. rewrite IH. destruct (last_of b j); reflexivity.
Qed.
Lemma last_of_plain h e : (forall i o, e <> Born i o) -> forall j, last_of (h ++ [e]) j = last_of h j.
Proof. intros H j. rewrite last_of_app. destruct e; cbn; try reflexivity. exfalso. eapply H. reflexivity. Qed.
Lemma last_of_born h i o j : last_of (h ++ [Born i o]) j = put (last_of h) i o j.
Proof. rewrite last_of_app. unfold put. cbn. destruct (j =? i); reflexivity. Qed.

Lemma last_of_spec h i o : last_of h i = Some o -> exists a b, h = a ++ Born i o :: b /\ forall p, ~ In (Born i p) b.
Proof.
  induction h as [|e h IH]; cbn; [discriminate|]. intros H.
  assert (G : last_of h i = Some o -> exists a b, e :: h = a ++ Born i o :: b /\ forall p, ~ In (Born i p) b).
  { intros E. destruct (IH E) as (a & b & -> & Hn). exists (e :: a), b. split; [reflexivity|exact Hn]. }
  destruct e as [i'|i' o'|i' o'| |]; try (apply G; exact H).
  destruct (last_of h i) eqn:E; [apply G; exact H|].
  destruct (i =? i') eqn:Ei; [|discriminate]. apply Nat.eqb_eq in Ei. subst i'. injection H as ->.
  exists [], h. split; [reflexivity|]. intros p Hp. clear - E Hp.
  induction h as [|e h IH]; [destruct Hp|]. destruct Hp as [->|Hp].
  - cbn in E. rewrite Nat.eqb_refl in E. destruct (last_of h i); discriminate.
  - destruct e as [|a b| | |]; try (exact (IH E Hp)). apply IH; [|exact Hp]. cbn in E. destruct (last_of h i); [discriminate|reflexivity].
Qed.
Lemma last_of_some h i o : In (Born i o) h -> exists p, last_of h i = Some p.
Proof.
  intros H. induction h as [|e h IH]; [destruct H|]. destruct H as [->|H].
  - cbn. destruct (last_of h i) as [p|]; [exists p; reflexivity|]. rewrite Nat.eqb_refl. exists o. reflexivity.
  - destruct (IH H) as [p E]. destruct e as [|a b| | |]; try (exists p; exact E). exists p. cbn. rewrite E. reflexivity.
Qed.

(* ---- deaths ---- *)

Lemma in_deaths n f i o : In (Died i o) (deaths n f) <-> i < n /\ f i = Some o.
Proof.
  unfold deaths. rewrite in_flat_map. split.
  - intros (j & Hj & H). apply in_rev, in_seq in Hj. destruct (f j) as [p|] eqn:E; [|destruct H].
    destruct H as [H|[]]. injection H as -> ->. split; [lia|exact E].
  - intros [Hi E]. exists i. split; [apply in_rev; rewrite rev_involutive; apply in_seq; lia|]. rewrite E. left. reflexivity.
Qed.
Lemma deaths_died n f e : In e (deaths n f) -> exists i o, e = Died i o.
Proof.
  unfold deaths. rewrite in_flat_map. intros (j & _ & H). destruct (f j) as [p|]; [|destruct H]. destruct H as [<-|[]]. eexists _, _. reflexivity.
Qed.
Lemma deaths_S n f : deaths (S n) f = match f n with Some o => [Died n o] | None => [] end ++ deaths n f.
Proof. unfold deaths. rewrite seq_S. cbn [Nat.add]. rewrite rev_app_distr. reflexivity. Qed.
Lemma deaths_order n f a i o b j p : deaths n f = a ++ Died i o :: b -> In (Died j p) b -> j < i.
Proof.
  revert a. induction n as [|n IH]; intros a E Hb; [destruct a; discriminate|].
  rewrite deaths_S in E. destruct (f n) as [q|] eqn:Ef; [|exact (IH a E Hb)].
  destruct a as [|x a]; cbn in E.
  - injection E as -> -> E. rewrite <- E in Hb. apply in_deaths in Hb. lia.
  - injection E as _ E. exact (IH a E Hb).
Qed.
Lemma deaths_once n f a i o b : deaths n f = a ++ Died i o :: b -> ~ In (Died i o) a /\ ~ In (Died i o) b.
Proof.
  intros E. split; intros H.
  - apply in_split in H as (a1 & a2 & ->). rewrite <- app_assoc in E. cbn in E.
    assert (i < i); [|lia]. eapply (deaths_order n f a1 i o _ i o E). apply in_or_app. right. left. reflexivity.
  - assert (i < i); [|lia]. eapply deaths_order; eassumption.
Qed.
Lemma no_births_deaths n f : births (deaths n f ++ [Freed]) = [].
Proof.
  rewrite births_app. cbn. rewrite app_nil_r. unfold births.
  assert (forall e, In e (deaths n f) -> exists i o, e = Died i o) by apply deaths_died.
  induction (deaths n f) as [|e d IH]; [reflexivity|]. cbn. destruct (H e (or_introl eq_refl)) as (i & o & ->). cbn. apply IH.
  intros e' He. apply H. right. exact He.
Qed.

(* ---- the invariant ---- *)

Record Inv (l : list stage) (c : cfg) (h : list event) : Prop := {
  i_immortal : forall e, In e h -> ~ mortal e;
  i_serial : map snd (births h) = seq 0 (serial c);
  i_range : forall i o, In (Born i o) h -> i < length l;
  i_frames : forall i cs, In (Made i cs) (stack c) -> i < length l;
  i_alive : alive c = true -> hist c = h /\ forall j, holds c j = last_of h j;
  i_dead : alive c = false -> hist c = h ++ deaths (length l) (last_of h) ++ [Freed] /\ forall j, holds c j = None
}.

Lemma deaths_ext n f g : (forall j, f j = g j) -> deaths n f = deaths n g.
Proof. intros H. unfold deaths. apply flat_map_ext. intros j. rewrite H. reflexivity. Qed.

Lemma inv_free l c h : Inv l c h -> alive c = true -> Inv l (free (length l) c) h.
Proof.
  intros [H1 H2 H3 H4 H5 H6] Ha. destruct (H5 Ha) as [Eh Ef]. constructor; cbn; try assumption; try discriminate.
  intros _. split; [|reflexivity]. rewrite Eh, (deaths_ext _ _ _ Ef). reflexivity.
Qed.

(* events that neither make nor destroy an object *)
Definition plain (e : event) : Prop := match e with Ran _ | Restart => True | _ => False end.
Lemma inv_plain l c h e st po :
  Inv l c h -> alive c = true -> plain e -> (forall i cs, In (Made i cs) st -> i < length l) ->
  Inv l (mk_cfg st po (alive c) (holds c) (serial c) (hist c ++ [e])) (h ++ [e]).
Proof.
  intros [H1 H2 H3 H4 H5 H6] Ha He Hs. destruct (H5 Ha) as [Eh Ef]. constructor; cbn.
  - intros e' H. apply in_app_or in H as [H|[<-|[]]]; [apply H1; exact H|]. destruct e; cbn in *; tauto.
  - rewrite births_app, map_app, H2. destruct e; cbn in *; try contradiction; apply app_nil_r.
  - intros i o H. apply in_app_or in H as [H|[E|[]]]; [exact (H3 _ _ H)|]. subst e. destruct He.
  - exact Hs.
  - intros _. rewrite Eh. split; [reflexivity|]. intros j. rewrite Ef. symmetry. apply last_of_plain. intros i o ->. exact He.
  - rewrite Ha. discriminate.
Qed.
Lemma inv_same l c h st po :
  Inv l c h -> (forall i cs, In (Made i cs) st -> i < length l) -> Inv l (mk_cfg st po (alive c) (holds c) (serial c) (hist c)) h.
Proof. intros [H1 H2 H3 H4 H5 H6] Hs. constructor; cbn; assumption. Qed.

Lemma frames_calls i ks j cs : In (Made j cs) (map (Call i) ks) -> False.
Proof. intros H. apply in_map_iff in H as (k & E & _). discriminate. Qed.

Lemma inv_call m l c h i k : Inv l c h -> alive c = true -> exists h', Inv l (call_stage m l c i k) h'.
Proof.
  intros HI Ha. unfold call_stage. pose proof (i_frames _ _ _ HI) as Hf.
  assert (Hpass : forall k', exists h', Inv l (pass c i k') h').
  { intros k'. exists h. apply inv_same; [exact HI|]. intros j cs [E|H]; [discriminate|eauto]. }
  destruct (nth_error l i) as [[p|p|]|] eqn:E.
  - destruct k; try apply Hpass. exists (h ++ [Ran i]). cbv zeta. unfold ran. eapply inv_plain; try eassumption; [exact I|].
    intros j cs H. apply in_app_or in H as [H|H]; [destruct (frames_calls _ _ _ _ H)|exact (Hf _ _ H)].
  - destruct k; try apply Hpass. exists (h ++ [Ran i]). cbv zeta. unfold ran. eapply inv_plain; try eassumption; [exact I|].
    intros j cs H. apply in_app_or in H as [H|H]; [|exact (Hf _ _ H)]. apply in_app_or in H as [H|[H|[]]]; [destruct (frames_calls _ _ _ _ H)|].
    injection H as <- _. apply nth_error_Some. rewrite E. discriminate.
  - destruct k; apply Hpass.
  - destruct m, k; cbn [end_call]; try (exists h; exact HI); try (exists h; apply inv_free; assumption).
    exists (h ++ [Restart]). eapply inv_plain; try eassumption; [exact I|]. intros j cs [H|H]; [discriminate|exact (Hf _ _ H)].
Qed.

Lemma inv_made l c h i cs : Inv l c h -> alive c = true -> i < length l -> Inv l (made c i cs) (h ++ [Born i (serial c)]).
Proof.
  intros [H1 H2 H3 H4 H5 H6] Ha Hi. destruct (H5 Ha) as [Eh Ef]. constructor; cbn.
  - intros e' H. apply in_app_or in H as [H|[<-|[]]]; [apply H1; exact H|]. cbn. tauto.
  - rewrite births_app, map_app, H2. change (0 :: seq 1 (serial c)) with (seq 0 (S (serial c))). rewrite seq_S. reflexivity.
  - intros j o H. apply in_app_or in H as [H|[E|[]]]; [exact (H3 _ _ H)|]. injection E as <- _. exact Hi.
  - exact H4.
  - intros _. rewrite Eh. split; [reflexivity|]. intros j. rewrite last_of_born. unfold put. destruct (j =? i); [reflexivity|apply Ef].
  - rewrite Ha. discriminate.
Qed.

Lemma inv_settle m l c h : Inv l c h -> Inv l (settle m (length l) c) h.
Proof. intros H. unfold settle. destruct m, (stack c), (alive c) eqn:E; try exact H. apply inv_free; assumption. Qed.

Lemma inv_deliver m l c h f c' : Inv l c h -> (forall i cs, f = Made i cs -> i < length l) -> deliver m l c f = Running c' -> exists h', Inv l c' h'.
Proof.
  intros HI Hf E. destruct f as [i k|i cs|i o]; cbn in E.
  - destruct (alive c) eqn:Ha; [|discriminate]. injection E as <-. destruct (inv_call m l c h i k HI Ha) as [h' H]. exists h'. apply inv_settle. exact H.
  - destruct (alive c) eqn:Ha; [|discriminate]. injection E as <-. exists (h ++ [Born i (serial c)]). apply inv_settle, inv_made; eauto.
  - injection E as <-. exists h. exact HI.
Qed.

Lemma inv_step m l c h lb c' : Inv l c h -> step m l c lb = Some (Running c') -> exists h', Inv l c' h'.
Proof.
  intros HI E. destruct lb as [|n]; cbn -[deliver] in E.
  - destruct (stack c) as [|f r] eqn:Es; [discriminate|]. apply some_inj in E.
    refine (inv_deliver m l _ h f c' _ _ E).
    + apply inv_same; [exact HI|]. intros i cs H. apply (i_frames _ _ _ HI i cs). rewrite Es. right. exact H.
    + intros i cs ->. apply (i_frames _ _ _ HI i cs). rewrite Es. left. reflexivity.
  - destruct (stack c) as [|f r] eqn:Es; [|discriminate].
    destruct (nth_error (pool c) n) as [[[[j o]|] [i k]]|]; [| |discriminate].
    + destruct (dead (hist c) j o); [discriminate|]. destruct (alive c) eqn:Ha; cbn [negb] in E; [|discriminate].
      destruct (match holds c j with Some p => p =? o | None => false end); [|discriminate]. apply some_inj in E.
      rewrite <- Ha in E. refine (inv_deliver m l _ h (Call i k) c' _ _ E); [|discriminate].
      apply inv_same; [exact HI|]. intros i' cs [H|[]]; discriminate.
    + apply some_inj in E. refine (inv_deliver m l _ h (Call i k) c' _ _ E); [|discriminate]. apply inv_same; [exact HI|]. intros i' cs [].
Qed.

Lemma exec_cons m l o lb r c : exec m l o (lb :: r) = Some (Running c) -> exists c0 o', o = Running c0 /\ step m l c0 lb = Some o' /\ exec m l o' r = Some (Running c).
Proof. cbn. destruct o as [c0| |]; try discriminate. destruct (step m l c0 lb) eqn:E; [|discriminate]. intros H. eauto. Qed.

Lemma inv_exec m l : forall ls c h c', Inv l c h -> exec m l (Running c) ls = Some (Running c') -> exists h', Inv l c' h'.
Proof.
  induction ls as [|lb r IH]; intros c h c' HI E; [injection E as <-; exists h; exact HI|].
  cbn in E. destruct (step m l c lb) as [[c1| |]|] eqn:Es; try discriminate; try (destruct r; discriminate).
  destruct (inv_step _ _ _ _ _ _ HI Es) as [h1 H1]. exact (IH _ _ _ H1 E).
Qed.
Lemma inv_start l : Inv l start [].
Proof.
  constructor; cbn; try tauto; try discriminate. intros i cs [H|[]]. discriminate.
Qed.
Theorem reach_inv m l ls c : exec m l (Running start) ls = Some (Running c) -> exists h, Inv l c h.
Proof. apply inv_exec with (h := []). apply inv_start. Qed.

(* an object is born only once *)
Lemma born_once h n i o j a b : map snd (births h) = seq 0 n -> h = a ++ Born i o :: b -> ~ In (Born j o) a /\ ~ In (Born j o) b.
Proof.
  intros E ->. change (Born i o :: b) with ([Born i o] ++ b) in E. rewrite !births_app, !map_app in E. cbn [births flat_map map snd app] in E.
  assert (N : NoDup (map snd (births a) ++ o :: map snd (births b))) by (assert (X := seq_NoDup n 0); rewrite <- E in X; exact X).
  apply NoDup_remove_2 in N. split; intros H; apply in_births in H; apply N, in_or_app; [left|right]; apply in_map_iff; exists (j, o); split; auto.
Qed.

Lemma app_split {A} (a b p q : list A) x : a ++ b = p ++ x :: q -> (exists r, a = p ++ x :: r /\ q = r ++ b) \/ (exists r, p = a ++ r /\ b = r ++ x :: q).
Proof.
  revert p. induction a as [|y a IH]; intros p E.
  - right. exists p. split; [reflexivity|exact E].
  - destruct p as [|z p]; cbn in E.
    + injection E as -> E. left. exists a. split; [reflexivity|symmetry; exact E].
    + injection E as -> E. destruct (IH p E) as [(r & -> & ->)|(r & -> & ->)]; [left|right]; exists r; split; reflexivity.
Qed.

(* ---- stages called once ---- *)

Definition pos (f : frame) : list nat := match f with Call i _ => [i] | Made i cs => map (fun _ => S i) cs | Back _ _ => [] end.
Definition tokens (c : cfg) : list nat := flat_map pos (stack c) ++ map (fun e => fst (snd e)) (pool c).

(* how often the stage has made or is about to make an object *)
Definition mades (i : nat) (st : list frame) : nat := length (filter (fun f => match f with Made j _ => j =? i | _ => false end) st).
Definition born_at (i : nat) (h : list event) : nat := length (filter (fun e => match e with Born j _ => j =? i | _ => false end) h).
Definition ran_at (i : nat) (h : list event) : nat := length (filter (fun e => match e with Ran j => j =? i | _ => false end) h).

Arguments born_at : simpl never. Arguments ran_at : simpl never. Arguments mades : simpl never.
Lemma born_at_app i a b : born_at i (a ++ b) = born_at i a + born_at i b.
Proof. unfold born_at. rewrite filter_app, app_length. reflexivity. Qed.
Lemma ran_at_app i a b : ran_at i (a ++ b) = ran_at i a + ran_at i b.
Proof. unfold ran_at. rewrite filter_app, app_length. reflexivity. Qed.
Lemma mades_app i a b : mades i (a ++ b) = mades i a + mades i b.
Proof. unfold mades. rewrite filter_app, app_length. reflexivity. Qed.
Lemma mades_calls i j ks : mades i (map (Call j) ks) = 0.
Proof. unfold mades. induction ks; [reflexivity|]. cbn. exact IHks. Qed.
Lemma born_at_deaths i n f : born_at i (deaths n f ++ [Freed]) = 0.
Proof.
  rewrite born_at_app. unfold born_at at 2. cbn. rewrite Nat.add_0_r. unfold born_at. pose proof (deaths_died n f) as H.
  induction (deaths n f) as [|e d IH]; [reflexivity|]. destruct (H e (or_introl eq_refl)) as (a & b & ->). cbn. apply IH. intros x Hx. apply H. right. exact Hx.
Qed.
Lemma ran_at_deaths i n f : ran_at i (deaths n f ++ [Freed]) = 0.
Proof.
  rewrite ran_at_app. unfold ran_at at 2. cbn. rewrite Nat.add_0_r. unfold ran_at. pose proof (deaths_died n f) as H.
  induction (deaths n f) as [|e d IH]; [reflexivity|]. destruct (H e (or_introl eq_refl)) as (a & b & ->). cbn. apply IH. intros x Hx. apply H. right. exact Hx.
Qed.

Definition Count (c : cfg) : Prop := forall i, born_at i (hist c) + mades i (stack c) <= ran_at i (hist c).

Lemma count_free n c : Count c -> Count (free n c).
Proof. intros H i. specialize (H i). cbn. rewrite born_at_app, ran_at_app, born_at_deaths, ran_at_deaths. lia. Qed.
Lemma count_settle m n c : Count c -> Count (settle m n c).
Proof. intros H. unfold settle. destruct m, (stack c), (alive c); try exact H. apply count_free. exact H. Qed.
Lemma count_call m l c i k : Count c -> Count (call_stage m l c i k).
Proof.
  intros H. assert (Hp : forall k', Count (pass c i k')) by (intros k' j; specialize (H j); cbn; exact H).
  unfold call_stage. destruct (nth_error l i) as [[p|p|]|].
  - destruct k; try apply Hp. intros j. specialize (H j). cbn. rewrite born_at_app, ran_at_app, mades_app, mades_calls. unfold born_at, ran_at, mades in *. cbn. lia.
  - destruct k; try apply Hp. intros j. specialize (H j). cbn. rewrite born_at_app, ran_at_app, !mades_app, mades_calls. unfold born_at, ran_at, mades in *. cbn.
    destruct (i =? j) eqn:E; cbn; lia.
  - destruct k; apply Hp.
  - destruct m, k; cbn [end_call]; try exact H; try (apply count_free; exact H).
    intros j. specialize (H j). cbn. rewrite born_at_app, ran_at_app. unfold born_at, ran_at, mades in *. cbn. lia.
Qed.
Lemma count_step m l c lb c' : Count c -> step m l c lb = Some (Running c') -> Count c'.
Proof.
  intros H E.
  assert (D : forall f r po, (forall i, born_at i (hist c) + mades i (f :: r) <= ran_at i (hist c)) ->
             deliver m l (mk_cfg r po (alive c) (holds c) (serial c) (hist c)) f = Running c' -> Count c').
  { intros f r po Hc Ed. destruct f as [i k|i cs|i o]; cbn in Ed.
    - destruct (alive c); [|discriminate]. injection Ed as <-. apply count_settle, count_call. exact Hc.
    - destruct (alive c); [|discriminate]. injection Ed as <-. apply count_settle. intros j. specialize (Hc j). cbn. rewrite born_at_app, ran_at_app.
      unfold mades, born_at, ran_at in *. cbn in *. destruct (i =? j); cbn in *; lia.
    - injection Ed as <-. intros j. specialize (Hc j). cbn. unfold mades in *. cbn in Hc. exact Hc. }
  destruct lb as [|n]; cbn -[deliver] in E.
  - destruct (stack c) as [|f r] eqn:Es; [discriminate|]. apply some_inj in E. refine (D f r _ _ E). intros i. specialize (H i). rewrite Es in H. exact H.
  - destruct (stack c) as [|f r] eqn:Es; [|discriminate]. assert (H0 : forall i, born_at i (hist c) <= ran_at i (hist c)) by (intros i; specialize (H i); lia).
    destruct (nth_error (pool c) n) as [[[[j o]|] [i k]]|]; [| |discriminate].
    + destruct (dead (hist c) j o); [discriminate|]. destruct (alive c) eqn:Ha; cbn [negb] in E; [|discriminate].
      destruct (match holds c j with Some p => p =? o | None => false end); [|discriminate]. apply some_inj in E. refine (D _ _ _ _ E).
      intros i'. specialize (H0 i'). unfold mades. cbn. lia.
    + apply some_inj in E. refine (D _ _ _ _ E). intros i'. specialize (H0 i'). unfold mades. cbn. lia.
Qed.
Lemma count_exec m l : forall ls c c', Count c -> exec m l (Running c) ls = Some (Running c') -> Count c'.
Proof.
  induction ls as [|lb r IH]; intros c c' H E; [injection E as <-; exact H|].
  cbn in E. destruct (step m l c lb) as [[c1| |]|] eqn:Es; try discriminate; try (destruct r; discriminate).
  exact (IH _ _ (count_step _ _ _ _ _ H Es) E).
Qed.
Lemma count_start : Count start. Proof. intros i. cbn. apply le_n. Qed.

Lemma ran_at_before i h : ran_at i h >= 2 -> Before h (Ran i) (Ran i).
Proof.
  unfold ran_at. intros H.
  induction h as [|e h IH]; [cbn in H; lia|].
  assert (G : length (filter (fun e => match e with Ran j => j =? i | _ => false end) h) >= 2 -> Before (e :: h) (Ran i) (Ran i)).
  { intros G. destruct (IH G) as (a & b & c & ->). exists (e :: a), b, c. reflexivity. }
  destruct e as [j|j o|j o| |]; try (apply G; exact H). cbn in H. destruct (j =? i) eqn:E; [|apply G; exact H]. apply Nat.eqb_eq in E. subst j.
  cbn in H. assert (G' : exists x, In x (filter (fun e => match e with Ran j => j =? i | _ => false end) h)).
  { destruct (filter _ h) as [|x t]; [cbn in H; lia|]. exists x. left. reflexivity. }
  destruct G' as [x Hx]. apply filter_In in Hx as [Hx Hb]. destruct x as [j| | | |]; try discriminate. apply Nat.eqb_eq in Hb. subst j.
  apply in_split in Hx as (b & c & ->). exists [], b, c. reflexivity.
Qed.
Lemma before_born_at i o o' h : Before h (Born i o) (Born i o') -> born_at i h >= 2.
Proof.
  intros (a & b & c & ->). change (Born i o :: b ++ Born i o' :: c) with ([Born i o] ++ b ++ [Born i o'] ++ c).
  rewrite !born_at_app. unfold born_at. cbn. rewrite Nat.eqb_refl. cbn. lia.
Qed.

(* ---- stages which call their resolver once ---- *)

Definition Token (c : cfg) : Prop :=
  length (tokens c) <= 1 /\ (forall p j, In p (tokens c) -> In (Ran j) (hist c) -> j < p) /\ (forall i, ~ Before (hist c) (Ran i) (Ran i)).

Lemma split_calls a : length (now_calls a) + length (later_calls a) = length a.
Proof. unfold now_calls, later_calls. induction a as [|[k|k] a IH]; cbn; lia. Qed.

Lemma pos_calls i ks : flat_map pos (map (Call i) ks) = map (fun _ => i) ks.
Proof. induction ks as [|k ks IH]; [reflexivity|]. cbn. rewrite IH. reflexivity. Qed.

Lemma before_snoc h e i : ~ In (Ran i) h \/ e <> Ran i -> ~ Before h (Ran i) (Ran i) -> ~ Before (h ++ [e]) (Ran i) (Ran i).
Proof.
  intros He Hn (a & b & c & E). change (Ran i :: b ++ Ran i :: c) with ([Ran i] ++ b ++ Ran i :: c) in E. rewrite !app_assoc in E.
  apply app_split in E as [(r & E & ->)|(r & E & E2)].
  - apply Hn. exists a, b, r. rewrite E, <- !app_assoc. reflexivity.
  - destruct r as [|x [|y r]]; try discriminate. injection E2 as -> _. rewrite app_nil_r in E. destruct He as [He|He]; [|apply He; reflexivity].
    apply He. rewrite <- E. apply in_or_app. left. apply in_or_app. right. left. reflexivity.
Qed.
Lemma before_dead h n f i : ~ Before h (Ran i) (Ran i) -> ~ Before (h ++ deaths n f ++ [Freed]) (Ran i) (Ran i).
Proof.
  intros Hn (a & b & c & E). apply Hn.
  assert (Hd : ~ In (Ran i) (deaths n f ++ [Freed])).
  { intros H. apply in_app_or in H as [H|[H|[]]]; [|discriminate]. apply deaths_died in H as (x & y & H). discriminate. }
  change (Ran i :: b ++ Ran i :: c) with ([Ran i] ++ b ++ Ran i :: c) in E. rewrite !app_assoc in E. rewrite <- app_assoc in E.
  apply app_split in E as [(r & E & _)|(r & _ & E)].
  - exists a, b, r. rewrite E, <- !app_assoc. reflexivity.
  - exfalso. apply Hd. rewrite E. apply in_or_app. right. left. reflexivity.
Qed.
Lemma ran_dead h n f i : In (Ran i) (h ++ deaths n f ++ [Freed]) -> In (Ran i) h.
Proof.
  intros H. apply in_app_or in H as [H|H]; [exact H|]. apply in_app_or in H as [H|[H|[]]]; [|discriminate]. apply deaths_died in H as (x & y & H). discriminate.
Qed.

Lemma token_free n c : Token c -> Token (free n c).
Proof.
  intros (H1 & H2 & H3). split; [exact H1|]. split.
  - intros p j Hp Hj. cbn in Hj. apply ran_dead in Hj. exact (H2 p j Hp Hj).
  - intros i. cbn. apply before_dead, H3.
Qed.
Lemma token_settle m n c : Token c -> Token (settle m n c).
Proof. intros H. unfold settle. destruct m, (stack c), (alive c); try exact H. apply token_free. exact H. Qed.

(* the token is the call that is made *)
Lemma token_ran c i q fs po : Token (mk_cfg (Call i Resolve :: stack c) (pool c) (alive c) (holds c) (serial c) (hist c)) ->
  length (flat_map pos fs ++ map (fun e : option (nat * nat) * (nat * call) => fst (snd e)) po) <= 1 ->
  (forall p, In p (flat_map pos fs ++ map (fun e : option (nat * nat) * (nat * call) => fst (snd e)) po) -> p = S i) ->
  Token (mk_cfg (fs ++ stack c) (pool c ++ po) (alive c) (holds c) q (hist c ++ [Ran i])).
Proof.
  intros (H1 & H2 & H3) L P. unfold tokens in *. cbn in *. rewrite app_length in *.
  assert (Z1 : flat_map pos (stack c) = []) by (destruct (flat_map pos (stack c)); [reflexivity|cbn in H1; lia]).
  assert (Z2 : map (fun e : option (nat * nat) * (nat * call) => fst (snd e)) (pool c) = []) by (destruct (map _ (pool c)); [reflexivity|cbn in H1; lia]).
  assert (Et : flat_map pos (fs ++ stack c) ++ map (fun e : option (nat * nat) * (nat * call) => fst (snd e)) (pool c ++ po)
             = flat_map pos fs ++ map (fun e : option (nat * nat) * (nat * call) => fst (snd e)) po).
  { rewrite flat_map_app, map_app, Z1, Z2, app_nil_r. reflexivity. }
  unfold Token, tokens. cbn. rewrite Et. split; [rewrite app_length; exact L|]. split.
  - intros p j Hp Hj. apply P in Hp. subst p. apply in_app_or in Hj as [Hj|[Hj|[]]].
    + assert (j < i) by (apply H2; [left; reflexivity|exact Hj]). lia.
    + injection Hj as ->. lia.
  - intros j. apply before_snoc; [|apply H3]. destruct (Nat.eq_dec j i) as [->|Hne]; [left|right; congruence].
    intros Hj. assert (i < i) by (apply H2; [left; reflexivity|exact Hj]). lia.
Qed.

Lemma token_call m l c i k : m <> Loop -> Forall Single l ->
  Token (mk_cfg (Call i k :: stack c) (pool c) (alive c) (holds c) (serial c) (hist c)) -> Token (call_stage m l c i k).
Proof.
  intros Hm Hs HT.
  assert (Hp : forall k', Token (pass c i k')).
  { intros k'. destruct HT as (H1 & H2 & H3). split; [|split; [|exact H3]]; unfold tokens in *; cbn in *; [exact H1|].
    intros p j [<-|Hp] Hj; [|apply H2; [right; exact Hp|exact Hj]]. assert (j < i) by (apply H2; [left; reflexivity|exact Hj]). lia. }
  unfold call_stage. destruct (nth_error l i) as [s|] eqn:E.
  - assert (Hs1 : Single s) by (rewrite Forall_forall in Hs; eapply Hs, nth_error_In; exact E). specialize (Hs1 (hist c)).
    destruct s as [p|p|].
    + destruct k; try apply Hp. cbn in Hs1. cbv zeta. rewrite <- (split_calls (p (hist c))) in Hs1. unfold ran. apply token_ran; [exact HT| |].
      * rewrite pos_calls, map_map, app_length, !map_length. exact Hs1.
      * intros q Hq. rewrite pos_calls, map_map in Hq. apply in_app_or in Hq as [Hq|Hq]; apply in_map_iff in Hq as (x & <- & _); reflexivity.
    + destruct k; try apply Hp. cbn in Hs1. cbv zeta. rewrite <- (split_calls (p (hist c))) in Hs1. unfold ran. apply token_ran; [exact HT| |].
      * cbn [map]. rewrite app_nil_r, flat_map_app, pos_calls. cbn. rewrite app_nil_r, app_length, !map_length. exact Hs1.
      * intros q Hq. cbn [map] in Hq. rewrite app_nil_r, flat_map_app, pos_calls in Hq. cbn in Hq. rewrite app_nil_r in Hq.
        apply in_app_or in Hq as [Hq|Hq]; apply in_map_iff in Hq as (x & <- & _); reflexivity.
    + destruct k; apply Hp.
  - assert (Hc : Token c).
    { destruct HT as (H1 & H2 & H3). unfold tokens in *. cbn in *. split; [unfold tokens; lia|]. split; [|exact H3]. intros p j Hq. apply H2. right. exact Hq. }
    destruct m, k; cbn [end_call]; try exact Hc; try (apply token_free; exact Hc); exfalso; apply Hm; reflexivity.
Qed.

Lemma nth_split_pool {A} (l : list A) n x : nth_error l n = Some x -> exists a b, l = a ++ x :: b /\ remove_nth n l = a ++ b.
Proof.
  intros H. apply nth_error_split in H as (a & b & -> & <-). exists a, b. split; [reflexivity|]. unfold remove_nth.
  rewrite firstn_app, Nat.sub_diag, firstn_all, app_nil_r. cbn [firstn]. f_equal.
  rewrite skipn_app, skipn_all2 by lia. replace (S (length a) - length a) with 1 by lia. reflexivity.
Qed.

Lemma token_step m l c lb c' : m <> Loop -> Forall Single l -> Token c -> step m l c lb = Some (Running c') -> Token c'.
Proof.
  intros Hm Hs H E.
  assert (D : forall f r po, Token (mk_cfg (f :: r) po (alive c) (holds c) (serial c) (hist c)) ->
             deliver m l (mk_cfg r po (alive c) (holds c) (serial c) (hist c)) f = Running c' -> Token c').
  { intros f r po Hc Ed. destruct f as [i k|i cs|i o]; cbn in Ed.
    - destruct (alive c); [|discriminate]. injection Ed as <-. apply token_settle, token_call; assumption.
    - destruct (alive c); [|discriminate]. injection Ed as <-. apply token_settle. destruct Hc as (H1 & H2 & H3). unfold Token, tokens in *. cbn in *.
      rewrite map_app, map_map in *. cbn. rewrite !app_length in *. rewrite !map_length in *. split; [lia|]. split.
      + intros p j Hp Hj. assert (Hj' : In (Ran j) (hist c)) by (apply in_app_or in Hj as [Hj|[Hj|[]]]; [exact Hj|discriminate]). apply H2; [|exact Hj'].
        apply in_app_or in Hp as [Hp|Hp]; [apply in_or_app; left; apply in_or_app; right; exact Hp|]. apply in_app_or in Hp as [Hp|Hp]; [apply in_or_app; right; exact Hp|].
        apply in_or_app; left; apply in_or_app; left; exact Hp.
      + intros j. apply before_snoc; [right; discriminate|apply H3].
    - injection Ed as <-. exact Hc. }
  destruct lb as [|n]; cbn -[deliver] in E.
  - destruct (stack c) as [|f r] eqn:Es; [discriminate|]. apply some_inj in E. refine (D f r _ _ E). destruct H as (H1 & H2 & H3). unfold Token, tokens in *. cbn. rewrite Es in *. auto.
  - destruct (stack c) as [|f r] eqn:Es; [|discriminate].
    destruct (nth_error (pool c) n) as [[ow [i k]]|] eqn:En; [|discriminate].
    destruct (nth_split_pool _ _ _ En) as (a & b & Ep & Er). rewrite Er in E.
    assert (T : forall fs, flat_map pos fs = [] -> Token (mk_cfg (Call i k :: fs) (a ++ b) (alive c) (holds c) (serial c) (hist c))).
    { intros fs Ef. destruct H as (H1 & H2 & H3). unfold Token, tokens in *. cbn. rewrite Es, Ep in *. cbn in *. rewrite Ef. cbn. rewrite map_app in *. cbn in *. rewrite app_length in *. cbn in *. split; [lia|].
      split; [|exact H3]. intros p j [<-|Hp]; apply H2; apply in_or_app; [right; left; reflexivity|]. apply in_app_or in Hp as [Hp|Hp]; [left|right; right]; exact Hp. }
    destruct ow as [[j o]|].
    + destruct (dead (hist c) j o); [discriminate|]. destruct (alive c) eqn:Ha; cbn [negb] in E; [|discriminate].
      destruct (match holds c j with Some p => p =? o | None => false end); [|discriminate]. apply some_inj in E. refine (D _ _ _ _ E). apply T. reflexivity.
    + apply some_inj in E. refine (D _ _ _ _ E). apply T. reflexivity.
Qed.
Lemma token_exec m l : m <> Loop -> Forall Single l -> forall ls c c', Token c -> exec m l (Running c) ls = Some (Running c') -> Token c'.
Proof.
  intros Hm Hs. induction ls as [|lb r IH]; intros c c' H E; [injection E as <-; exact H|].
  cbn in E. destruct (step m l c lb) as [[c1| |]|] eqn:Es; try discriminate; try (destruct r; discriminate).
  exact (IH _ _ (token_step _ _ _ _ _ Hm Hs H Es) E).
Qed.
Lemma token_start : Token start.
Proof. split; [cbn; lia|]. split; [intros p j _ []|]. intros i (a & b & c & E). cbn in E. destruct a; discriminate. Qed.

(* ---- no undefined behaviour ---- *)

Definition back (f : frame) : Prop := match f with Back _ _ => True | _ => False end.

Record Calm (m : mode) (c : cfg) : Prop := {
  k_shape : exists bs, Forall back bs /\
    ((stack c = bs /\ length (pool c) <= 1) \/
     (exists i k, stack c = Call i k :: bs /\ pool c = [] /\ alive c = true) \/
     (exists i cs, stack c = Made i cs :: bs /\ pool c = [] /\ length cs <= 1 /\ alive c = true));
  k_owner : alive c = true -> forall j o t, In (Some (j, o), t) (pool c) -> holds c j = Some o;
  k_free : alive c = false -> forall w t, In (w, t) (pool c) -> exists j o, w = Some (j, o) /\ In (Died j o) (hist c);
  k_sync : m = Sync -> forall t, ~ In (None, t) (pool c)
}.

Lemma calm_free m l c h : Inv l c h -> alive c = true -> Calm m c -> (m = Sync \/ pool c = []) -> (forall i k bs, stack c <> Call i k :: bs) -> (forall i k bs, stack c <> Made i k :: bs) -> Calm m (free (length l) c).
Proof.
  intros HI Ha [H1 H2 H3 H4] Hp N1 N2. destruct (i_alive _ _ _ HI Ha) as [Eh Ef]. constructor; cbn.
  - destruct H1 as (bs & Hb & [H|[(i & k & E & _)|(i & k & E & _)]]); [exists bs; split; [exact Hb|left; exact H]| |]; exfalso; [eapply N1|eapply N2]; exact E.
  - discriminate.
  - intros _ w t Hw. destruct Hp as [->|Hp]; [|rewrite Hp in Hw; destruct Hw].
    destruct w as [[j o]|]; [|destruct (H4 eq_refl t Hw)]. exists j, o. split; [reflexivity|].
    apply in_or_app. right. apply in_or_app. left. apply in_deaths. pose proof (H2 Ha j o t Hw) as Eo. split; [|exact Eo].
    rewrite Ef in Eo. apply last_of_spec in Eo as (a & b & E & _). apply (i_range _ _ _ HI j o). rewrite E. apply in_or_app. right. left. reflexivity.
  - exact H4.
Qed.

Lemma calm_settle m l c h : Inv l c h -> Calm m c -> Calm m (settle m (length l) c).
Proof.
  intros HI H. unfold settle. destruct m; try exact H. destruct (stack c) eqn:Es; [|exact H]. destruct (alive c) eqn:Ha; [|exact H].
  eapply calm_free; eauto; try (intros; rewrite Es; discriminate).
Qed.

Lemma now_none (p : list event -> list act) h : (forall k, ~ In (Now k) (p h)) -> now_calls (p h) = [].
Proof. intros H. unfold now_calls. induction (p h) as [|[k|k] a IH]; [reflexivity| |]; [destruct (H k (or_introl eq_refl))|]. cbn. apply IH. intros k' Hk. apply (H k'). right. exact Hk. Qed.
Lemma later_none (p : list event -> list act) h : (forall k, ~ In (Later k) (p h)) -> later_calls (p h) = [].
Proof. intros H. unfold later_calls. induction (p h) as [|[k|k] a IH]; [reflexivity| |]; [|destruct (H k (or_introl eq_refl))]. cbn. apply IH. intros k' Hk. apply (H k'). right. exact Hk. Qed.

Section Calm.
Variables (m : mode) (l : list stage).
Hypothesis Hsingle : Forall Single l.
Hypothesis Hpatient : Forall Patient l.
Hypothesis Hprompt : m = Sync -> Forall Prompt l.

Lemma calm_call c i k h : Inv l c h -> alive c = true -> pool c = [] -> Forall back (stack c) -> Calm m (call_stage m l c i k).
Proof.
  intros HI Ha Hp Hb.
  assert (P : forall k', Calm m (pass c i k')).
  { intros k'. constructor; cbn.
    - exists (stack c). split; [exact Hb|]. right. left. eauto.
    - intros _ j o t H. rewrite Hp in H. destruct H.
    - rewrite Ha. discriminate.
    - intros _ t H. rewrite Hp in H. destruct H. }
  unfold call_stage. destruct (nth_error l i) as [s|] eqn:E.
  - pose proof (nth_error_In _ _ E) as Hin.
    assert (S1 : Single s) by (rewrite Forall_forall in Hsingle; auto). assert (S2 : Patient s) by (rewrite Forall_forall in Hpatient; auto).
    assert (S3 : m = Sync -> Prompt s) by (intros Em; specialize (Hprompt Em); rewrite Forall_forall in Hprompt; auto).
    specialize (S1 (hist c)). destruct s as [p|p|].
    + destruct k; try apply P. cbn in S1, S3. cbv zeta. rewrite <- (split_calls (p (hist c))) in S1. unfold ran. rewrite Hp. cbn [app].
      constructor; cbn.
      * exists (stack c). split; [exact Hb|]. destruct (now_calls (p (hist c))) as [|k1 [|k2 ks]]; cbn in S1; [|right; left|exfalso; lia].
        -- left. split; [reflexivity|]. rewrite map_length. exact S1.
        -- exists (S i), k1. destruct (later_calls (p (hist c))); [|cbn in S1; lia]. auto.
      * intros _ j o t H. apply in_map_iff in H as (x & H & _). discriminate.
      * rewrite Ha. discriminate.
      * intros Em t H. rewrite (later_none p) in H by (intros k'; apply (S3 Em)). destruct H.
    + destruct k; try apply P. cbn in S1, S2. cbv zeta. rewrite <- (split_calls (p (hist c))) in S1. unfold ran. rewrite (now_none p) in * by (intros k'; apply S2).
      cbn [map app length] in *. rewrite Hp. constructor; cbn.
      * exists (stack c). split; [exact Hb|]. right. right. exists i, (later_calls (p (hist c))). auto.
      * intros _ j o t [].
      * rewrite Ha. discriminate.
      * intros _ t [].
    + destruct k; apply P.
  - assert (Hc : Calm m c).
    { constructor.
      - exists (stack c). split; [exact Hb|]. left. rewrite Hp. split; [reflexivity|cbn; lia].
      - intros _ j o t H. rewrite Hp in H. destruct H.
      - rewrite Ha. discriminate.
      - intros _ t H. rewrite Hp in H. destruct H. }
    assert (Hf : Calm m (free (length l) c)).
    { eapply calm_free; eauto; intros i0 k0 bs Es; rewrite Es in Hb; inversion Hb as [|? ? X]; exact X. }
    clear P. destruct m, k; cbn [end_call]; try exact Hc; try exact Hf.
    constructor; cbn.
    * exists (stack c). split; [exact Hb|]. right. left. eauto.
    * intros _ j o t H. rewrite Hp in H. destruct H.
    * rewrite Ha. discriminate.
    * intros _ t H. rewrite Hp in H. destruct H.
Qed.

Lemma calm_made c i cs : alive c = true -> pool c = [] -> Forall back (stack c) -> length cs <= 1 -> Calm m (made c i cs).
Proof.
  intros Ha Hp Hb Hc. unfold made. constructor; cbn; rewrite ?Hp; cbn [app].
  - exists (stack c). split; [exact Hb|]. left. rewrite map_length. auto.
  - intros _ j o t H. apply in_map_iff in H as (x & H & _). injection H as <- <- _. unfold put. rewrite Nat.eqb_refl. reflexivity.
  - rewrite Ha. discriminate.
  - intros _ t H. apply in_map_iff in H as (x & H & _). discriminate.
Qed.

Lemma calm_step c lb o h : Inv l c h -> Calm m c -> step m l c lb = Some o -> exists c', o = Running c' /\ Calm m c'.
Proof.
  intros HI HC E. pose proof HC as [(bs & Hb & Hsh) Ho Hf Hs].
  destruct lb as [|n]; cbn -[deliver] in E.
  - destruct (stack c) as [|f r] eqn:Es; [discriminate|]. injection E as <-.
    destruct Hsh as [[Ebs Hlen]|[(i & k & Ebs & Hp & Ha)|(i & cs & Ebs & Hp & Hcs & Ha)]].
    + subst bs. inversion Hb as [|? ? Hf1 Hb1]; subst. destruct f as [| |i0 o0]; try destruct Hf1.
      cbn. eexists. split; [reflexivity|]. constructor; cbn; try assumption. exists r. auto.
    + injection Ebs as -> ->. cbn. rewrite Ha. eexists. split; [reflexivity|].
      assert (HI' : Inv l (mk_cfg bs (pool c) true (holds c) (serial c) (hist c)) h).
      { rewrite <- Ha. apply inv_same; [exact HI|]. intros i0 cs H. apply (i_frames _ _ _ HI i0 cs). rewrite Es. right. exact H. }
      destruct (inv_call m l _ h i k HI' eq_refl) as [h' HI2]. eapply calm_settle; [exact HI2|]. eapply calm_call; eauto.
    + injection Ebs as -> ->. cbn. rewrite Ha. eexists. split; [reflexivity|].
      assert (HI' : Inv l (mk_cfg bs (pool c) true (holds c) (serial c) (hist c)) h).
      { rewrite <- Ha. apply inv_same; [exact HI|]. intros i0 cs0 H. apply (i_frames _ _ _ HI i0 cs0). rewrite Es. right. exact H. }
      eapply calm_settle; [apply (inv_made _ _ _ i cs HI')|apply calm_made; auto]; [reflexivity|].
      apply (i_frames _ _ _ HI i cs). rewrite Es. left. reflexivity.
  - destruct (stack c) as [|f r] eqn:Es; [|discriminate].
    destruct (nth_error (pool c) n) as [[ow [i k]]|] eqn:En; [|discriminate].
    pose proof (nth_error_In _ _ En) as Hin.
    assert (Hlen : length (pool c) <= 1) by (destruct Hsh as [[_ Hl]|[(? & ? & X & _)|(? & ? & X & _)]]; [exact Hl|discriminate|discriminate]).
    assert (Hrem : remove_nth n (pool c) = []).
    { destruct (nth_split_pool _ _ _ En) as (a & b & Ep & ->). rewrite Ep, app_length in Hlen. cbn in Hlen. destruct a, b; cbn in Hlen; try lia. reflexivity. }
    rewrite Hrem in E.
    assert (D : alive c = true -> forall fs, Forall back fs -> (forall i cs, In (Made i cs) fs -> i < length l) -> exists c',
      deliver m l (mk_cfg fs [] true (holds c) (serial c) (hist c)) (Call i k) = Running c' /\ Calm m c').
    { intros Ha fs Hfs Hfr. cbn. eexists. split; [reflexivity|].
      assert (HI' : Inv l (mk_cfg fs [] true (holds c) (serial c) (hist c)) h) by (rewrite <- Ha; apply inv_same; assumption).
      destruct (inv_call m l _ h i k HI' eq_refl) as [h' HI2]. eapply calm_settle; [exact HI2|]. eapply calm_call; eauto. }
    destruct ow as [[j p]|].
    + destruct (dead (hist c) j p) eqn:Ed; [discriminate|]. destruct (alive c) eqn:Ha; cbn [negb] in E.
      * rewrite (Ho eq_refl _ _ _ Hin), Nat.eqb_refl in E. injection E as <-. apply D; auto; [repeat constructor|]. intros i0 cs [X|[]]. discriminate.
      * exfalso. destruct (Hf eq_refl _ _ Hin) as (j' & p' & X & Hd). injection X as <- <-.
        assert (dead (hist c) j p = true); [|congruence]. apply existsb_exists. exists (Died j p). split; [exact Hd|]. rewrite !Nat.eqb_refl. reflexivity.
    + destruct (alive c) eqn:Ha.
      * injection E as <-. apply D; auto. intros i0 cs [].
      * exfalso. destruct (Hf eq_refl _ _ Hin) as (j' & p' & X & _). discriminate.
Qed.

Lemma calm_exec : forall ls c h o, Inv l c h -> Calm m c -> exec m l (Running c) ls = Some o -> exists c', o = Running c'.
Proof.
  induction ls as [|lb r IH]; intros c h o HI HC E; [injection E as <-; eauto|].
  cbn in E. destruct (step m l c lb) as [o1|] eqn:Es; [|discriminate].
  destruct (calm_step _ _ _ _ HI HC Es) as (c1 & -> & HC1). destruct (inv_step _ _ _ _ _ _ HI Es) as [h1 HI1]. exact (IH _ _ _ HI1 HC1 E).
Qed.
Lemma calm_start : Calm m start.
Proof.
  constructor; cbn; try tauto; try discriminate. exists []. split; [constructor|]. right. left. exists 0, Resolve. auto.
Qed.
End Calm.

(* ---- joining ---- *)

Section Join.
Variable F : Type.
Variable moved : F -> F.
Fixpoint pipe_ind' (P : pipe F -> Prop) (H1 : forall f, P (One f)) (H2 : forall f, P (Held f)) (H3 : forall l, Forall P l -> P (Pipe l)) (p : pipe F) : P p :=
  match p with
  | One f => H1 f | Held f => H2 f
  | Pipe l => H3 l ((fix go l : Forall P l := match l with [] => Forall_nil _ | q :: r => Forall_cons q (pipe_ind' P H1 H2 H3 q) (go r) end) l)
  end.
Definition worn (x : bool * F) : bool * F := if fst x then (true, moved (snd x)) else x.
Lemma join_spec p : forall next, snd (join F moved p next) = functions p ++ next /\ functions (fst (join F moved p next)) = map worn (functions p).
Proof.
  induction p as [f|f|l IH] using pipe_ind'; intros next; [split; reflexivity|split; reflexivity|]. cbn.
  assert (E : snd (joins F (join F moved) next l) = flat_map functions l ++ next /\
              flat_map functions (fst (joins F (join F moved) next l)) = map worn (flat_map functions l)).
  { induction l as [|q r IHl]; [split; reflexivity|]. inversion IH as [|? ? Hq Hr]; subst. destruct (IHl Hr) as [E1 E2].
    cbn. fold (joins F (join F moved) next r). destruct (joins F (join F moved) next r) as [r' x]. cbn in E1, E2. subst x.
    destruct (Hq (flat_map functions r ++ next)) as [E3 E4]. destruct (join F moved q _) as [q' y]. cbn in *. subst y.
    rewrite <- app_assoc, map_app, E2, E4. split; reflexivity. }
  destruct (joins F (join F moved) next l) as [l' x]. exact E.
Qed.
Lemma runs_spec n : forall p k, k < n -> nth_error (runs F moved n p) k = Some (map (fun x : bool * F => if fst x then (true, Nat.iter k moved (snd x)) else x) (functions p)).
Proof.
  induction n as [|n IH]; intros p k Hk; [lia|]. cbn. unfold run_sync. destruct (join_spec p []) as [E1 E2].
  destruct (join F moved p []) as [p' r]. cbn in E1, E2. rewrite app_nil_r in E1. subst r. destruct k as [|k]; cbn.
  - f_equal. rewrite <- map_id at 1. apply map_ext. intros [[] f]; reflexivity.
  - rewrite IH by lia. f_equal. rewrite E2, map_map. apply map_ext. intros [[] f]; [|reflexivity]. cbn.
    f_equal. clear. change (Nat.iter k moved (moved f) = moved (Nat.iter k moved f)). induction k as [|k IH]; [reflexivity|]. change (moved (Nat.iter k moved (moved f)) = moved (moved (Nat.iter k moved f))). rewrite IH. reflexivity.
Qed.
Lemma runs_length n : forall p, length (runs F moved n p) = n.
Proof. induction n as [|n IH]; intros p; [reflexivity|]. cbn. destruct (run_sync F moved p) as [p' r]. cbn. rewrite IH. reflexivity. Qed.
End Join.

(* ---- a stage that never resolves ---- *)

Section Unresolved.
Variables (m : mode) (l : list stage) (i : nat) (P : call -> Prop).
Hypothesis Hi : i < length l.
Hypothesis HP : P Reject.
Hypothesis HR : ~ P Resolve.
Hypothesis HC : In Catch l -> P Terminate.
Hypothesis HS : forall s, nth_error l i = Some s -> s <> Catch /\ forall h k, In (Now k) (plan s h) \/ In (Later k) (plan s h) -> P k.
Hypothesis HT : forall j s h k, j < i -> nth_error l j = Some s -> In (Now k) (plan s h) \/ In (Later k) (plan s h) -> k <> Resolve -> P k.

Definition fine (j : nat) (k : call) : Prop := k = Resolve /\ j <= i \/ P k.
Definition fine_frame (f : frame) : Prop := match f with Call j k => fine j k | Made j cs => forall k, In k cs -> fine (S j) k | Back _ _ => True end.
Record Stopped (c : cfg) : Prop := {
  s_stack : Forall fine_frame (stack c);
  s_pool : Forall (fun e => fine (fst (snd e)) (snd (snd e))) (pool c);
  s_ran : forall j, i < j -> ~ In (Ran j) (hist c);
  s_alive : ~ P Terminate -> m <> Sync -> alive c = true
}.

Lemma in_now a k : In k (now_calls a) -> In (Now k) a.
Proof. intros H. apply in_flat_map in H as ([x|x] & H1 & H2); [|]; cbn in H2; intuition (subst; auto). Qed.
Lemma in_later a k : In k (later_calls a) -> In (Later k) a.
Proof. intros H. apply in_flat_map in H as ([x|x] & H1 & H2); [|]; cbn in H2; intuition (subst; auto). Qed.

(* a stage that runs calls what follows it *)
Lemma fine_next j s h k : fine j Resolve -> nth_error l j = Some s -> In (Now k) (plan s h) \/ In (Later k) (plan s h) -> fine (S j) k.
Proof.
  intros [[_ Hj]|X] E Hk; [|destruct (HR X)]. apply Nat.lt_eq_cases in Hj as [Hj| ->].
  - destruct k; [left; split; [reflexivity|exact Hj]| |]; right; apply (HT j s h _ Hj E Hk); discriminate.
  - right. destruct (HS s E) as [_ H]. eapply H, Hk.
Qed.

Lemma stopped_free n c : Stopped c -> (~ P Terminate -> m <> Sync -> False) -> Stopped (free n c).
Proof.
  intros [H1 H2 H3 H4] Hn. constructor; cbn; [exact H1|exact H2| |].
  - intros j Hj H. apply ran_dead in H. exact (H3 j Hj H).
  - intros A B. destruct (Hn A B).
Qed.

Lemma stopped_settle n c : Stopped c -> Stopped (settle m n c).
Proof.
  intros H. assert (D : settle m n c = c \/ (m = Sync /\ settle m n c = free n c)).
  { unfold settle. destruct m; auto. destruct (stack c); auto. destruct (alive c); auto. }
  destruct D as [ ->|[Em ->]]; [exact H|]. apply stopped_free; [exact H|congruence].
Qed.

Lemma stopped_call c j k : Stopped c -> fine j k -> Stopped (call_stage m l c j k).
Proof.
  intros H Hf. unfold call_stage. destruct (nth_error l j) as [s|] eqn:E.
  - assert (Hpass : forall k', fine (S j) k' -> Stopped (pass c j k')).
    { intros k' Hk'. destruct H as [H1 H2 H3 H4]. constructor; cbn; auto. }
    assert (Hsame : k <> Resolve -> Stopped (pass c j k)).
    { intros Hk. apply Hpass. destruct Hf as [[X _]|X]; [destruct (Hk X)|right; exact X]. }
    assert (Hran : forall fs cs, (k = Resolve) -> Forall fine_frame fs -> (forall k', In k' cs -> fine (S j) k') -> Stopped (ran c j fs cs)).
    { intros fs cs -> Hfs Hcs. destruct Hf as [[_ Hj]|X]; [|destruct (HR X)]. destruct H as [H1 H2 H3 H4]. constructor; cbn; auto.
      - apply Forall_app. split; assumption.
      - apply Forall_app. split; [assumption|]. apply Forall_forall. intros e He. apply in_map_iff in He as (k' & <- & Hk'). apply Hcs, Hk'.
      - intros q Hq Hin. apply in_app_or in Hin as [Hin|[Hin|[]]]; [exact (H3 q Hq Hin)|]. injection Hin as <-. lia. }
    destruct s as [p|p|], k; try (apply Hsame; discriminate).
    + apply Hran; [reflexivity| |].
      * apply Forall_forall. intros f Hin. apply in_map_iff in Hin as (k' & <- & Hk'). apply (fine_next j _ (hist c) k' Hf E). left. apply in_now, Hk'.
      * intros k' Hk'. apply (fine_next j _ (hist c) k' Hf E). right. apply in_later, Hk'.
    + apply Hran; [reflexivity| |intros k' []]. apply Forall_app. split.
      * apply Forall_forall. intros f Hin. apply in_map_iff in Hin as (k' & <- & Hk'). apply (fine_next j _ (hist c) k' Hf E). left. apply in_now, Hk'.
      * constructor; [|constructor]. intros k' Hk'. apply (fine_next j _ (hist c) k' Hf E). right. apply in_later, Hk'.
    + destruct Hf as [[_ Hj]|X]; [|destruct (HR X)]. apply Hpass. left. split; [reflexivity|]. apply Nat.lt_eq_cases in Hj as [Hj| ->]; [exact Hj|].
      destruct (HS _ E) as [N1 _]. destruct (N1 eq_refl).
    + apply Hpass. right. apply HC. eapply nth_error_In, E.
  - assert (X : P k). { destruct Hf as [[_ Hj]|X]; [|exact X]. exfalso. apply nth_error_None in E. lia. }
    assert (D : end_call m (length l) c k = c \/ (k = Terminate /\ end_call m (length l) c k = free (length l) c)).
    { unfold end_call. destruct m, k; auto; destruct (HR X). }
    destruct D as [ ->|[-> ->]]; [exact H|]. apply stopped_free; [exact H|]. intros N1 _. exact (N1 X).
Qed.

Lemma stopped_step c lb c' : Stopped c -> step m l c lb = Some (Running c') -> Stopped c'.
Proof.
  intros H E.
  assert (D : forall f r po, Stopped (mk_cfg r po (alive c) (holds c) (serial c) (hist c)) -> fine_frame f ->
             deliver m l (mk_cfg r po (alive c) (holds c) (serial c) (hist c)) f = Running c' -> Stopped c').
  { intros f r po Hc Hf Ed. destruct f as [j k|j cs|j o]; cbn [deliver alive] in Ed.
    - destruct (alive c) eqn:Ea; [|discriminate]. injection Ed as <-. apply stopped_settle, stopped_call; assumption.
    - destruct (alive c) eqn:Ea; [|discriminate]. injection Ed as <-. apply stopped_settle. destruct Hc as [H1 H2 H3 H4]. constructor; cbn in *; auto.
      + apply Forall_app. split; [assumption|]. apply Forall_forall. intros e He. apply in_map_iff in He as (k & <- & Hk). apply Hf, Hk.
      + intros q Hq Hin. apply in_app_or in Hin as [Hin|[Hin|[]]]; [exact (H3 q Hq Hin)|discriminate].
    - injection Ed as <-. exact Hc. }
  assert (Re : forall r po, Forall fine_frame r -> Forall (fun e => fine (fst (snd e)) (snd (snd e))) po -> Stopped (mk_cfg r po (alive c) (holds c) (serial c) (hist c))).
  { intros r po Hr Hp. destruct H as [H1 H2 H3 H4]. constructor; assumption. }
  destruct H as [H1 H2 H3 H4]. destruct lb as [|n]; cbn -[deliver] in E.
  - destruct (stack c) as [|f r] eqn:Es; [discriminate|]. apply some_inj in E. inversion H1; subst. exact (D f r _ (Re r _ ltac:(assumption) H2) ltac:(assumption) E).
  - destruct (stack c) as [|f r] eqn:Es; [|discriminate]. destruct (nth_error (pool c) n) as [[ow [j k]]|] eqn:Ep; [|discriminate].
    destruct (nth_split_pool _ _ _ Ep) as (a & b & Ep1 & Ep2). rewrite Ep2 in E. rewrite Ep1 in H2. apply Forall_app in H2 as [Ha Hb].
    pose proof (Forall_inv Hb) as Hf. cbn in Hf. apply Forall_inv_tail in Hb. assert (Hab : Forall (fun e => fine (fst (snd e)) (snd (snd e))) (a ++ b)) by (apply Forall_app; auto).
    destruct ow as [[q o]|].
    + destruct (dead (hist c) q o); [discriminate|]. destruct (negb (alive c)); [discriminate|]. destruct (match holds c q with Some p => p =? o | None => false end); [|discriminate].
      apply some_inj in E. refine (D (Call j k) _ _ (Re [Back q o] _ _ Hab) Hf E). constructor; [exact I|constructor].
    + apply some_inj in E. exact (D (Call j k) _ _ (Re [] _ (Forall_nil _) Hab) Hf E).
Qed.

Lemma stopped_exec : forall ls c c', Stopped c -> exec m l (Running c) ls = Some (Running c') -> Stopped c'.
Proof.
  induction ls as [|lb ls IH]; intros c c' H E.
  - injection E as <-. exact H.
  - apply exec_cons in E as (c0 & o' & E0 & Es & E). injection E0 as <-. destruct o'; try (destruct ls; discriminate). eapply IH; [|exact E]. eapply stopped_step; eauto.
Qed.

Lemma stopped_start : Stopped start.
Proof. constructor; cbn; auto. constructor; [|constructor]. left. split; [reflexivity|lia]. Qed.
End Unresolved.

(* ---- run_sync ---- *)

Record InCall (c : cfg) : Prop := { k_alive : alive c = false <-> stack c = []; k_back : Forall (fun f => ~ back f) (stack c) }.

Lemma incall_settle n c : alive c = true -> Forall (fun f => ~ back f) (stack c) -> InCall (settle Sync n c).
Proof.
  intros Ha Hb. unfold settle. destruct (stack c) eqn:Es; try rewrite Ha.
  - constructor; cbn; rewrite Es; [split; reflexivity|constructor].
  - constructor; rewrite Es; [rewrite Ha; split; discriminate|exact Hb].
Qed.
Lemma incall_call l c i k : alive c = true -> Forall (fun f => ~ back f) (stack c) ->
  alive (call_stage Sync l c i k) = true /\ Forall (fun f => ~ back f) (stack (call_stage Sync l c i k)).
Proof.
  intros Ha Hb. assert (Hm : forall j ks, Forall (fun f => ~ back f) (map (Call j) ks)) by (intros j ks; apply Forall_forall; intros f H X; apply in_map_iff in H as (? & <- & _); exact X).
  assert (Hk : forall f st, (forall j o, f <> Back j o) -> Forall (fun f => ~ back f) st -> Forall (fun f => ~ back f) (f :: st)).
  { intros f st Hf Hs. constructor; [|exact Hs]. destruct f; intros []. exact (Hf _ _ eq_refl). }
  unfold call_stage. destruct (nth_error l i) as [[p|p|]|], k; cbn; split; auto; try (apply Hk; [discriminate|assumption]).
  - apply Forall_app. auto.
  - rewrite <- app_assoc. apply Forall_app. split; [apply Hm|]. apply Hk; [discriminate|assumption].
Qed.

Lemma incall_step l c lb c' : InCall c -> step Sync l c lb = Some (Running c') -> InCall c'.
Proof.
  intros [H Hb] E. destruct lb as [|n]; cbn -[deliver] in E.
  - destruct (stack c) as [|f r] eqn:Es; [discriminate|]. apply some_inj in E.
    assert (Ha : alive c = true). { destruct (alive c); [reflexivity|]. discriminate (proj1 H eq_refl). }
    inversion Hb; subst. destruct f as [i k|i cs|i o]; cbn [deliver alive] in E; rewrite ?Ha in E.
    + injection E as <-. destruct (incall_call l (mk_cfg r (pool c) true (holds c) (serial c) (hist c)) i k) as [X Y]; [reflexivity|assumption|].
      apply incall_settle; assumption.
    + assert (Es' : forall x y : cfg, Running x = Running y -> x = y) by congruence. apply Es' in E. rewrite <- E. apply (incall_settle (length l) (made (mk_cfg r (pool c) true (holds c) (serial c) (hist c)) i cs)); [reflexivity|assumption].
    + exfalso. match goal with H : ~ back _ |- _ => apply H; exact I end.
  - destruct (stack c) as [|f r] eqn:Es; [|discriminate]. assert (Ha : alive c = false) by (apply H; reflexivity).
    destruct (nth_error (pool c) n) as [[[[q o]|] [j k]]|]; [| |discriminate].
    + destruct (dead (hist c) q o); [discriminate|]. rewrite Ha in E. discriminate.
    + cbn [deliver alive] in E. rewrite Ha in E. discriminate.
Qed.

Lemma incall_exec l : forall ls c c', InCall c -> exec Sync l (Running c) ls = Some (Running c') -> InCall c'.
Proof.
  induction ls as [|lb ls IH]; intros c c' H E.
  - injection E as <-. exact H.
  - apply exec_cons in E as (c0 & o' & E0 & Es & E). injection E0 as <-. destruct o'; try (destruct ls; discriminate). eapply IH; [|exact E]. eapply incall_step; eauto.
Qed.
Lemma incall_start : InCall start.
Proof. constructor; cbn; [split; discriminate|]. constructor; [intros []|constructor]. Qed.
