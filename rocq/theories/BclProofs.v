From Verif Require Import Base BclModel BclSpec.
Open Scope nat_scope.

Definition init3 : list (kind * owner) := [(Open, Init); (Error, Init); (Close, Init)].
Definition read3 (n : nat) : list (kind * owner) := [(Error, Read n); (Close, Read n); (Message, Read n)].
Definition reads (p : phase) : list (kind * owner) := match p with Reading n => read3 n | _ => [] end.
Definition bound (b : nat) (s : st) : Prop := forall k, In (Read k) (silent s) -> k < b.

(* the callbacks, the numbers and whether the state lives *)
Definition held (p : phase) (s : st) : Prop :=
  match p with
  | Connecting => ready_cb s = Some Init /\ error_cb s = Some Init /\ alive s = true /\ next s = 0
  | Idle n => alive s = true /\ next s = n
  | Reading n => message_cb s = Some (Read n) /\ error_cb s = Some (Read n) /\ alive s = true /\ next s = S n
  | Ended => alive s = true
  | Gone => True
  end.
Definition behind (p : phase) (s : st) : Prop := match p with Idle n | Reading n => bound n s | _ => True end.
Definition quiet (p : phase) (s : st) : Prop :=
  held p s /\ behind p s /\ listeners s = init3 ++ reads p /\ match p with Connecting => silent s = [] | _ => In Init (silent s) end.
(* while the resolver of [o] runs *)
Definition body (o : owner) (p : phase) (s : st) : Prop :=
  held p s /\ p <> Connecting /\
  match o with
  | Init => listeners s = init3 ++ reads p /\ silent s = [] /\ (forall n, p = Idle n \/ p = Reading n -> n = 0)
  | Read k => listeners s = init3 ++ read3 k ++ reads p /\ In Init (silent s) /\ bound k s /\ (forall n, p = Idle n \/ p = Reading n -> n = S k)
  end.

Definition owners (p : phase) (e : event) : list owner := map snd (filter (fun x => kind_eqb (fst x) (kind_of e)) (init3 ++ reads p)).
Inductive inv (s : st) : phase -> list (owner * outcome) -> Prop :=
| i_quiet p : stack s = [] -> quiet p s -> inv s p (rev (out s))
| i_pending p e os : stack s = [Dispatch e os] -> quiet p s -> os = owners p e \/ (p <> Connecting /\ Init :: os = owners p e) ->
    inv s (after p (Fire e)) (rev (out s) ++ tells p (Fire e))
| i_body o p e : stack s = [Body o; Dispatch e []] -> body o p s -> inv s p (rev (out s))
| i_done p e : stack s = [Dispatch e []] -> quiet p s -> inv s p (rev (out s)).

Lemma owner_eqb_refl o : owner_eqb o o = true. Proof. destruct o; cbn; [reflexivity|apply Nat.eqb_refl]. Qed.
Lemma owner_eqb_true a b : owner_eqb a b = true -> a = b.
Proof. destruct a, b; cbn; intros H; try discriminate; auto. apply Nat.eqb_eq in H. congruence. Qed.
Lemma silent_in o l : existsb (owner_eqb o) l = true <-> In o l.
Proof. rewrite existsb_exists. split; [intros (x & A & B); apply owner_eqb_true in B; congruence|exists o; split; [auto|apply owner_eqb_refl]]. Qed.
Lemma not_silent n s : bound n s -> existsb (owner_eqb (Read n)) (silent s) = false.
Proof. intros B. destruct (existsb _ _) eqn:E; [|reflexivity]. apply silent_in in E. apply B in E. lia. Qed.

Lemma quiet_stack p k s : quiet p s -> quiet p (with_stack k s). Proof. destruct p; intros H; exact H. Qed.

(* a listener of a connection that has opened is not called *)
Lemma skip s e os k : In Init (silent s) -> stack s = Dispatch e (Init :: os) :: k -> step s Tick = Some (Run (with_stack (Dispatch e os :: k) s)).
Proof. intros I E. unfold step. rewrite E. apply silent_in in I. rewrite I. cbn [negb]. now rewrite Bool.andb_false_r. Qed.

Lemma listening_read n e s p : listeners s = init3 ++ reads p -> p = Reading n -> kind_of e <> Open -> listening e (Read n) s = true.
Proof. intros L -> K. unfold listening. rewrite L. destruct e; cbn in *; try congruence; rewrite ?Nat.eqb_refl; reflexivity. Qed.

Lemma unlisten p k : filter (fun x : kind * owner => negb (owner_eqb (snd x) (Read k))) (init3 ++ read3 k ++ reads p) = init3 ++ filter (fun x => negb (owner_eqb (snd x) (Read k))) (reads p).
Proof. rewrite !filter_app. cbn. now rewrite Nat.eqb_refl. Qed.
Lemma unlisten_other p k : p <> Reading k -> filter (fun x : kind * owner => negb (owner_eqb (snd x) (Read k))) (reads p) = reads p.
Proof. destruct p; cbn; intros H; try reflexivity. destruct (Nat.eqb_spec n k); [congruence|reflexivity]. Qed.

Lemma end_body o p s e : stack s = [Body o; Dispatch e []] -> body o p s -> quiet p (with_stack [Dispatch e []] (clean_up o s)).
Proof.
  intros E (H & NC & B). destruct o as [|k].
  - destruct B as (L & S & Z). split; [destruct p; exact H|]. split; [|split].
    + destruct p; cbn; auto; intros k [X|X]; try discriminate; rewrite S in X; contradiction.
    + exact L.
    + destruct p; [congruence|..]; now left.
  - destruct B as (L & I & B & Z). split; [destruct p; exact H|]. split; [|split].
    + destruct p as [|n|n| |]; cbn; auto; (intros j [X|X]; [injection X as <-|apply B in X]); assert (n = Datatypes.S k) by (apply Z; auto); lia.
    + cbn. rewrite L, unlisten, unlisten_other; [reflexivity|]. intros ->. assert (k = Datatypes.S k) by (apply Z; auto). lia.
    + destruct p; [congruence|..]; right; exact I.
Qed.

Lemma start_quiet n s : quiet (Idle n) s -> quiet (Reading n) (start s).
Proof. intros ((A & <-) & B & L & I). split; [cbn; auto|]. split; [exact B|]. split; [|exact I]. cbn. rewrite L. reflexivity. Qed.
Lemma start_body o n s : body o (Idle n) s -> body o (Reading n) (start s).
Proof.
  intros ((A & <-) & NC & B). split; [cbn; auto|]. split; [discriminate|]. destruct o as [|k].
  - destruct B as (L & S & Z). split; [cbn; rewrite L; reflexivity|]. split; [exact S|]. intros m [X|X]; [discriminate|]. injection X as <-. apply Z. auto.
  - destruct B as (L & I & B & Z). split; [cbn; rewrite L; reflexivity|]. split; [exact I|]. split; [exact B|]. intros m [X|X]; [discriminate|]. injection X as <-. apply Z. auto.
Qed.
Lemma destroy_quiet p s : (exists n, p = Idle n) \/ p = Ended -> quiet p s -> quiet Gone (destroy s).
Proof. intros [[n ->]| ->] (A & B & L & I); (split; [exact Logic.I|]; split; [exact Logic.I|]; split; [exact L|exact I]). Qed.
Lemma destroy_body o p s : (exists n, p = Idle n) \/ p = Ended -> body o p s -> body o Gone (destroy s).
Proof.
  intros P (A & _ & B). split; [exact Logic.I|]. split; [discriminate|]. destruct o as [|k].
  - destruct B as (L & S & Z). split; [destruct P as [[n ->]| ->]; exact L|]. split; [exact S|]. intros n [X|X]; discriminate.
  - destruct B as (L & I & B & Z). split; [destruct P as [[n ->]| ->]; exact L|]. split; [exact I|]. split; [exact B|]. intros n [X|X]; discriminate.
Qed.

Lemma tick_pending s p e os c : stack s = [Dispatch e os] -> quiet p s -> os = owners p e \/ (p <> Connecting /\ Init :: os = owners p e) -> step s Tick = Some c ->
  exists s', c = Run s' /\ inv s' (after p (Fire e)) (rev (out s) ++ tells p (Fire e)).
Proof.
  intros E Q O St. assert (T0 : forall x, quiet p x -> out x = out s -> after p (Fire e) = p -> tells p (Fire e) = [] -> stack x = [] \/ (exists e', stack x = [Dispatch e' []]) -> inv x (after p (Fire e)) (rev (out s) ++ tells p (Fire e))).
  { intros x Qx Ox -> -> [Sx|(e' & Sx)]; rewrite app_nil_r, <- Ox; [now apply i_quiet|now apply i_done with (e := e')]. }
  destruct Q as (H & B & L & I). pose proof (conj H (conj B (conj L I)) : quiet p s) as Q.
  destruct p as [|n|n| |].
  - (* connecting *) destruct O as [->|[X _]]; [|congruence]. cbn in I. destruct H as (HR & HE & HA & HN).
    destruct e as [| | |m]; cbn in E; unfold step in St; rewrite E in St.
    + unfold listening in St. rewrite L, I in St. cbn in St. rewrite HR in St. cbn in St. injection St as <-. eexists. split; [reflexivity|]. cbn.
      apply i_body with (s := with_stack [Body Init; Dispatch EOpen []] (said (Init, Ready) s)) (o := Init) (p := Idle 0) (e := EOpen); [reflexivity|]. split; [cbn; auto|]. split; [discriminate|]. split; [exact L|]. split; [exact I|]. intros k [X|X]; [injection X as <-; reflexivity|discriminate].
    + unfold listening in St. rewrite L, I in St. cbn in St. rewrite HE in St. cbn in St. injection St as <-. eexists. split; [reflexivity|]. cbn.
      apply i_body with (s := with_stack [Body Init; Dispatch EError []] (said (Init, Failed EError) s)) (o := Init) (p := Ended) (e := EError); [reflexivity|]. split; [cbn; auto|]. split; [discriminate|]. split; [exact L|]. split; [exact I|]. intros k [X|X]; discriminate.
    + unfold listening in St. rewrite L, I in St. cbn in St. rewrite HE in St. cbn in St. injection St as <-. eexists. split; [reflexivity|]. cbn.
      apply i_body with (s := with_stack [Body Init; Dispatch EClose []] (said (Init, Failed EClose) s)) (o := Init) (p := Ended) (e := EClose); [reflexivity|]. split; [cbn; auto|]. split; [discriminate|]. split; [exact L|]. split; [exact I|]. intros k [X|X]; discriminate.
    + injection St as <-. eexists. split; [reflexivity|]. apply T0; [now apply quiet_stack|reflexivity..|now left].
  - (* idle *) destruct O as [->|[_ O]].
    + destruct e as [| | |m]; cbn in E; try (rewrite (skip s _ [] [] I E) in St; injection St as <-; eexists; split; [reflexivity|]; apply T0; [now apply quiet_stack|reflexivity..|right; eexists; reflexivity]).
      unfold step in St; rewrite E in St. injection St as <-. eexists; split; [reflexivity|]. apply T0; [now apply quiet_stack|reflexivity..|now left].
    + assert (os = []) as -> by (destruct e; cbn in O; congruence). unfold step in St; rewrite E in St. injection St as <-. eexists; split; [reflexivity|]. apply T0; [now apply quiet_stack|now destruct e..|now left].
  - (* reading *) destruct H as (HM & HE & HA & HN). cbn in B. assert (NS := not_silent n s B).
    assert (RD : forall e', (e' = EError \/ e' = EClose) -> e = e' -> os = [Read n] -> exists s', c = Run s' /\ inv s' (after (Reading n) (Fire e)) (rev (out s) ++ tells (Reading n) (Fire e))).
    { intros e' He -> ->. unfold step in St. rewrite E in St. assert (LI : listening e' (Read n) s = true) by (eapply listening_read; [exact L|reflexivity|destruct He; subst; discriminate]).
      rewrite LI, NS in St. cbn in St.
      destruct He; subst e'; cbn in St; rewrite HE in St; cbn in St; rewrite Nat.eqb_refl in St; injection St as <-; eexists; (split; [reflexivity|]); cbn.
      - apply i_body with (s := with_stack [Body (Read n); Dispatch EError []] (said (Read n, Failed EError) s)) (o := Read n) (p := Ended) (e := EError); [reflexivity|]. split; [cbn; auto|]. split; [discriminate|]. split; [exact L|]. split; [exact I|]. split; [exact B|]. intros k [X|X]; discriminate.
      - apply i_body with (s := with_stack [Body (Read n); Dispatch EClose []] (said (Read n, Failed EClose) s)) (o := Read n) (p := Ended) (e := EClose); [reflexivity|]. split; [cbn; auto|]. split; [discriminate|]. split; [exact L|]. split; [exact I|]. split; [exact B|]. intros k [X|X]; discriminate. }
    destruct O as [->|[_ O]].
    + destruct e as [| | |m]; cbn in E.
      * rewrite (skip s _ _ [] I E) in St; injection St as <-; eexists; split; [reflexivity|]; apply T0; [now apply quiet_stack|reflexivity..|right; eexists; reflexivity].
      * rewrite (skip s _ _ [] I E) in St; injection St as <-; eexists; split; [reflexivity|]. eapply (i_pending (with_stack [Dispatch EError [Read n]] s) (Reading n) EError); [reflexivity|now apply quiet_stack|right; split; [discriminate|reflexivity]].
      * rewrite (skip s _ _ [] I E) in St; injection St as <-; eexists; split; [reflexivity|]. eapply (i_pending (with_stack [Dispatch EClose [Read n]] s) (Reading n) EClose); [reflexivity|now apply quiet_stack|right; split; [discriminate|reflexivity]].
      * unfold step in St. rewrite E in St. assert (LI : listening (EMessage m) (Read n) s = true) by (eapply listening_read; [exact L|reflexivity|discriminate]). rewrite LI, NS in St. cbn in St.
        destruct m as [m|]; cbn in St.
        { rewrite HM in St. cbn in St. rewrite Nat.eqb_refl in St. injection St as <-. eexists; split; [reflexivity|]. cbn.
          apply i_body with (s := with_stack [Body (Read n); Dispatch (EMessage (Some m)) []] (said (Read n, Got m) s)) (o := Read n) (p := Idle (S n)) (e := EMessage (Some m)); [reflexivity|]. split; [cbn; auto|]. split; [discriminate|]. split; [exact L|]. split; [exact I|]. split; [exact B|]. intros k [X|X]; [now injection X|discriminate]. }
        { injection St as <-. eexists; split; [reflexivity|]. apply T0; [now apply quiet_stack|reflexivity..|right; eexists; reflexivity]. }
    + destruct e as [| | |m]; cbn in O; try discriminate; injection O as ->.
      * unfold step in St; rewrite E in St. injection St as <-. eexists; split; [reflexivity|]. apply T0; [now apply quiet_stack|reflexivity..|now left].
      * apply (RD EError); auto.
      * apply (RD EClose); auto.
  - (* ended *) destruct O as [->|[_ O]].
    + destruct e as [| | |m]; cbn in E; try (rewrite (skip s _ [] [] I E) in St; injection St as <-; eexists; split; [reflexivity|]; apply T0; [now apply quiet_stack|reflexivity..|right; eexists; reflexivity]).
      unfold step in St; rewrite E in St. injection St as <-. eexists; split; [reflexivity|]. apply T0; [now apply quiet_stack|reflexivity..|now left].
    + assert (os = []) as -> by (destruct e; cbn in O; congruence). unfold step in St; rewrite E in St. injection St as <-. eexists; split; [reflexivity|]. apply T0; [now apply quiet_stack|now destruct e..|now left].
  - destruct O as [->|[_ O]].
    + destruct e as [| | |m]; cbn in E; try (rewrite (skip s _ [] [] I E) in St; injection St as <-; eexists; split; [reflexivity|]; apply T0; [now apply quiet_stack|reflexivity..|right; eexists; reflexivity]).
      unfold step in St; rewrite E in St. injection St as <-. eexists; split; [reflexivity|]. apply T0; [now apply quiet_stack|reflexivity..|now left].
    + assert (os = []) as -> by (destruct e; cbn in O; congruence). unfold step in St; rewrite E in St. injection St as <-. eexists; split; [reflexivity|]. apply T0; [now apply quiet_stack|now destruct e..|now left].
Qed.

Lemma quiet_alive p s : (exists n, p = Idle n) \/ p = Ended -> quiet p s -> alive s = true.
Proof. intros [[n ->]| ->] (H & _); [apply H|exact H]. Qed.
Lemma body_alive o p s : (exists n, p = Idle n) \/ p = Ended -> body o p s -> alive s = true.
Proof. intros [[n ->]| ->] (H & _); [apply H|exact H]. Qed.

Lemma inv_step s p o l c : inv s p o -> allowed p l = true -> step s l = Some c -> exists s', c = Run s' /\ inv s' (after p l) (o ++ tells p l).
Proof.
  intros V A St. destruct l as [e| | |].
  - (* Fire *) unfold step in St. destruct V as [p E Q|p e' os E Q O|o p e' E B|p e' E Q]; rewrite E in St; try discriminate. injection St as <-. eexists. split; [reflexivity|].
    eapply (i_pending (with_stack _ s)); [reflexivity|now apply quiet_stack|]. left. destruct Q as (_ & _ & L & _). now rewrite L.
  - (* Tick *) replace (after p Tick) with p by (destruct p; reflexivity). replace (tells p Tick) with (@nil (owner * outcome)) by (destruct p; reflexivity). rewrite app_nil_r.
    destruct V as [p E Q|p e' os E Q O|o p e' E B|p e' E Q].
    + unfold step in St. rewrite E in St. discriminate.
    + eapply tick_pending; eauto.
    + unfold step in St. rewrite E in St. injection St as <-. eexists. split; [reflexivity|]. eapply (i_done (with_stack [Dispatch e' []] (clean_up o s)) p e'); [reflexivity|]. eapply end_body; eauto.
    + unfold step in St. rewrite E in St. injection St as <-. eexists. split; [reflexivity|]. apply (i_quiet (with_stack [] s)); [reflexivity|now apply quiet_stack].
  - (* Start *) unfold step, in_cpp in St. destruct p as [|n|n| |]; cbn in A; try discriminate. replace (tells (Idle n) Start) with (@nil (owner * outcome)) by reflexivity. rewrite app_nil_r. cbn [after].
    remember (Idle n) as p eqn:EP. destruct V as [p E Q|p e' os E Q O|o p e' E B|p e' E Q]; rewrite E in St; try discriminate; try subst p.
    + assert (alive s = true) as AL by (apply (quiet_alive (Idle n)); eauto). rewrite AL in St. injection St as <-. eexists. split; [reflexivity|]. apply (i_quiet (start s)); [exact E|now apply start_quiet].
    + assert (alive s = true) as AL by (apply (body_alive o (Idle n)); eauto). rewrite AL in St. injection St as <-. eexists. split; [reflexivity|]. apply (i_body (start s) o (Reading n) e'); [exact E|now apply start_body].
  - (* Destroy *) unfold step, in_cpp in St. assert (P : (exists n, p = Idle n) \/ p = Ended) by (destruct p; try discriminate A; eauto).
    replace (after p Destroy) with Gone by (destruct P as [[n ->]| ->]; reflexivity). replace (tells p Destroy) with (@nil (owner * outcome)) by (destruct P as [[n ->]| ->]; reflexivity). rewrite app_nil_r.
    destruct V as [p E Q|p e' os E Q O|o p e' E B|p e' E Q]; rewrite E in St; try discriminate.
    + assert (alive s = true) as AL by (apply (quiet_alive p); auto). rewrite AL in St. injection St as <-. eexists. split; [reflexivity|]. apply (i_quiet (destroy s)); [exact E|now apply (destroy_quiet p)].
    + assert (alive s = true) as AL by (apply (body_alive o p); auto). rewrite AL in St. injection St as <-. eexists. split; [reflexivity|]. apply (i_body (destroy s) o Gone e'); [exact E|now apply (destroy_body o p)].
Qed.

Lemma phase_snoc ls : forall p l, phase_of p (ls ++ [l]) = after (phase_of p ls) l.
Proof. induction ls; intros; cbn; auto. Qed.
Lemma told_snoc ls : forall p l, told p (ls ++ [l]) = told p ls ++ tells (phase_of p ls) l.
Proof. induction ls; intros; cbn; [now rewrite app_nil_r|]. now rewrite IHls, app_assoc. Qed.
Lemma disciplined_snoc ls : forall p l, disciplined p (ls ++ [l]) = disciplined p ls && allowed (phase_of p ls) l.
Proof. induction ls; intros; cbn; [now rewrite Bool.andb_true_r|]. now rewrite IHls, Bool.andb_assoc. Qed.

Lemma exec_inv ls c : exec ls c -> disciplined Connecting ls = true -> exists s, c = Run s /\ inv s (phase_of Connecting ls) (told Connecting ls).
Proof.
  induction 1 as [|ls l s c Ex IH St]; intros D.
  - exists init. split; [reflexivity|]. apply (i_quiet init Connecting); [reflexivity|]. split; [cbn; auto|]. split; [exact Logic.I|]. split; reflexivity.
  - rewrite disciplined_snoc in D. apply andb_prop in D as [D A]. destruct (IH D) as (s' & E & V). injection E as <-. rewrite phase_snoc, told_snoc. eapply inv_step; eauto.
Qed.
