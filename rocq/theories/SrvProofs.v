From Verif Require Import Base JsonModel JsonSpec JsbModel AppModel SrvModel SrvSpec.
Open Scope N_scope.

Section Proofs.
Variables (lenient : list N -> list N) (other_number : jsv -> Z) (like_bytes : list (list N * jsv) -> option (list N)) (parse : list N -> option jsv).
Variables (context : list msg -> msg -> list msg) (sys : shape) (ups downs : list shape).
Notation decode := (decode lenient other_number like_bytes sys ups).
Notation to_doc := (to_doc lenient sys downs).
Notation step := (step lenient other_number like_bytes parse context sys ups downs false).
Notation exec := (exec lenient other_number like_bytes parse context sys ups downs false).

Definition meaning (text : list N) : option msg := match parse text with Some j => match decode j with Accept m => Some m | _ => None end | None => None end.

Lemma to_app c a b : to c (a ++ b) = to c a ++ to c b.
Proof. unfold to. now rewrite filter_app, map_app. Qed.

Lemma sent_each j s cs : NoDup cs -> forall log, exists log', send_each false j s cs log = Some log' /\
  forall c, to c log' = to c log ++ (if existsb (N.eqb c) cs && negb (is_over s c) then [j] else []).
Proof.
  induction 1 as [|x cs NI ND IH]; intros log; cbn [send_each].
  - exists log. split; [reflexivity|]. intros c. cbn. now rewrite app_nil_r.
  - destruct (is_over s x) eqn:O.
    + destruct (IH log) as (log' & E & T). exists log'. split; [exact E|]. intros c. rewrite T. cbn [existsb]. destruct (N.eqb_spec c x) as [->|]; [|reflexivity]. rewrite O, !Bool.andb_false_r. reflexivity.
    + destruct (IH (log ++ [(x, j)])) as (log' & E & T). exists log'. split; [exact E|]. intros c. rewrite T, to_app, <- app_assoc. f_equal. cbn [existsb]. unfold to. cbn [filter fst].
      rewrite (N.eqb_sym x c). destruct (N.eqb_spec c x) as [->|]; [|reflexivity]. rewrite O. cbn [map snd orb andb negb].
      assert (existsb (N.eqb x) cs = false) as ->; [|reflexivity]. destruct (existsb _ _) eqn:X; [|reflexivity]. apply existsb_exists in X as (y & Y & Z). apply N.eqb_eq in Z. subst y. contradiction.
Qed.

Definition inside (c : N) (s : st) : bool := existsb (N.eqb c) (connections s) && negb (is_over s c).
Definition docs (l : list jsv) (ms : list msg) : Prop := Forall2 (fun j m => to_doc m = Ok j) l ms.

Lemma broadcasts_ok ms : forall s c, NoDup (connections s) -> broadcasts lenient sys downs false ms s = c -> c <> Bad ->
  exists s', c = Run s' /\ connections s' = connections s /\ over s' = over s /\ given s' = given s /\
    forall x, exists l, to x (received s') = to x (received s) ++ l /\ docs l (if inside x s then ms else []).
Proof.
  induction ms as [|m ms IH]; intros s c ND E NB; cbn [broadcasts] in E.
  - subst c. exists s. split; [reflexivity|]. repeat split; auto. intros x. exists []. rewrite app_nil_r. split; [reflexivity|]. destruct (inside x s); constructor.
  - unfold broadcast in E. destruct (to_doc m) as [j|] eqn:D; [|subst; congruence]. destruct (sent_each j s (connections s) ND (received s)) as (log & S & T). rewrite S in E.
    destruct (IH {| connections := connections s; over := over s; received := log; given := given s |} c ND E NB) as (s' & -> & C & O & G & R). exists s'. split; [reflexivity|]. split; [exact C|]. split; [exact O|]. split; [exact G|].
    intros x. destruct (R x) as (l & E1 & E2). cbn [received] in E1. rewrite E1, T. change (inside x {| connections := connections s; over := over s; received := log; given := given s |}) with (inside x s) in E2.
    fold (inside x s). destruct (inside x s).
    + exists (j :: l). rewrite <- app_assoc. split; [reflexivity|]. constructor; assumption.
    + exists l. rewrite app_nil_r. split; [reflexivity|]. exact E2.
Qed.

Lemma in_existsb c l : existsb (N.eqb c) l = true <-> In c l.
Proof. rewrite existsb_exists. split; [intros (y & A & B); apply N.eqb_eq in B; now subst|exists c; split; [auto|apply N.eqb_refl]]. Qed.
Lemma inside_drop x c s : inside x (drop_connection c s) = inside x s && negb (c =? x).
Proof.
  unfold inside, is_over, drop_connection. cbn [connections over existsb]. rewrite (N.eqb_sym c x). destruct (N.eqb_spec x c) as [->|NE]; cbn [orb negb]; [now rewrite !Bool.andb_false_r|].
  rewrite Bool.andb_true_r. f_equal. destruct (existsb (N.eqb x) (filter _ _)) eqn:A; destruct (existsb (N.eqb x) (connections s)) eqn:B; auto; exfalso.
  - apply in_existsb in A. apply filter_In in A as [A _]. apply in_existsb in A. congruence.
  - apply in_existsb in B. assert (In x (filter (fun y => negb (y =? c)) (connections s))) as X by (apply filter_In; split; [exact B|]; now destruct (N.eqb_spec x c)). apply in_existsb in X. congruence.
Qed.
Lemma docs_app a b x y : docs a x -> docs b y -> docs (a ++ b) (x ++ y).
Proof. unfold docs. apply Forall2_app. Qed.

Lemma mine_ok ls : forall s c, NoDup (connections s) -> fold_left (fun acc l => match acc with Some (Run s) => step s l | _ => None end) ls (Some (Run s)) = Some c -> c <> Bad -> c <> Crash ->
  exists s', c = Run s' /\ given s' = given s ++ meant meaning ls /\ NoDup (connections s') /\
    forall x, exists l, to x (received s') = to x (received s) ++ l /\ docs l (mine context meaning x (inside x s) (given s) ls).
Proof.
  assert (DEAD : forall ls a, (forall s, a <> Some (Run s)) -> forall c, fold_left (fun acc l => match acc with Some (Run s) => step s l | _ => None end) ls a = Some c -> a = Some c /\ ls = []).
  { clear. intros ls. induction ls as [|l ls IH]; intros a H c E; cbn in E; [auto|]. exfalso. destruct a as [[s| |]|]; [exfalso; eapply H; reflexivity|..]; cbn in E; apply IH in E as [E _]; try discriminate; intros s; discriminate. }
  induction ls as [|l ls IH]; intros s c ND E NB NC; cbn [fold_left] in E.
  - injection E as <-. exists s. cbn [meant]. rewrite app_nil_r. repeat split; auto. intros x. exists []. rewrite app_nil_r. split; [reflexivity|]. constructor.
  - destruct l as [k|k text|k|m]; cbn [step] in E.
    + destruct (existsb (N.eqb k) (connections s) || is_over s k) eqn:G; [apply DEAD in E as [E _]; [discriminate|discriminate]|].
      apply Bool.orb_false_iff in G as [G1 G2]. cbn [fold_left] in E.
      destruct (IH {| connections := connections s ++ [k]; over := over s; received := received s; given := given s |} c) as (s' & -> & A & B & C); [|exact E|exact NB|exact NC|].
      { cbn. apply NoDup_rev in ND. rewrite <- (rev_involutive (connections s ++ [k])). apply NoDup_rev. rewrite rev_app_distr. cbn. constructor; [|exact ND]. rewrite <- in_rev. intros X. apply in_existsb in X. congruence. }
      exists s'. split; [reflexivity|]. split; [exact A|]. split; [exact B|]. intros x. destruct (C x) as (l & C1 & C2). exists l. split; [exact C1|]. cbn [mine].
      replace (inside x s || (k =? x)) with (inside x {| connections := connections s ++ [k]; over := over s; received := received s; given := given s |}); [exact C2|].
      unfold inside, is_over. cbn [connections over]. rewrite existsb_app. cbn [existsb]. rewrite Bool.orb_false_r, (N.eqb_sym k x). destruct (N.eqb_spec x k) as [->|]; [|now rewrite Bool.orb_false_r, Bool.orb_false_r].
      unfold is_over in G2. rewrite G1, G2. reflexivity.
    + destruct (existsb (N.eqb k) (connections s) && negb (is_over s k)) eqn:G; [|apply DEAD in E as [E _]; [discriminate|discriminate]].
      destruct (parse text) as [j|] eqn:P; [|apply DEAD in E as [E _]; [congruence|discriminate]]. unfold receive in E. cbn [mine meant]. unfold meaning. rewrite P. fold meaning.
      destruct (decode j) as [m| | |] eqn:D; try (apply DEAD in E as [E _]; [congruence|discriminate]).
      * remember (broadcasts lenient sys downs false (context (given s) m) {| connections := connections s; over := over s; received := received s; given := given s ++ [m] |}) as c1 eqn:E1. symmetry in E1.
        assert (exists s1, c1 = Run s1) as (s1 & ->).
        { destruct c1 as [s1| |]; [eauto|..]; apply DEAD in E as [E _]; try discriminate; congruence. }
        destruct (broadcasts_ok _ {| connections := connections s; over := over s; received := received s; given := given s ++ [m] |} _ ND E1) as (s1' & X & C1 & O1 & G1 & R1); [discriminate|]. injection X as <-.
        destruct (IH s1 c) as (s' & -> & A & B & C); [rewrite C1; exact ND|exact E|exact NB|exact NC|]. exists s'. split; [reflexivity|]. split; [rewrite A, G1; cbn; now rewrite <- app_assoc|]. split; [exact B|].
        intros x. destruct (C x) as (l & L1 & L2). destruct (R1 x) as (l0 & L3 & L4). exists (l0 ++ l). rewrite L1, L3, <- app_assoc. split; [reflexivity|]. cbn [mine].
        change (inside x _) with (inside x s) in L4 at 1. rewrite G1 in L2. cbn [given] in L2. assert (EI : inside x s1 = inside x s) by (unfold inside, is_over; rewrite C1, O1; reflexivity). rewrite EI in L2.
        apply docs_app; [exact L4|exact L2].
      * destruct (IH (drop_connection k s) c) as (s' & -> & A & B & C); [cbn; apply NoDup_filter; exact ND|exact E|exact NB|exact NC|]. exists s'. split; [reflexivity|]. split; [exact A|]. split; [exact B|].
        intros x. destruct (C x) as (l & L1 & L2). exists l. split; [exact L1|]. rewrite inside_drop in L2. exact L2.
    + destruct (existsb (N.eqb k) (connections s) && negb (is_over s k)) eqn:G; [|apply DEAD in E as [E _]; [discriminate|discriminate]].
      destruct (IH {| connections := connections s; over := k :: over s; received := received s; given := given s |} c) as (s' & -> & A & B & C); [exact ND|exact E|exact NB|exact NC|]. exists s'. split; [reflexivity|]. split; [exact A|]. split; [exact B|]. intros x. destruct (C x) as (l & C1 & C2). exists l. split; [exact C1|]. cbn [mine].
      replace (inside x s && negb (k =? x)) with (inside x {| connections := connections s; over := k :: over s; received := received s; given := given s |}); [exact C2|].
      unfold inside, is_over. cbn [connections over existsb]. rewrite (N.eqb_sym k x). destruct (N.eqb_spec x k) as [->|]; cbn [orb negb]; rewrite ?Bool.andb_false_r, ?Bool.andb_true_r; reflexivity.
    + remember (broadcasts lenient sys downs false [m] s) as c1 eqn:E1. assert (E2 : broadcast lenient sys downs false m s = c1).
      { subst c1. cbn. destruct (broadcast lenient sys downs false m s); reflexivity. }
      rewrite E2 in E. symmetry in E1. assert (exists s1, c1 = Run s1) as (s1 & ->).
      { destruct c1 as [s1| |]; [eauto|..]; apply DEAD in E as [E _]; try discriminate; congruence. }
      destruct (broadcasts_ok _ _ _ ND E1) as (s1' & X & C1 & O1 & G1 & R1); [discriminate|]. injection X as <-.
      destruct (IH s1 c) as (s' & -> & A & B & C); [rewrite C1; exact ND|exact E|exact NB|exact NC|]. exists s'. split; [reflexivity|]. split; [rewrite A, G1; reflexivity|]. split; [exact B|].
      intros x. destruct (C x) as (l & L1 & L2). destruct (R1 x) as (l0 & L3 & L4). exists (l0 ++ l). rewrite L1, L3, <- app_assoc. split; [reflexivity|]. cbn [mine].
      assert (EI : inside x s1 = inside x s) by (unfold inside, is_over; rewrite C1, O1; reflexivity). rewrite EI, G1 in L2. apply docs_app; [exact L4|exact L2].
Qed.

Lemma exec_fold ls c : exec ls c -> fold_left (fun acc l => match acc with Some (Run s) => step s l | _ => None end) ls (Some (Run init)) = Some c.
Proof. induction 1 as [|ls l s c E IH St]; [reflexivity|]. rewrite fold_left_app, IH. exact St. Qed.
End Proofs.
