(* C79: the endpoint in the browser passes messages on. *)
From Coq Require Import String.
From Verif Require Import Base BwsModel BwsSpec.
Open Scope N_scope.

Section Proof.
Variables (P : Type) (convert : data -> P -> conversion P) (encode : P -> data) (decode : data -> option P).
(* a payload is converted, or the message is refused *)
Hypothesis decodes : forall d p, convert d p = match decode d with Some q => Converted q | None => Throws end.

Lemma errors_only ls : Forall (fun l : label P => l = Fire EError) ls -> forall s c, exec P convert encode s ls c -> exists s', c = Run s' /\ calls P s' = calls P s /\ wire P s' = wire P s.
Proof.
  induction 1 as [|l ls -> F IH]; intros s c E; inversion E as [s0|s0 l0 s1 ls0 c0 St E1|s0 l0 St]; subst.
  - eauto.
  - cbn in St. destruct (ready P s); cbn in St; try discriminate; injection St as <-; destruct (IH _ _ E1) as (s' & -> & A & B); exists s'; auto.
  - cbn in St. destruct (ready P s); discriminate.
Qed.
Lemma errors_silent ls : Forall (fun l : label P => l = Fire EError) ls -> all_heard P decode ls = [] /\ forall b, frames P encode b ls = [].
Proof. induction 1 as [|l ls -> F (A & B)]; split; auto. Qed.

Definition due (r : ready_state) (ls : list (label P)) : list data :=
  match r with CONNECTING => frames P encode false ls | OPEN => frames P encode true ls | _ => [] end.
Lemma passes ls : forall s c, alive P s = true -> kept P ls -> exec P convert encode s ls c ->
  exists s', c = Run s' /\ calls P s' = calls P s ++ all_heard P decode ls /\ wire P s' = wire P s ++ due (ready P s) ls.
Proof.
  induction ls as [|l ls IH]; intros s c A K E.
  - inversion E; subst. exists s. unfold due. cbn. rewrite !app_nil_r. destruct (ready P s); rewrite ?app_nil_r; auto.
  - assert (ST : exists s1, step P convert encode s l = Some (Run s1) /\ exec P convert encode s1 ls c).
    { inversion E as [|s0 l0 s1 ls0 c0 St E1|s0 l0 St]; subst; [eauto|]. exfalso. destruct l as [e|p| |]; cbn in St; rewrite ?A in St; try discriminate.
      destruct (socket e (ready P s)); [|discriminate]. cbn in St. unfold fire in St. cbn in St. rewrite A in St. destruct e; try discriminate. rewrite decodes in St. destruct (decode d); discriminate. }
    clear E. destruct ST as (s1 & St & E). destruct l as [e|p| |].
    + cbn [kept] in K. cbn [step] in St. destruct (socket e (ready P s)) as [r|] eqn:SO; [|discriminate]. cbn [option_map] in St. injection St as St.
      assert (G : alive P s1 = true /\ ready P s1 = r /\ calls P s1 = calls P s ++ heard P decode e /\ wire P s1 = wire P s).
      { unfold fire in St. cbn [became alive] in St. rewrite A in St. destruct e as [| |d|code]; cbn [heard]; try (injection St as <-; cbn; rewrite ?app_nil_r; auto).
        rewrite decodes in St. destruct (decode d); injection St as <-; cbn; rewrite ?app_nil_r; auto. }
      destruct G as (A1 & R1 & C1 & W1). destruct (IH s1 c A1 K E) as (s' & -> & C & W). exists s'. split; [reflexivity|].
      rewrite C, C1, W, W1, R1, <- app_assoc. split; [reflexivity|]. f_equal. unfold due. clear - SO. destruct e as [| |d|code]; destruct (ready P s); cbn in SO; try discriminate; injection SO as <-; reflexivity.
    + cbn [kept] in K. cbn [step] in St. rewrite A in St. injection St as St. assert (A1 : alive P s1 = true) by (destruct (ready P s); subst s1; auto).
      destruct (IH s1 c A1 K E) as (s' & -> & C & W). exists s'. split; [reflexivity|]. rewrite C, W. unfold due. cbn [all_heard flat_map app frames].
      destruct (ready P s) eqn:R; subst s1; cbn [throw ready calls wire]; rewrite ?R; cbn [app]; split; auto. now rewrite <- app_assoc.
    + cbn [kept] in K. cbn [step] in St. rewrite A in St. injection St as St. assert (A1 : alive P s1 = true) by (destruct (ready P s); subst s1; auto).
      destruct (IH s1 c A1 K E) as (s' & -> & C & W). exists s'. split; [reflexivity|]. rewrite C, W. unfold due. cbn [all_heard flat_map app frames].
      destruct (ready P s) eqn:R; subst s1; cbn [became ready calls wire]; rewrite ?R; split; auto.
    + cbn [kept] in K. cbn [step] in St. rewrite A in St. injection St as <-. destruct (errors_only ls K _ _ E) as (s' & -> & C & W). destruct (errors_silent ls K) as (H & F).
      exists s'. split; [reflexivity|]. rewrite C, W. cbn [calls wire all_heard flat_map app]. change (flat_map _ ls) with (all_heard P decode ls). rewrite H, app_nil_r. split; [reflexivity|].
      unfold due. cbn [frames]. destruct (ready P s); rewrite ?F, ?app_nil_r; reflexivity.
Qed.

Lemma gone ls : forall s c, alive P s = false -> exec P convert encode s ls c -> c = Bad <-> ~ Forall (fun l : label P => l = Fire EError) ls.
Proof.
  induction ls as [|l ls IH]; intros s c A E; inversion E as [s0|s0 l0 s1 ls0 c0 St E1|s0 l0 St]; subst.
  - split; [discriminate|intros H; contradiction H; constructor].
  - assert (L : l = Fire EError /\ alive P s1 = false).
    { destruct l as [e|p| |]; cbn in St; rewrite ?A in St; try discriminate. destruct (socket e (ready P s)); [|discriminate]. cbn in St. unfold fire in St. cbn in St. rewrite A in St.
      destruct e; try discriminate. injection St as <-. auto. }
    destruct L as [-> A1]. rewrite (IH _ _ A1 E1). split; intros H F; apply H; [now inversion F|now constructor].
  - split; [|reflexivity]. intros _ F. inversion F as [|? ? -> _ e]; subst. cbn in St. destruct (ready P s); discriminate.
Qed.
Lemma bad_iff ls : forall s c, alive P s = true -> exec P convert encode s ls c -> c = Bad <-> ~ kept P ls.
Proof.
  induction ls as [|l ls IH]; intros s c A E; inversion E as [s0|s0 l0 s1 ls0 c0 St E1|s0 l0 St]; subst.
  - split; [discriminate|intros H; contradiction H; exact I].
  - destruct l as [e|p| |]; cbn [kept].
    1-3: (apply (IH s1); [|exact E1]; cbn in St; rewrite ?A in St).
    + destruct (socket e (ready P s)) as [r|]; [|discriminate]. cbn in St. unfold fire in St. cbn in St. rewrite A in St. destruct e; try (injection St as <-; exact A).
      rewrite decodes in St. destruct (decode d); injection St as <-; exact A.
    + injection St as <-. destruct (ready P s); auto.
    + injection St as <-. destruct (ready P s); auto.
    + apply (gone _ s1); [|exact E1]. cbn in St. rewrite A in St. now injection St as <-.
  - exfalso. destruct l as [e|p| |]; cbn in St; rewrite ?A in St; try discriminate.
    destruct (socket e (ready P s)); [|discriminate]. cbn in St. unfold fire in St. cbn in St. rewrite A in St. destruct e; try discriminate. rewrite decodes in St. destruct (decode d); discriminate.
Qed.

Definition early_if (r : ready_state) (ls : list (label P)) : nat := match r with CONNECTING => early P ls | _ => 0 end.
Lemma throws ls : forall s s', exec P convert encode s ls (Run s') -> thrown P s' = (thrown P s + early_if (ready P s) ls + unread P decode ls)%nat.
Proof.
  induction ls as [|l ls IH]; intros s s' E; inversion E as [s0|s0 l0 s1 ls0 c0 St E1|s0 l0 St]; subst.
  - unfold early_if, unread. destruct (ready P s'); cbn; lia.
  - rewrite (IH _ _ E1). destruct l as [e|p| |]; cbn [step] in St.
    + destruct (socket e (ready P s)) as [r|] eqn:SO; [|discriminate]. cbn [option_map] in St. injection St as St.
      assert (EX : early_if (ready P s) (Fire e :: ls) = 0%nat) by (destruct (ready P s); reflexivity). rewrite EX. clear EX.
      assert (R0 : early_if r ls = 0%nat) by (destruct e, (ready P s); cbn in SO; try discriminate; injection SO as <-; reflexivity).
      unfold fire in St. cbn [became alive] in St. destruct e as [| |d|code]; destruct (alive P s); try discriminate; try (injection St as <-; cbn; rewrite R0; unfold unread; cbn; lia).
      rewrite decodes in St. unfold unread. cbn [filter]. destruct (decode d); injection St as <-; cbn; rewrite R0; lia.
    + destruct (alive P s); [|discriminate]. injection St as St. destruct (ready P s) eqn:R; subst s1; cbn [throw ready thrown]; rewrite ?R; cbn [early_if early]; unfold unread; cbn [filter]; lia.
    + destruct (alive P s); [|discriminate]. injection St as St. destruct (ready P s) eqn:R; subst s1; cbn [became ready thrown]; rewrite ?R; cbn [early_if early]; unfold unread; cbn [filter]; lia.
    + destruct (alive P s); [|discriminate]. injection St as St. subst s1. cbn [ready thrown]. destruct (ready P s); cbn [early_if early]; unfold unread; cbn [filter]; lia.
Qed.
End Proof.

(* with JSON: the handlers are called for the events in order, with the values of the messages, and the texts of the values that are sent reach the
   peer in order.  Partial: what is sent before the connection opens is lost (with an exception), and the endpoint must outlive the connection. *)
Theorem C79_json_partial : forall J (parse : list N -> option J) stringify j0 ls c,
  exec J (convert_json J parse) (encode_json J stringify) (opened J j0) ls c -> kept J ls ->
  exists s, c = Run s /\ calls J s = all_heard J (fun d => match d with Text u => parse u | Buffer _ => None end) ls /\ wire J s = frames J (fun j => Text (stringify j)) false ls.
Proof.
  intros J parse stringify j0 ls c E K. destruct (passes J (convert_json J parse) (encode_json J stringify) (fun d => match d with Text u => parse u | Buffer _ => None end)) with (ls := ls) (s := opened J j0) (c := c) as (s & -> & C & W); auto.
  - intros [u|b] p; cbn; [destruct (parse u); reflexivity|reflexivity].
  - exists s. auto.
Qed.
Print Assumptions C79_json_partial.

(* exactly: a program goes wrong when an event other than an error comes after the endpoint was destroyed, and only then *)
Theorem C79_exact : forall J (parse : list N -> option J) stringify j0 ls c,
  exec J (convert_json J parse) (encode_json J stringify) (opened J j0) ls c -> (c = Bad <-> ~ kept J ls).
Proof.
  intros J parse stringify j0 ls c E. apply (bad_iff J (convert_json J parse) (encode_json J stringify) (fun d => match d with Text u => parse u | Buffer _ => None end)) with (s := opened J j0); auto.
  intros [u|b] p; cbn; [destruct (parse u); reflexivity|reflexivity].
Qed.
Print Assumptions C79_exact.
(* every such report is possible, and no other one *)
Section Reports.
Variables (J : Type) (parse : list N -> option J) (stringify : J -> list N).
Notation exec := (exec J (convert_json J parse) (encode_json J stringify)).
Notation step := (step J (convert_json J parse) (encode_json J stringify)).
Lemma fire_runs e s : alive J s = true -> exists s', fire J (convert_json J parse) e s = Run s' /\ alive J s' = true /\ ready J s' = ready J s.
Proof.
  intros A. unfold fire. rewrite A. destruct e as [| |d|code]; try (eexists; split; [reflexivity|]; auto).
  destruct d as [u|b]; cbn; [destruct (parse u)|]; eexists; (split; [reflexivity|]); auto.
Qed.
Lemma fire_iff e es s : alive J s = true -> ((exists c, exec s (map Fire (e :: es)) c) <->
  exists r s', socket e (ready J s) = Some r /\ alive J s' = true /\ ready J s' = r /\ exists c, exec s' (map Fire es) c).
Proof.
  intros A. split.
  - intros (c & E). cbn [map] in E. inversion E as [|? ? s1 ? ? St E1|? ? St]; subst; cbn in St.
    + destruct (socket e (ready J s)) as [r|]; [|discriminate]. cbn in St. destruct (fire_runs e (became J r s) A) as (s2 & F & A2 & R2). rewrite F in St. injection St as <-. exists r, s2. repeat split; eauto.
    + destruct (socket e (ready J s)) as [r|]; [|discriminate]. cbn in St. destruct (fire_runs e (became J r s) A) as (s2 & F & A2 & R2). rewrite F in St. discriminate.
  - intros (r & s' & So & A' & R' & c & E). destruct (fire_runs e (became J r s) A) as (s2 & F & A2 & R2). cbn in R2.
    assert (G : forall es s1 s2, alive J s1 = true -> alive J s2 = true -> ready J s1 = ready J s2 -> (exists c, exec s1 (map Fire es) c) -> exists c, exec s2 (map Fire es) c).
    { clear. induction es as [|e es IH]; intros s1 s2 A1 A2 R (c & E); [eexists; constructor|]. cbn [map] in E |- *. inversion E as [|? ? s1' ? ? St E1|? ? St]; subst; cbn in St.
      - destruct (socket e (ready J s1)) as [r|] eqn:So; [|discriminate]. cbn in St. destruct (fire_runs e (became J r s1) A1) as (s3 & F & A3 & R3). rewrite F in St. injection St as <-.
        destruct (fire_runs e (became J r s2) A2) as (s4 & F4 & A4 & R4). destruct (IH s3 s4) as (c' & E'); eauto; [now rewrite R3, R4|]. exists c'. econstructor; [|exact E']. cbn. rewrite <- R, So. cbn. now rewrite F4.
      - destruct (socket e (ready J s1)) as [r|] eqn:So; [|discriminate]. cbn in St. destruct (fire_runs e (became J r s1) A1) as (s3 & F & A3 & R3). rewrite F in St. discriminate. }
    destruct (G es s' s2) as (c' & E'); eauto; [congruence|]. exists c'. cbn [map]. econstructor; [|exact E']. cbn. rewrite So. cbn. now rewrite F.
Qed.
Lemma at_end s es : alive J s = true -> ready J s = CLOSED -> ((exists c, exec s (map Fire es) c) <-> es = []).
Proof. intros A R. destruct es as [|e es]; [split; [auto|eexists; constructor]|]. rewrite fire_iff, R by exact A. split; [|discriminate]. intros (r & s' & So & _). destruct e; discriminate So. Qed.
Lemma ending_cons e es : ending (e :: es) <-> (e = EError /\ ending es) \/ (exists code, e = EClose code) /\ es = [].
Proof.
  split.
  - intros ([|k] & [H|(code & H)]); try discriminate H.
    + right. injection H as -> ->. eauto.
    + left. injection H as -> ->. split; auto. exists k. auto.
    + left. injection H as -> ->. split; auto. exists k. eauto.
  - intros [(-> & k & [->|(code & ->)])|((code & ->) & ->)]; [exists (S k); left; reflexivity|exists (S k); right; exists code; reflexivity|exists 0%nat; right; exists code; reflexivity].
Qed.
Lemma ending_nil : ending []. Proof. exists 0%nat. auto. Qed.
Lemma in_ending : forall es s, alive J s = true -> ready J s = CLOSING -> ((exists c, exec s (map Fire es) c) <-> ending es).
Proof.
  induction es as [|e es IH]; intros s A R; [split; [intros _; apply ending_nil|eexists; constructor]|]. rewrite fire_iff, R, ending_cons by exact A. split.
  - intros (r & s' & So & A' & R' & X). destruct e; cbn in So; try discriminate; injection So as <-.
    + left. split; auto. now apply (IH s').
    + right. split; eauto. now apply (at_end s' es A' R').
  - intros [(-> & H)|((code & ->) & ->)].
    + exists CLOSING, s. repeat split; auto. now apply (IH s).
    + exists CLOSED, (became J CLOSED s). repeat split; auto. eexists. constructor.
Qed.
Lemma while_open : forall es s, alive J s = true -> ready J s = OPEN -> ((exists c, exec s (map Fire es) c) <-> exists ds t, es = map EMessage ds ++ t /\ ending t).
Proof.
  induction es as [|e es IH]; intros s A R.
  - split; [intros _; exists [], []; split; [reflexivity|apply ending_nil]|eexists; constructor].
  - rewrite fire_iff, R by exact A. split.
    + intros (r & s' & So & A' & R' & X). destruct e as [| |d|code]; cbn in So; try discriminate; injection So as <-.
      * exists [], (EError :: es). split; [reflexivity|]. apply ending_cons. left. split; auto. now apply (in_ending es s').
      * apply (IH s' A' R') in X as (ds & t & -> & H). exists (d :: ds), t. auto.
      * apply (at_end s' es A' R') in X as ->. exists [], [EClose code]. split; [reflexivity|]. exists 0%nat. right. exists code. reflexivity.
    + intros ([|d ds] & t & E & H).
      * cbn in E. subst t. apply ending_cons in H as [(-> & H)|((code & ->) & ->)].
        -- exists CLOSING, (became J CLOSING s). repeat split; auto. now apply in_ending.
        -- exists CLOSED, (became J CLOSED s). repeat split; auto. eexists. constructor.
      * cbn in E. injection E as -> ->. exists OPEN, s. repeat split; auto. apply (IH s A R). eauto.
Qed.
Theorem C79_reports : forall j0 es, (exists c, exec (opened J j0) (map Fire es) c) <-> reported es.
Proof.
  intros j0 [|e es]; [split; [intros _; exists []; split; [apply ending_nil|auto]|eexists; constructor]|]. rewrite fire_iff by reflexivity. split.
  - intros (r & s' & So & A' & R' & X). destruct e as [| |d|code]; cbn in So; try discriminate; injection So as <-.
    + apply (while_open es s' A' R') in X as (ds & t & -> & H). exists t. eauto.
    + exists (EError :: es). split; auto. apply ending_cons. left. split; auto. now apply (in_ending es s').
    + apply (at_end s' es A' R') in X as ->. exists [EClose code]. split; auto. exists 0%nat. right. exists code. reflexivity.
  - intros (t & H & [<-|(ds & E)]).
    + apply ending_cons in H as [(-> & H)|((code & ->) & ->)].
      * exists CLOSING, (became J CLOSING (opened J j0)). repeat split; auto. now apply in_ending.
      * exists CLOSED, (became J CLOSED (opened J j0)). repeat split; auto. eexists. constructor.
    + injection E as -> ->. exists OPEN, (became J OPEN (opened J j0)). repeat split; auto. apply while_open; eauto.
Qed.
End Reports.
Print Assumptions C79_reports.
Example C79_reports_ex : reported [EOpen; EMessage (Text [1]); EError; EClose 1006] /\ ~ reported [EOpen; EClose 1000; EMessage (Text [1])].
Proof.
  split.
  - exists [EError; EClose 1006]. split; [exists 1%nat; right; exists 1006; reflexivity|]. right. exists [Text [1]]. reflexivity.
  - intros (t & (k & Ht) & [E|(ds & E)]).
    + destruct Ht as [H|(c & H)]; rewrite H in E; destruct k; discriminate E.
    + destruct ds as [|d ds]; [|discriminate E]. destruct Ht as [H|(c & H)]; rewrite H in E; destruct k as [|k]; discriminate E.
Qed.
(* and so many exceptions are thrown: one for everything sent before the first event and before a close, one for every message that is not JSON *)
Theorem C79_thrown : forall J (parse : list N -> option J) stringify j0 ls s,
  exec J (convert_json J parse) (encode_json J stringify) (opened J j0) ls (Run s) ->
  thrown J s = (early J ls + unread J (fun d => match d with Text u => parse u | Buffer _ => None end) ls)%nat.
Proof.
  intros J parse stringify j0 ls s E. pose proof (throws J (convert_json J parse) (encode_json J stringify) (fun d => match d with Text u => parse u | Buffer _ => None end)) as T.
  rewrite (T ltac:(intros [u|b] p; cbn; [destruct (parse u); reflexivity|reflexivity]) ls _ _ E). reflexivity.
Qed.
Print Assumptions C79_thrown.

(* with vectors: whatever comes, the payload is empty *)
Theorem C79_vector_empty_refuted : forall grow d v w, convert_vector grow d v = Converted w -> elems w = [].
Proof. intros grow [u|b] v w H; cbn [convert_vector] in H; [destruct (Nat.leb _ _); [|discriminate]|]; injection H as <-; reflexivity. Qed.
Print Assumptions C79_vector_empty_refuted.

(* it stays as large as it was, unless a text is longer than that *)
Theorem C79_vector_capacity : forall grow d v w, convert_vector grow d v = Converted w ->
  (capacity v <= capacity w)%nat /\ ((forall u, d = Text u -> (length u <= capacity v)%nat) -> capacity w = capacity v) /\ (forall u, d = Text u -> (length u < capacity w)%nat).
Proof.
  intros grow [u|b] v w H; cbn [convert_vector] in H; unfold reserve in H.
  - destruct (Nat.leb_spec (length u) (capacity v)) as [L|L]; (match type of H with context [Nat.leb (S ?n) ?m] => destruct (Nat.leb_spec (S n) m) as [M|M] end; [|discriminate]); injection H as <-; cbn.
    + split; [lia|]. split; [auto|]. intros u' E. injection E as <-. lia.
    + split; [lia|]. split; [intros X; specialize (X u eq_refl); lia|]. intros u' E. injection E as <-. lia.
  - cbn in H. injection H as <-. split; [cbn; lia|]. split; [reflexivity|]. intros u E. discriminate.
Qed.
Print Assumptions C79_vector_capacity.
Example C79_vector_capacity_ex : convert_vector (fun c _ => 2 * c)%nat (Buffer [1;2;3]) {| elems := [9]; capacity := 5 |} = Converted {| elems := []; capacity := 5 |}
  /\ convert_vector (fun c n => 2 * n)%nat (Text [1;2;3]) {| elems := []; capacity := 1 |} = Converted {| elems := []; capacity := 6 |}.
Proof. split; reflexivity. Qed.

(* and a text that does not fit what was allocated before is written past the end of it, with vectors that double *)
Theorem C79_vector_outside_refuted : forall u v, (length u >= 2 * capacity v)%nat -> convert_vector (fun c _ => 2 * c)%nat (Text u) v = Outside.
Proof.
  intros u v H. cbn [convert_vector]. unfold reserve. destruct (Nat.leb_spec (length u) (capacity v)); match goal with |- context [Nat.leb (S ?n) ?m] => destruct (Nat.leb_spec (S n) m) end; auto; exfalso; lia.
Qed.
Print Assumptions C79_vector_outside_refuted.

(* exactly: the byte behind the text does not fit when the text fills what is allocated, or what is allocated for it *)
Theorem C79_vector_outside_exact : forall grow d v, convert_vector grow d v = Outside <->
  exists u, d = Text u /\ (capacity v = length u \/ (capacity v < length u)%nat /\ (grow (capacity v) (length u) <= length u)%nat).
Proof.
  intros grow d v. split.
  - destruct d as [u|b]; cbn [convert_vector]; [|discriminate]. unfold reserve. destruct (Nat.leb_spec (length u) (capacity v));
      match goal with |- context [Nat.leb (S ?n) ?m] => destruct (Nat.leb_spec (S n) m) end; try discriminate; intros _; exists u; split; auto; lia.
  - intros (u & -> & H). cbn [convert_vector]. unfold reserve. destruct (Nat.leb_spec (length u) (capacity v));
      match goal with |- context [Nat.leb (S ?n) ?m] => destruct (Nat.leb_spec (S n) m) end; auto; lia.
Qed.
Print Assumptions C79_vector_outside_exact.
Example C79_vector_outside_ex : convert_vector (fun c _ => 2 * c)%nat (Text [1;2;3]) {| elems := []; capacity := 3 |} = Outside
  /\ convert_vector (fun c _ => 2 * c)%nat (Text [1;2;3]) {| elems := []; capacity := 2 |} = Converted {| elems := []; capacity := 4 |}.
Proof. split; reflexivity. Qed.

(* all memory is sent *)
Theorem C79_vector_sent_refuted : forall heap v, (length (elems v) < length (heap v))%nat -> encode_vector heap v = Buffer (heap v) /\ encode_vector heap v <> Buffer (elems v).
Proof. intros heap v H. split; [reflexivity|]. unfold encode_vector. intros E. injection E as E. rewrite E in H. lia. Qed.
Print Assumptions C79_vector_sent_refuted.

(* an endpoint that is destroyed leaves its listeners at the socket, which stays open *)
Theorem C79_destroyed_refuted : forall J (parse : list N -> option J) stringify j0 d,
  exec J (convert_json J parse) (encode_json J stringify) (opened J j0) [Fire EOpen; Destroy; Fire (EMessage d)] Bad.
Proof. intros. eapply ex_cons; [reflexivity|]. eapply ex_cons; [reflexivity|]. apply ex_bad. reflexivity. Qed.
Print Assumptions C79_destroyed_refuted.

(* what is sent before the connection opens is not sent later *)
Theorem C79_early_refuted : forall J (parse : list N -> option J) stringify j0 j, exists s,
  exec J (convert_json J parse) (encode_json J stringify) (opened J j0) [Send j; Fire EOpen] (Run s) /\ wire J s = [] /\ thrown J s = 1%nat.
Proof. intros. eexists. split; [eapply ex_cons; [reflexivity|]; eapply ex_cons; [reflexivity|]; apply ex_nil|]. split; reflexivity. Qed.
Print Assumptions C79_early_refuted.

Fixpoint run {P} convert encode (s : st P) (ls : list (label P)) : option (config P) :=
  match ls with [] => Some (Run s) | l :: r => match step P convert encode s l with Some (Run s') => run convert encode s' r | _ => None end end.
Lemma run_ok {P} convert encode (ls : list (label P)) : forall s c, run convert encode s ls = Some c -> exec P convert encode s ls c.
Proof.
  induction ls as [|l ls IH]; intros s c H; cbn in H; [injection H as <-; constructor|]. destruct (step P convert encode s l) as [[s'|]|] eqn:St; try discriminate. eapply ex_cons; eauto.
Qed.
Example C79_ex : let parse (u : list N) := match u with 34 :: r => Some r | _ => None end in let stringify r := 34 :: r in
  let ls := [Fire EOpen; Send [1]; Fire (EMessage (Text [34; 5])); Fire (EMessage (Text [5])); Fire (EMessage (Buffer [34])); Send [2]; SendClose; Send [3]; Fire EError; Fire (EClose 1006)] in
  exists s, exec _ (convert_json _ parse) (encode_json _ stringify) (opened _ []) ls (Run s) /\ kept _ ls /\ calls _ s = [CReady; CMessage [5]; CClose] /\ wire _ s = [Text [34; 1]; Text [34; 2]].
Proof.
  intros parse stringify ls. exists {| ready := CLOSED; alive := true; payload := [5]; calls := [CReady; CMessage [5]; CClose]; wire := [Text [34; 1]; Text [34; 2]]; thrown := 2 |}.
  split; [apply run_ok; vm_compute; reflexivity|]. split; [exact I|]. split; reflexivity.
Qed.
Example C79_exact_ex : let ls := [Fire EOpen; Destroy; Fire EError; Fire (EClose 1006)] in
  exec _ (convert_json _ (fun u => Some u)) (encode_json _ (fun u => u)) (opened _ []) ls Bad /\ ~ kept _ ls.
Proof.
  intros ls. split; [repeat (eapply ex_cons; [reflexivity|]); apply ex_bad; reflexivity|]. intros K. inversion K as [|? ? _ F]; subst. inversion F as [|? ? X]. discriminate X.
Qed.
Example C79_thrown_ex : exists s, exec _ (convert_json _ (fun u => match u with 34 :: r => Some r | _ => None end)) (encode_json _ (fun u => u)) (opened _ [])
    [Send [1]; Send [2]; Fire EOpen; Fire (EMessage (Text [5])); SendClose; Send [7]] (Run s) /\ thrown _ s = 3%nat.
Proof. eexists. split; [apply run_ok; vm_compute; reflexivity|reflexivity]. Qed.
