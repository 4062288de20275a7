(* C110: the program example/pipes/main.cpp. *)
From Coq Require Import String.
From Verif Require Import Base JsonModel JsonSpec JsonProofs JsonProps AppModel FrameModel FrameSpec FrameProofs PipModel PipSpec PipProofs PipProps ExmModel ExmSpec ExmProofs.
Open Scope N_scope.

Section Props.
Context (alts : list shape) (term : nat) (fails : value -> bool) (integral_of : N -> option Z) (double_of : Z -> N)
  (parse : bytes -> option json) (print : json -> bytes) (limit : Z) (messages : list (nat * value)).
Notation step := (ExmModel.step alts term fails integral_of double_of parse print limit messages).
Notation exec := (ExmModel.exec alts term fails integral_of double_of parse print limit messages).
Notation pip := (PipModel.step alts term fails integral_of double_of parse print).
Notation Sim := (Sim alts term fails integral_of double_of parse print messages).

(* Whatever is sent and whatever fails: only so much happens.  The attempts to connect are bounded, too. *)
Theorem C110_finite : (0 <= limit)%Z -> exists n, forall evs p, exec begin evs = Some p -> (length evs <= n)%nat.
Proof.
  intros L. exists (ExmProofs.left alts print limit messages begin). intros evs p.
  assert (G : forall evs p es p', Sim p es -> exec p evs = Some p' -> (length evs <= ExmProofs.left alts print limit messages p)%nat).
  { clear evs p. induction evs as [|e evs IH]; intros p es p' HS E; cbn [length]; [lia|]. cbn [ExmModel.exec] in E. destruct (step p e) as [p1|] eqn:E1; [|discriminate E].
    pose proof (left_step _ _ _ _ _ _ _ _ _ _ _ _ _ L HS E1). destruct (sim_step _ _ _ _ _ _ _ _ _ _ _ _ _ HS E1) as (es1 & HS1). specialize (IH _ _ _ HS1 E). lia. }
  intros E. eapply G; [apply sim_begin|exact E].
Qed.
Theorem C110_attempts : (0 <= limit)%Z -> forall evs p, exec begin evs = Some p -> (Z.of_nat (refusals evs) <= limit + 1)%Z.
Proof.
  intros L evs p.
  assert (G : forall evs p p', exec p evs = Some p' -> (Z.of_nat (refusals evs) <= match cli p with Connecting f => Z.max 0 (limit - f) + 1 | _ => 0 end)%Z).
  { clear evs p. induction evs as [|e evs IH]; intros p p' E; [cbn; destruct (cli p); lia|]. cbn [ExmModel.exec] in E. destruct (step p e) as [p1|] eqn:E1; [|discriminate E]. specialize (IH _ _ E).
    assert (K : (match cli p1 with Connecting f => Z.max 0 (limit - f) + 1 | _ => 0 end + (if match e with ConnectDone false => true | _ => false end then 1 else 0) <= match cli p with Connecting f => Z.max 0 (limit - f) + 1 | _ => 0 end)%Z).
    { clear IH E. destruct e as [[]|[]|k| | |k| | |]; cbn [ExmModel.step] in E1.
      - destruct (cli p) eqn:Ec; try discriminate E1. destruct (srv p); try discriminate E1. unfold next in E1. destruct messages as [|[i v] r]; [|destruct (pip (conn p) (Say i v))]; injection E1 as <-; cbn; lia.
      - destruct (cli p) eqn:Ec; try discriminate E1. injection E1 as <-. cbn. destruct (Z.leb_spec limit attempts_failed); lia.
      - destruct (srv p); try discriminate E1. destruct (connected (cli p)); [|discriminate E1]. injection E1 as <-. cbn. lia.
      - destruct (srv p); try discriminate E1. injection E1 as <-. cbn. lia.
      - destruct (cli p) eqn:Ec; try discriminate E1. destruct (pip (conn p) (Net (Push k))); [|discriminate E1]. injection E1 as <-. cbn. lia.
      - destruct (cli p) eqn:Ec; try discriminate E1. destruct (pip (conn p) (Net WriteDone)); [|discriminate E1]. unfold next in E1. destruct rest as [|[i v] r]; [|destruct (pip w (Say i v))]; injection E1 as <-; cbn; lia.
      - destruct (cli p) eqn:Ec; try discriminate E1. destruct (wbuf _) as [[|]|]; try discriminate E1. destruct (closed _); [|discriminate E1]. injection E1 as <-. cbn. lia.
      - unfold reads in E1. destruct (srv p); try discriminate E1. destruct (pip _ _); [|discriminate E1]. unfold after_read in E1. destruct (settled _); injection E1 as <-; cbn; lia.
      - unfold reads in E1. destruct (srv p); try discriminate E1. destruct (pip _ _); [|discriminate E1]. unfold after_read in E1. destruct (settled _); injection E1 as <-; cbn; lia.
      - unfold reads in E1. destruct (srv p); try discriminate E1. destruct (pip _ _); [|discriminate E1]. unfold after_read in E1. destruct (settled _); injection E1 as <-; cbn; lia.
      - destruct (connected _ && _); [|discriminate E1]. injection E1 as <-. cbn. lia. }
    unfold refusals in *. cbn [filter]. destruct (match e with ConnectDone false => true | _ => false end); cbn [length]; lia. }
  intros E. specialize (G _ _ _ E). cbn in G. lia.
Qed.

(* The messages are ones that JSON carries (C43), with texts shorter than 4 GB; the action does not throw for them. *)
Hypothesis parse_print : forall j, parse (print j) = Some j.
Hypothesis fine : carried alts fails messages.
Hypothesis not_long : short (text_of alts print) messages.

Lemma until_before (a b : list (nat * value)) : before a b -> before (until term a) (until term b).
Proof.
  intros [r ->]. induction a as [|[i v] a IH]; cbn; [now exists (until term r)|]. destruct (Nat.eqb i term); [now exists []|]. destruct IH as [x ->]. now exists x.
Qed.
Lemma said_before p es : Sim p es -> before (said es) messages.
Proof.
  intros [_ _ C _]. destruct (cli p) as [f|r|[]]; cbn in C.
  - destruct C as [-> _]. now exists messages.
  - destruct C as [<- _]. now exists r.
  - destruct C as [-> _]. exists []. now rewrite app_nil_r.
  - destruct C as [-> _]. now exists messages.
  - destruct C as [[r <-] _]. now exists r.
  - destruct C as (i & v & r & <- & _). now exists ((i, v) :: r).
Qed.
Lemma reached evs p : exec begin evs = Some p -> exists es, Sim p es.
Proof. intros E. eapply sim_exec; [apply sim_begin|exact E]. Qed.

(* At every moment what was printed are the first messages, each once and in order, and none after the first of the type terminate. *)
Theorem C110_printed_partial : forall evs p, exec begin evs = Some p -> before (acted (conn p)) (map alternative_of (until term messages)).
Proof.
  intros evs p E. destruct (reached _ _ E) as (es & HS).
  destruct (C89_in_order_partial alts term fails integral_of double_of parse print parse_print es (conn p) (s_polite _ _ _ _ _ _ _ _ _ _ HS) (s_exec _ _ _ _ _ _ _ _ _ _ HS)
    (all_carried _ _ _ _ _ _ _ _ _ _ fine HS) (all_small _ _ _ _ _ _ _ _ _ _ not_long HS)) as [x Hx].
  destruct (until_before _ _ (said_before _ _ HS)) as [y Hy]. exists (x ++ map alternative_of y). rewrite Hy, map_app, Hx, app_assoc. reflexivity.
Qed.

(* The server ends with the message of the type terminate when all up to it were printed, or because the connection ended, or was never accepted. *)
Theorem C110_served_partial : forall evs p o, exec begin evs = Some p -> srv p = Served o ->
  o = AcceptError \/ o = Settled BadSocket \/
  exists ms v r, messages = ms ++ (term, v) :: r /\ ~ is_last term ms /\ o = Settled (Done (VVar (S term) v)) /\ acted (conn p) = map alternative_of (ms ++ [(term, v)]).
Proof.
  intros evs p o E So. destruct (reached _ _ E) as (es & HS). pose proof (s_server _ _ _ _ _ _ _ _ _ _ HS) as S. rewrite So in S. destruct o as [|r]; [now left|]. right. cbn in S. destruct S as [S _].
  destruct (C89_done_partial alts term fails integral_of double_of parse print parse_print es (conn p) (s_polite _ _ _ _ _ _ _ _ _ _ HS) (s_exec _ _ _ _ _ _ _ _ _ _ HS)
    (all_carried _ _ _ _ _ _ _ _ _ _ fine HS) (all_small _ _ _ _ _ _ _ _ _ _ not_long HS)) as [D|[[D _]|(ms & v & r' & D1 & D2 & D3 & D4)]].
  - congruence.
  - left. congruence.
  - right. destruct (said_before _ _ HS) as [x Hx]. exists ms, v, (r' ++ x). rewrite Hx, D1, <- app_assoc. split; [reflexivity|]. split; [exact D2|]. split; [congruence|exact D4].
Qed.

Lemma has_text i v : In (i, v) messages -> text_of alts print i v <> None.
Proof.
  intros I. pose proof fine as F. unfold carried in F. rewrite Forall_forall in F. destruct (F _ I) as [W _].
  destruct (C43_round_trip_partial integral_of double_of _ _ W) as (j & Ej & _). unfold text_of. change (message alts) with (SVar (SEmpty :: alts)).
  unfold alternative_of in Ej. cbn [fst snd] in Ej. rewrite Ej. discriminate.
Qed.
Lemma never_no_text p es : Sim p es -> cli p <> Left NoText.
Proof.
  intros HS E. pose proof (s_client _ _ _ _ _ _ _ _ _ _ HS) as C. rewrite E in C. destruct C as (i & v & r & Em & T). apply (has_text i v); [|exact T]. rewrite <- Em. apply in_or_app. right. now left.
Qed.

(* When nothing can happen any more unless the system fails, nothing is waited for and the program ends; or the client gave up and
   the server waits for it for ever; or everything was printed, and the server waits for a message of the type terminate. *)
Definition rests (p : prog) : Prop := forall e, step p e <> None -> failure e.
Theorem C110_rest_partial : forall evs p, exec begin evs = Some p -> rests p ->
  ended p \/ (srv p = Accepting /\ cli p = Left TooManyAttempts) \/
  (srv p = Receiving /\ cli p = Left AllSent /\ ~ is_last term messages /\ acted (conn p) = map alternative_of messages).
Proof.
  intros evs p E R. destruct (reached _ _ E) as (es & HS). pose proof HS as [Pl Ex C S].
  assert (X : forall e, step p e <> None -> ~ failure e -> False) by (intros e A B; apply B, R, A).
  destruct (cli p) as [f|r|o] eqn:Ec.
  - exfalso. apply (X (ConnectDone false)); [cbn; rewrite Ec; discriminate|intros [Q|Q]; discriminate Q].
  - exfalso. cbn in C. destruct C as (C1 & b & C2). destruct b as [|x b].
    + apply (X Written); [|intros [Q|Q]; discriminate Q]. cbn [ExmModel.step]. rewrite Ec. cbn [PipModel.step FrameModel.step]. rewrite C2. cbn [option_map]. destruct (next _ _ _ _ _ _ _ _ _). discriminate.
    + destruct (closed (wire (conn p))) eqn:El.
      * apply (X WriteFails); [|intros [Q|Q]; discriminate Q]. cbn [ExmModel.step]. rewrite Ec, C2, El. discriminate.
      * apply (X (Sends 1)); [|intros [Q|Q]; discriminate Q]. cbn [ExmModel.step]. rewrite Ec. cbn [PipModel.step FrameModel.step]. rewrite C2, El. cbn. discriminate.
  - destruct (srv p) as [| |a] eqn:Es; [| |left; split; eauto].
    + right. left. split; [reflexivity|]. destruct (connected (cli p)) eqn:En.
      * exfalso. apply (X (AcceptDone true)); [|intros [Q|Q]; discriminate Q]. cbn [ExmModel.step]. rewrite Es, En. discriminate.
      * rewrite Ec in En. destruct o; try discriminate En. reflexivity.
    + right. right. cbn in S. destruct S as [S Cn].
      assert (NR : forall l e, step p e = reads alts term fails integral_of double_of parse print p l -> ~ failure e -> pip (conn p) (Net l) = None).
      { intros l e He Hf. destruct (pip (conn p) (Net l)) as [w|] eqn:Ew; [|reflexivity]. exfalso. apply (X e); [|exact Hf]. rewrite He. unfold reads. rewrite Es, Ew. destruct (after_read _ _ _ _ _ _ _ _). discriminate. }
      assert (Q : at_rest alts term fails integral_of double_of parse print (conn p)).
      { intros l [N1 N2]. destruct l as [m|k| |k| | |]; try (exfalso; eapply N1; reflexivity); try (exfalso; apply N2; reflexivity).
        - destruct o; cbn in C; try discriminate Cn.
          + cbn [PipModel.step FrameModel.step]. now rewrite (proj2 C).
          + destruct C as (_ & C & x & b & Cb). cbn [PipModel.step FrameModel.step]. now rewrite Cb, C, andb_false_r.
          + exfalso. now apply (never_no_text _ _ HS).
        - destruct o; cbn in C; try discriminate Cn.
          + cbn [PipModel.step FrameModel.step]. now rewrite (proj2 C).
          + destruct C as (_ & C & x & b & Cb). cbn [PipModel.step FrameModel.step]. now rewrite Cb.
          + exfalso. now apply (never_no_text _ _ HS).
        - apply (NR _ (Gets k)); [reflexivity|intros [Q|Q]; discriminate Q].
        - apply (NR _ ReadDone); [reflexivity|intros [Q|Q]; discriminate Q].
        - apply (NR _ ReadEof); [reflexivity|intros [Q|Q]; discriminate Q]. }
      pose proof (all_small _ _ _ _ _ _ _ _ _ _ not_long HS) as Sm.
      destruct (closed (wire (conn p))) eqn:El; [exfalso; now apply (C89_cut_off alts term fails integral_of double_of parse print es (conn p) Ex Sm El Q)|].
      destruct (C89_all_partial alts term fails integral_of double_of parse print parse_print es (conn p) Pl Ex (all_carried _ _ _ _ _ _ _ _ _ _ fine HS) Sm El Q) as [A B].
      assert (NL : ~ is_last term (said es)) by (intros L; apply B in L as [v L]; congruence).
      destruct o; cbn in C; try discriminate Cn.
      * destruct C as [C _]. rewrite C in *. split; [reflexivity|]. split; [reflexivity|]. split; [exact NL|]. rewrite A. f_equal. rewrite <- (app_nil_r messages) at 1. rewrite until_app by exact NL. cbn. apply app_nil_r.
      * destruct C as (_ & C & _). congruence.
      * exfalso. now apply (never_no_text _ _ HS).
Qed.

(* Without failures, with no more refused attempts than are allowed, and with the message of the type terminate at the end as in
   main.cpp:113: everything is sent and printed, and the program ends. *)
Theorem C110_all : forall evs p ms v, exec begin evs = Some p -> rests p -> messages = ms ++ [(term, v)] -> ~ is_last term ms ->
  Forall (fun e => ~ failure e) evs -> (Z.of_nat (refusals evs) <= limit)%Z ->
  srv p = Served (Settled (Done (VVar (S term) v))) /\ cli p = Left AllSent /\ acted (conn p) = map alternative_of messages.
Proof.
  intros evs p ms v E R Em NL NF Rf.
  assert (H : match srv p with Served AcceptError => False | Served (Settled (Done _)) => True | Served _ => False | _ => closed (wire (conn p)) = false end /\
    cli p <> Left TooManyAttempts).
  { clear R.
    assert (G : forall evs p es p', Sim p es -> exec p evs = Some p' -> Forall (fun e => ~ failure e) evs ->
      match srv p with Served AcceptError => False | Served (Settled (Done _)) => True | Served _ => False | _ => closed (wire (conn p)) = false end ->
      match cli p with Connecting f => (f + Z.of_nat (refusals evs) <= limit)%Z | Left TooManyAttempts => False | _ => True end ->
      match srv p' with Served AcceptError => False | Served (Settled (Done _)) => True | Served _ => False | _ => closed (wire (conn p')) = false end /\
      match cli p' with Left TooManyAttempts => False | _ => True end).
    { clear evs p E NF Rf. induction evs as [|e evs IH]; intros p es p' HS E NF Hs Hc; cbn [ExmModel.exec] in E.
      - injection E as <-. split; [exact Hs|]. destruct (cli p) as [f|r|[]]; auto.
      - destruct (step p e) as [p1|] eqn:E1; [|discriminate E]. assert (NF1 : ~ failure e) by now inversion NF. assert (NF2 : Forall (fun e => ~ failure e) evs) by now inversion NF. destruct (sim_step _ _ _ _ _ _ _ _ _ _ _ _ _ HS E1) as (es1 & HS1).
        assert (RD : forall l, (forall m, l <> Send m) -> l <> Close -> l <> WriteDone -> (forall k, l <> Push k) -> step p e = reads alts term fails integral_of double_of parse print p l -> 
          match srv p1 with Served AcceptError => False | Served (Settled (Done _)) => True | Served _ => False | _ => closed (wire (conn p1)) = false end /\ cli p1 = cli p).
        { intros l N1 N2 N3 N4 He. rewrite He in E1. unfold reads in E1. destruct (srv p) eqn:Es; try discriminate E1. destruct (pip (conn p) (Net l)) as [w|] eqn:Ew; [|discriminate E1].
          assert (Ecl : closed (wire w) = closed (wire (conn p))).
          { destruct (frame_step _ _ _ _ _ _ _ _ _ _ Ew) as (l' & F & El). subst l'.
            destruct l; try (exfalso; eapply N1; reflexivity); try (exfalso; eapply N4; reflexivity); try contradiction; cbn [FrameModel.step] in F.
            - destruct (_ && _ && _ && _) in F; [|discriminate F]. injection F as F. now rewrite <- F.
            - destruct (_ && _) in F; [|discriminate F]. destruct (rphase (wire (conn p))); injection F as F; now rewrite <- F.
            - destruct (net (wire (conn p))); [|discriminate F]. destruct (_ && _ && _) in F; [|discriminate F]. injection F as F. now rewrite <- F. }
          assert (Q : settled w = [] \/ exists x, settled w = [Done x]).
          { pose proof HS1 as HS1'. unfold after_read in E1. destruct (settled w) as [|x xs] eqn:Ex; [now left|]. right. injection E1 as <-.
            pose proof (s_server _ _ _ _ _ _ _ _ _ _ HS1') as S1. cbn [srv conn server_at] in S1. destruct S1 as [S1 _]. rewrite (proj1 (proj2 (proj2 (close_eq alts term fails integral_of double_of parse print w)))), Ex in S1. injection S1 as ->.
            destruct (C89_done_partial alts term fails integral_of double_of parse print parse_print (es ++ [Net l]) w) as [D|[[_ D]|(ms' & v' & r' & _ & _ & D & _)]].
            - apply polite_app; [exact (s_polite _ _ _ _ _ _ _ _ _ _ HS)|discriminate].
            - eapply pips_one; [exact (s_exec _ _ _ _ _ _ _ _ _ _ HS)|exact Ew].
            - rewrite said_app, app_nil_r. exact (all_carried _ _ _ _ _ _ _ _ _ _ fine HS).
            - exact (all_small _ _ _ _ _ _ _ _ _ _ not_long HS1').
            - congruence.
            - congruence.
            - exists (VVar (S term) v'). congruence. }
          unfold after_read in E1. destruct Q as [Q|[x Q]]; rewrite Q in E1; injection E1 as <-; cbn [srv cli conn]; (split; [|reflexivity]); [congruence|exact I]. }
        assert (K : match srv p1 with Served AcceptError => False | Served (Settled (Done _)) => True | Served _ => False | _ => closed (wire (conn p1)) = false end /\
          match cli p1 with Connecting f => (f + Z.of_nat (refusals evs) <= limit)%Z | Left TooManyAttempts => False | _ => True end).
        { assert (NX : forall r w s, next alts term fails integral_of double_of parse print r w = s -> closed (wire (snd s)) = closed (wire w) /\ match fst s with Connecting _ | Left TooManyAttempts => False | _ => True end).
          { intros r w s <-. destruct r as [|[i v0] r]; cbn [next]; [cbn; auto|]. destruct (pip w (Say i v0)) as [w'|] eqn:Ew; [|cbn; auto]. cbn [fst snd]. split; [|exact I]. cbn [PipModel.step] in Ew. destruct (text_of alts print i v0); [|discriminate Ew].
            cbn [FrameModel.step] in Ew. destruct (wbuf (wire w)); [discriminate Ew|]. injection Ew as <-. reflexivity. }
          assert (Hc' : match cli p with Connecting f => (f + Z.of_nat (refusals evs) <= limit)%Z | Left TooManyAttempts => False | _ => True end).
          { destruct (cli p) as [f|r|[]]; auto. unfold refusals in *. cbn [filter] in Hc. destruct (match e with ConnectDone false => true | _ => false end); cbn [length] in Hc; lia. }
          destruct e as [[]|[]|k| | |k| | |].
          - cbn [ExmModel.step] in E1. destruct (cli p) eqn:Ec; try discriminate E1. destruct (srv p) eqn:Es; try discriminate E1. destruct (next _ _ _ _ _ _ _ messages (conn p)) as [c w] eqn:En. injection E1 as <-.
            destruct (NX _ _ _ En) as [Y1 Y2]. cbn [fst snd srv cli conn] in *. split; [congruence|]. destruct c as [f|r|[]]; auto; contradiction.
          - cbn [ExmModel.step] in E1. destruct (cli p) eqn:Ec; try discriminate E1. injection E1 as <-. cbn [srv cli conn]. split; [exact Hs|]. unfold refusals in *. cbn [filter length] in Hc.
            destruct (Z.leb_spec limit attempts_failed); lia.
          - cbn [ExmModel.step] in E1. destruct (srv p) eqn:Es; try discriminate E1. destruct (connected (cli p)); [|discriminate E1]. injection E1 as <-. cbn. auto.
          - exfalso. apply NF1. now left.
          - cbn [ExmModel.step] in E1. destruct (cli p) eqn:Ec; try discriminate E1. destruct (pip (conn p) (Net (Push k))) as [w|] eqn:Ew; [|discriminate E1]. injection E1 as <-. cbn [srv cli conn]. split; [|exact I].
            assert (closed (wire w) = closed (wire (conn p))) as ->; [|exact Hs]. cbn [PipModel.step FrameModel.step] in Ew. destruct (wbuf _); [|discriminate Ew]. destruct (_ && _ && _) in Ew; [|discriminate Ew]. injection Ew as <-. reflexivity.
          - cbn [ExmModel.step] in E1. destruct (cli p) eqn:Ec; try discriminate E1. destruct (pip (conn p) (Net WriteDone)) as [w|] eqn:Ew; [|discriminate E1]. destruct (next _ _ _ _ _ _ _ rest w) as [c w'] eqn:En. injection E1 as <-.
            destruct (NX _ _ _ En) as [Y1 Y2]. cbn [fst snd srv cli conn] in *. assert (Y3 : closed (wire w) = closed (wire (conn p))).
            { cbn [PipModel.step FrameModel.step] in Ew. destruct (wbuf _) as [[|]|]; try discriminate Ew. injection Ew as <-. reflexivity. }
            rewrite Y1, Y3. split; [exact Hs|]. destruct c as [f|r|[]]; auto; contradiction.
          - cbn [ExmModel.step] in E1. destruct (cli p) eqn:Ec; try discriminate E1. destruct (wbuf _) as [[|]|]; try discriminate E1. destruct (closed (wire (conn p))) eqn:El; [|discriminate E1]. injection E1 as <-. cbn [srv cli conn]. rewrite El. auto.
          - destruct (RD (Pull k)) as [Y1 Y2]; try discriminate; [reflexivity|]. rewrite Y2. auto.
          - destruct (RD FrameModel.ReadDone) as [Y1 Y2]; try discriminate; [reflexivity|]. rewrite Y2. auto.
          - destruct (RD FrameModel.ReadEof) as [Y1 Y2]; try discriminate; [reflexivity|]. rewrite Y2. auto.
          - exfalso. apply NF1. now right. }
        exact (IH p1 es1 p' HS1 E NF2 (proj1 K) (proj2 K)). }
    destruct (G evs begin [] p (sim_begin _ _ _ _ _ _ _ _) E NF) as [A B]; cbn; auto. split; [exact A|]. intros Q. rewrite Q in B. exact B. }
  destruct H as [Hs Hc]. destruct (reached _ _ E) as (es & HS).
  assert (L : is_last term messages) by (exists v; rewrite Em; apply in_or_app; right; now left).
  destruct (C110_rest_partial evs p E R) as [[[a Ea] [b Eb]]|[[_ Q]|(_ & _ & Q & _)]]; [|contradiction|contradiction].
  rewrite Ea in Hs. destruct (C110_served_partial evs p a E Ea) as [->|[->|(ms' & v' & r' & Q1 & Q2 & Q3 & Q4)]]; try contradiction.
  assert (QQ : ms' = ms /\ v' = v /\ r' = []).
  { rewrite Em in Q1. clear -Q1 Q2 NL. revert ms Q1 NL. induction ms' as [|m ms' IH]; intros [|m0 ms] Q NL.
    - injection Q as QA QB. subst. auto.
    - cbn in Q. injection Q as Q _. exfalso. apply NL. exists v'. left. exact Q.
    - cbn in Q. injection Q as Q _. exfalso. apply Q2. exists v. left. now symmetry.
    - cbn in Q. injection Q as <- Q. destruct (IH ltac:(intros [x Hx]; apply Q2; exists x; now right) ms Q ltac:(intros [x Hx]; apply NL; exists x; now right)) as (-> & -> & ->). auto. }
  destruct QQ as (-> & -> & ->). split; [congruence|]. split; [|now rewrite Q4, Em].
  rewrite Eb. f_equal. pose proof HS as [Pl Ex C S]. rewrite Eb in C. destruct b; auto; try contradiction.
  - exfalso. cbn in C. destruct C as ((r & Cr) & _ & x & b & Cb). rewrite Ea, Q3 in S. cbn in S. destruct S as [S _].
    pose proof (all_small _ _ _ _ _ _ _ _ _ _ not_long HS) as Sm.
    destruct (said_state alts term fails integral_of double_of parse print parse_print es (conn p) Pl Ex (all_carried _ _ _ _ _ _ _ _ _ _ fine HS) Sm) as (m1 & m2 & A1 & A2 & A3 & _).
    assert (Lm : (length m1 = length messages)%nat) by (rewrite <- (map_length alternative_of m1), <- A2, Q4, map_length, Em; reflexivity).
    rewrite A1, <- app_assoc in Cr. assert (m2 ++ r = []) as Er by (destruct (m2 ++ r) eqn:Er; [reflexivity|]; rewrite <- Cr, app_length in Lm; cbn in Lm; lia). apply app_eq_nil in Er as [-> ->].
    destruct (said_written alts term fails integral_of double_of parse print es _ _ Pl Ex) as (ts & Hw & Hf). cbn in Hw.
    assert (Lt : (length ts = length m1)%nat) by (rewrite app_nil_r in A1; rewrite A1 in Hf; clear -Hf; induction Hf; cbn; lia).
    destruct (inv_reaches _ (wire_reaches alts term fails integral_of double_of parse print _ _ Ex) Sm) as [_ (part & X & _ & Ed & Ef & _)].
    assert (X = []) as ->. { rewrite Hw in Ed. apply (f_equal (@length bytes)) in Ed. rewrite app_length in Ed. destruct X; [reflexivity|]. cbn in Ed. lia. }
    cbn in Ef. symmetry in Ef. apply app_eq_nil in Ef as [_ Ef]. apply app_eq_nil in Ef as [_ Ef]. rewrite Cb in Ef. discriminate Ef.
  - exfalso. now apply (never_no_text _ _ HS).
Qed.
End Props.
Print Assumptions C110_finite.
Print Assumptions C110_attempts.
Print Assumptions C110_printed_partial.
Print Assumptions C110_served_partial.
Print Assumptions C110_rest_partial.
Print Assumptions C110_all.

(* Not so: that the program ends.  When the client gives up, the server waits for it for ever (main.cpp:137-144 and 147-157). *)
Theorem C110_waits_refuted : ~ (forall alts term integral_of double_of parse print messages evs p,
  (forall j, parse (print j) = Some j) -> carried alts (fun _ => false) messages -> short (text_of alts print) messages -> is_last term messages ->
  exec alts term (fun _ => false) integral_of double_of parse print 10 messages begin evs = Some p ->
  (forall e, step alts term (fun _ => false) integral_of double_of parse print 10 messages p e <> None -> failure e) -> ended p).
Proof.
  intros H.
  destruct (H some_alts 2%nat (fun _ => None) (fun _ => 0) untoy_all toy [(2%nat, VEmpty)] (repeat (ConnectDone false) 11)
    {| srv := Accepting; cli := Left TooManyAttempts; conn := start |} toy_ok) as [[a A] _].
  - repeat constructor; vm_compute; discriminate.
  - intros i v t [Q|[]] T. injection Q as <- <-. vm_compute in T. injection T as <-. vm_compute. reflexivity.
  - exists VEmpty. now left.
  - reflexivity.
  - intros [[]|[]|k| | |k| | |] Q; try (exfalso; apply Q; reflexivity). now left.
  - discriminate A.
Qed.
Print Assumptions C110_waits_refuted.

(* Two attempts are refused; the client begins to write before the server has accepted; the bytes come in pieces; both end. *)
Definition some_messages : list (nat * value) := [(0%nat, VInt 7); (1%nat, VString (bs "hi")); (2%nat, VEmpty)].
Definition one_message (k : nat) : list event := [Gets 4; ReadDone; Gets k; ReadDone].
Definition sizes : list nat := map (fun m => match text_of some_alts toy (fst m) (snd m) with Some t => length t | None => 0%nat end) some_messages.
Definition a_run : list event :=
  [ConnectDone false; ConnectDone false; ConnectDone true; Sends 3; AcceptDone true; Gets 1; Sends (nth 0 sizes 0 + 1)%nat; Gets 3; ReadDone; Written; Sends (nth 1 sizes 0 + 4)%nat;
   Gets (nth 0 sizes 0%nat); ReadDone; Written] ++ one_message (nth 1 sizes 0%nat) ++ [Sends (nth 2 sizes 0 + 4)%nat] ++ one_message (nth 2 sizes 0%nat) ++ [Written].
Example C110_ex : match exec some_alts 2 (fun _ => false) (fun _ => None) (fun _ => 0) untoy_all toy 10 some_messages begin a_run with
  | Some p => srv p = Served (Settled (Done (VVar 3 VEmpty))) /\ cli p = Left AllSent /\ acted (conn p) = map alternative_of some_messages
  | None => False
  end.
Proof. vm_compute. auto. Qed.
(* The connection ends by itself while the second message is written: the server has printed the first one; both see the error. *)
Example C110_break_ex : match exec some_alts 2 (fun _ => false) (fun _ => None) (fun _ => 0) untoy_all toy 10 some_messages begin
    (firstn 10 a_run ++ [Sends 2; Break; Gets (nth 0 sizes 0%nat); ReadDone; Gets 2; WriteFails; ReadEof]) with
  | Some p => srv p = Served (Settled BadSocket) /\ cli p = Left WriteError /\ acted (conn p) = [VVar 1 (VInt 7)]
  | None => False
  end.
Proof. vm_compute. auto. Qed.

(* The messages of main.cpp:98-114, with the types of main.cpp:33-63: constants and hana::nothing are empty types, hana::just(5) is a sequence of one. *)
Definition person_shape : shape := SMap [(bs "name_first", SString); (bs "name_last", SString)].
Definition main_alts : list shape :=
  [person_shape; SMap [(bs "username", SString); (bs "person", person_shape)]; SSeq [SString; SString; SInt; SString; SEmpty; SString];
   SMap [(bs "key_1", SString); (bs "key_2", SString); (bs "key_3", SSeq [SInt]); (bs "key_4", SEmpty); (bs "key_5", SSeq [SInt; SInt; SInt; SInt; SString])]; SEmpty].
Definition main_messages : list (nat * value) :=
  [(0%nat, VSeq [VString (bs "John"); VString (bs "Smith")]); (1%nat, VSeq [VString (bs "@JasonRice_"); VSeq [VString (bs "Jason"); VString (bs "Rice")]]);
   (2%nat, VSeq [VString (bs "This"); VString (bs "is a tuple with"); VInt 6; VString (bs "elements"); VEmpty; VString (bs "Last")]);
   (3%nat, VSeq [VString (bs "value1"); VString (bs "value2"); VSeq [VInt 5]; VEmpty; VSeq [VInt 1; VInt 2; VInt 3; VInt 4; VString (bs "tuple")]]); (4%nat, VEmpty)].

(* With these messages, whatever the texts look like: the program prints them all and ends. *)
Theorem C110_main : forall integral_of double_of parse print evs p,
  (forall j, parse (print j) = Some j) -> short (text_of main_alts print) main_messages ->
  exec main_alts 4 (fun _ => false) integral_of double_of parse print 10 main_messages begin evs = Some p ->
  (forall e, step main_alts 4 (fun _ => false) integral_of double_of parse print 10 main_messages p e <> None -> failure e) ->
  Forall (fun e => ~ failure e) evs -> (refusals evs <= 10)%nat ->
  ended p /\ acted (conn p) = map alternative_of main_messages.
Proof.
  intros io d parse print evs p PP Sh E R NF Rf.
  destruct (C110_all main_alts 4%nat (fun _ => false) io d parse print 10 main_messages PP) with (evs := evs) (p := p) (ms := firstn 4 main_messages) (v := VEmpty) as (A & B & C); auto.
  - repeat constructor; vm_compute; intuition discriminate.
  - intros [v I]. cbn in I. intuition discriminate.
  - lia.
  - split; [split; eauto|exact C].
Qed.
Print Assumptions C110_main.
