(* C89: messages over a connection until one of a given type arrives (example/pipes). *)
From Coq Require Import String.
From Verif Require Import Base Base64Spec JsonModel JsonSpec JsonProofs JsonProps AppModel FrameModel FrameSpec FrameProofs FrameProps PipModel PipSpec PipProofs.
Open Scope N_scope.

Section Props.
Context (alts : list shape) (term : nat) (fails : value -> bool) (integral_of : N -> option Z) (double_of : Z -> N)
  (parse : bytes -> option json) (print : json -> bytes).
Notation step := (PipModel.step alts term fails integral_of double_of parse print).
Notation exec := (PipModel.exec alts term fails integral_of double_of parse print).
Notation Handles := (Handles alts term fails integral_of double_of parse).

(* Whatever texts arrive, from whatever program, cut up in whatever way: the action has been called for the messages
   which they stand for, in order, up to the one that ended it. *)
Theorem C89_handles : forall es w, Forall proper alts -> exec start es = Some w ->
  (forall t j, In t (delivered (wire w)) -> parse t = Some j -> doc_ok j) ->
  (settled w = [BadSocket] /\ failed (wire w) = true /\ Handles (delivered (wire w)) (acted w) []) \/
  (settled w <> [BadSocket] /\ failed (wire w) = false /\ Handles (delivered (wire w)) (acted w) (settled w)).
Proof.
  intros es w Hp E Hd. destruct (K_exec alts term fails integral_of double_of parse print _ _ _ (K_start _ _ _ _ _ _) E) as (A & B).
  assert (Q0 : forall ts, (forall t, In t ts -> In t (delivered (wire w))) -> quietly alts term fails integral_of double_of parse ts ->
    Handles ts (calls alts term fails integral_of double_of parse ts) []).
  { intros ts Hi Q. rewrite <- (app_nil_r ts) at 1. rewrite <- (app_nil_r (calls _ _ _ _ _ _ ts)).
    apply handles_quiet; auto; [|constructor]. intros t j Ht. apply Hd. auto. }
  destruct B as [(Q & [(S & F)|(S & F)])|(F & ts & t & D & Q & R & N)].
  - right. rewrite S, A. split; [discriminate|]. split; auto.
  - left. rewrite A. auto.
  - right. assert (T := receive_means alts term fails integral_of double_of parse t Hp).
    assert (Ht : In t (delivered (wire w))) by (rewrite D; apply in_elt).
    specialize (T (fun j => Hd t j Ht)). destruct (snd (receive alts term fails integral_of double_of parse t)) as [|x r] eqn:Er; [congruence|].
    split; [|split; auto].
    + rewrite <- R. clear -T. remember [t] as ts eqn:Et. clear Et. induction T; auto; discriminate.
    + rewrite A, <- R, D. unfold calls. rewrite flat_map_app. cbn [flat_map]. rewrite app_nil_r. apply handles_quiet; auto.
      intros t' j Hi. apply Hd. rewrite D. apply in_or_app. now left.
Qed.

(* The promise is settled at most once; from then on nothing is read and the action is not called. *)
Theorem C89_once : forall es w, exec start es = Some w ->
  (length (settled w) <= 1)%nat /\
  (settled w <> [] -> forall es' w', exec w es' = Some w' -> settled w' = settled w /\ acted w' = acted w /\ delivered (wire w') = delivered (wire w)).
Proof.
  intros es w E. split; [|intros H es' w'; now apply settled_exec].
  destruct (K_exec alts term fails integral_of double_of parse print _ _ _ (K_start _ _ _ _ _ _) E) as (_ & [(_ & [(-> & _)|(-> & _)])|(_ & ts & t & _ & _ & R & _)]); auto.
  rewrite <- R. apply receive_once.
Qed.

(* The other side writes messages which JSON carries (C43) and whose texts are shorter than 4 GB; the action does not
   throw for them. *)
Hypothesis parse_print : forall j, parse (print j) = Some j.
Definition carried (ms : list (nat * value)) : Prop :=
  Forall (fun m => writable (SVar (SEmpty :: alts)) (alternative_of m) /\ fails (alternative_of m) = false) ms.

(* the action is called for the first messages, each once, in order, and for none after the first of the type Terminate *)
Theorem C89_in_order_partial : forall es w, polite es -> exec start es = Some w -> carried (said es) -> Forall small (written (wire w)) ->
  before (acted w) (map alternative_of (until term (said es))).
Proof.
  intros es w Pl E S Sm. destruct (said_state alts term fails integral_of double_of parse print parse_print es w Pl E S Sm) as (a & b & -> & -> & _ & [(N & _)|(ms & v & -> & N & _)]).
  - exists (map alternative_of (until term b)). rewrite until_app, map_app; auto.
  - exists []. rewrite <- app_assoc, until_app by auto. cbn. now rewrite Nat.eqb_refl, app_nil_r.
Qed.
(* the promise resolves with that message, once the action was called for all up to it; it rejects only when the
   connection ended *)
Theorem C89_done_partial : forall es w, polite es -> exec start es = Some w -> carried (said es) -> Forall small (written (wire w)) ->
  settled w = [] \/ (settled w = [BadSocket] /\ closed (wire w) = true) \/
  exists ms v r, said es = ms ++ (term, v) :: r /\ ~ is_last term ms /\ settled w = [Done (VVar (S term) v)] /\
    acted w = map alternative_of (ms ++ [(term, v)]).
Proof.
  intros es w Pl E S Sm. destruct (said_state alts term fails integral_of double_of parse print parse_print es w Pl E S Sm) as (a & b & Hs & -> & _ & [(_ & [(-> & _)|(-> & F)])|(ms & v & -> & N & -> & _)]).
  - now left.
  - right. left. split; auto. destruct (C56_cut_off (wire w) (wire_reaches alts term fails integral_of double_of parse print _ _ E) Sm F). auto.
  - right. right. exists ms, v, b. rewrite Hs, <- app_assoc. auto.
Qed.
(* While the connection is open: when nothing more can happen by itself, every message up to the first of the type
   Terminate was handed to the action, and the promise is resolved if there was one. *)
Definition at_rest (w : world) : Prop := forall l, internal l -> step w (Net l) = None.
Theorem C89_all_partial : forall es w, polite es -> exec start es = Some w -> carried (said es) -> Forall small (written (wire w)) ->
  closed (wire w) = false -> at_rest w ->
  acted w = map alternative_of (until term (said es)) /\ ((exists v, settled w = [Done v]) <-> is_last term (said es)).
Proof.
  intros es w Pl E S Sm C Q. destruct (said_state alts term fails integral_of double_of parse print parse_print es w Pl E S Sm) as (a & b & Hs & Ha & L & H).
  rewrite Ha, Hs. destruct H as [(N & [(St & F)|(St & F)])|(ms & v & -> & N & St & _)].
  - assert (Qf : quiet (wire w)).
    { intros l H1 H2. specialize (Q l (conj H1 H2)). cbn [PipModel.step] in Q. rewrite St in Q.
      destruct l; try (exfalso; eapply H1; reflexivity); try (exfalso; apply H2; reflexivity); destruct (FrameModel.step (wire w) _); auto; discriminate. }
    assert (D := C56_round_trip (wire w) (wire_reaches alts term fails integral_of double_of parse print _ _ E) Sm Qf C).
    destruct (said_written alts term fails integral_of double_of parse print es start w Pl E) as (ts & Hw & Hf). cbn in Hw.
    assert (b = []). { assert (Hf' : length (said es) = length ts) by (clear -Hf; induction Hf; cbn; congruence). clear Hf. rename Hf' into Hf. rewrite Hs, app_length, L, D, Hw in Hf. destruct b; auto. cbn in Hf. lia. }
    subst b. rewrite app_nil_r. rewrite <- (app_nil_r a) at 2. rewrite until_app by auto. cbn. rewrite app_nil_r. split; auto.
    split; [intros (v & X); congruence|contradiction].
  - exfalso. destruct (C56_cut_off (wire w) (wire_reaches alts term fails integral_of double_of parse print _ _ E) Sm F). congruence.
  - rewrite <- app_assoc, until_app by auto. cbn. rewrite Nat.eqb_refl. split; auto. split; [|eauto]. intros _. exists v. apply in_elt.
Qed.
(* when the connection ended and nothing more can happen, the promise is settled *)
Theorem C89_cut_off : forall es w, exec start es = Some w -> Forall small (written (wire w)) -> closed (wire w) = true -> at_rest w -> settled w <> [].
Proof.
  intros es w E Sm C Q St. assert (Qf : quiet (wire w)).
  { intros l H1 H2. specialize (Q l (conj H1 H2)). cbn [PipModel.step] in Q. rewrite St in Q.
    destruct l; try (exfalso; eapply H1; reflexivity); try (exfalso; apply H2; reflexivity); destruct (FrameModel.step (wire w) _); auto; discriminate. }
  assert (F := C56_cut_off_notices (wire w) (wire_reaches alts term fails integral_of double_of parse print _ _ E) Sm Qf C).
  destruct (K_exec alts term fails integral_of double_of parse print _ _ _ (K_start _ _ _ _ _ _) E) as (_ & [(_ & [(_ & X)|(X & _)])|(X & _)]); congruence.
Qed.
(* and all this does not take forever *)
Theorem C89_terminates : forall ls w w', Forall internal ls -> exec w (map Net ls) = Some w' -> (length ls <= measure (wire w))%nat.
Proof.
  induction ls as [|l ls IH]; intros w w' F E; [cbn; lia|]. inversion F as [|? ? I F']. subst. cbn [map PipModel.exec length] in *.
  destruct (step w (Net l)) as [w1|] eqn:E1; [|discriminate]. destruct (frame_step _ _ _ _ _ _ _ _ _ _ E1) as (l' & H & ->).
  pose proof (measure_step _ _ _ I H). specialize (IH _ _ F' E). lia.
Qed.
End Props.

(* ---- examples and counterexamples need some text for documents; any will do ---- *)
Fixpoint toy (j : json) : bytes :=
  match j with
  | JNull => [0]
  | JBool b => [1; if b then 1 else 0]
  | JInt z => [2; match z with Zneg p => 2 * N.pos p + 1 | Z0 => 0 | Zpos p => 2 * N.pos p end]
  | JReal d => [3; d]
  | JString s => 4 :: N.of_nat (length s) :: s
  | JArray l => 5 :: N.of_nat (length l) :: flat_map toy l
  | JObject l => 6 :: N.of_nat (length l) :: flat_map (fun kx => N.of_nat (length (fst kx)) :: fst kx ++ toy (snd kx)) l
  end.
Fixpoint take_some (n : nat) (l : bytes) : option (bytes * bytes) :=
  match n, l with O, _ => Some ([], l) | S n, x :: r => match take_some n r with Some (a, b) => Some (x :: a, b) | None => None end | _, _ => None end.
Fixpoint untoy (fuel : nat) (t : bytes) : option (json * bytes) :=
  match fuel with O => None | S fuel =>
  let items := fix items (n : nat) (t : bytes) : option (list json * bytes) :=
    match n with
    | O => Some ([], t)
    | S n => match untoy fuel t with Some (j, r) => match items n r with Some (l, r) => Some (j :: l, r) | None => None end | None => None end
    end in
  let fields := fix fields (n : nat) (t : bytes) : option (list (bytes * json) * bytes) :=
    match n, t with
    | O, _ => Some ([], t)
    | S n, k :: r => match take_some (N.to_nat k) r with
                     | Some (s, r) => match untoy fuel r with Some (j, r) => match fields n r with Some (l, r) => Some ((s, j) :: l, r) | None => None end | None => None end
                     | None => None
                     end
    | _, _ => None
    end in
  match t with
  | 0 :: r => Some (JNull, r)
  | 1 :: b :: r => Some (JBool (b =? 1), r)
  | 2 :: n :: r => Some (JInt (if n =? 0 then 0%Z else if N.odd n then (- Z.of_N (n / 2))%Z else Z.of_N (n / 2)), r)
  | 3 :: d :: r => Some (JReal d, r)
  | 4 :: n :: r => match take_some (N.to_nat n) r with Some (s, r) => Some (JString s, r) | None => None end
  | 5 :: n :: r => match items (N.to_nat n) r with Some (l, r) => Some (JArray l, r) | None => None end
  | 6 :: n :: r => match fields (N.to_nat n) r with Some (l, r) => Some (JObject l, r) | None => None end
  | _ => None
  end end.
Definition untoy_all (t : bytes) : option json := match untoy (S (length t)) t with Some (j, []) => Some j | _ => None end.

Lemma take_some_app s r : take_some (length s) (s ++ r) = Some (s, r).
Proof. induction s as [|x s IH]; cbn; auto. now rewrite IH. Qed.
Fixpoint untoy_toy (j : json) {struct j} : forall fuel r, (length (toy j) <= fuel)%nat -> untoy (S fuel) (toy j ++ r) = Some (j, r).
Proof.
  destruct j as [|b|z|d|s|l|l]; intros fuel r H.
  - reflexivity.
  - cbn. now destruct b.
  - destruct z as [|p|p]; cbn [toy app untoy]; [reflexivity| |].
    + replace (2 * N.pos p =? 0) with false by (symmetry; apply N.eqb_neq; lia). replace (N.odd (2 * N.pos p)) with false by reflexivity.
      rewrite N.mul_comm, N.div_mul by lia. reflexivity.
    + replace (2 * N.pos p + 1 =? 0) with false by (symmetry; apply N.eqb_neq; lia).
      replace (N.odd (2 * N.pos p + 1)) with true by reflexivity.
      replace ((2 * N.pos p + 1) / 2) with (N.pos p) by (apply N.div_unique with 1; lia). reflexivity.
  - reflexivity.
  - cbn [toy app untoy]. rewrite Nat2N.id, take_some_app. reflexivity.
  - cbn [toy length] in H. cbn [toy app]. cbn [untoy]. rewrite Nat2N.id.
    match goal with |- match ?f _ _ with _ => _ end = _ => set (items := f) end.
    assert (G : forall r, items (length l) (flat_map toy l ++ r) = Some (l, r)).
    { assert (Hl : (length (flat_map toy l) < fuel)%nat) by lia. clear H. revert Hl. subst items. induction l as [|x l IH]; intros Hl r0; [reflexivity|].
      cbn [flat_map length] in *. rewrite app_length in Hl. rewrite <- app_assoc. destruct fuel as [|fuel]; [lia|].
      rewrite (untoy_toy x fuel) by lia. rewrite IH by lia. reflexivity. }
    now rewrite G.
  - cbn [toy length] in H. cbn [toy app]. cbn [untoy]. rewrite Nat2N.id.
    match goal with |- match ?f _ _ with _ => _ end = _ => set (fields := f) end.
    assert (G : forall r, fields (length l) (flat_map (fun kx => N.of_nat (length (fst kx)) :: fst kx ++ toy (snd kx)) l ++ r) = Some (l, r)).
    { assert (Hl : (length (flat_map (fun kx => N.of_nat (length (fst kx)) :: fst kx ++ toy (snd kx)) l) < fuel)%nat) by lia. clear H. revert Hl. subst fields.
      induction l as [|[k x] l IH]; intros Hl r0; [reflexivity|].
      cbn [flat_map length fst snd app] in *. rewrite !app_length in Hl. rewrite Nat2N.id, <- !app_assoc, take_some_app. destruct fuel as [|fuel]; [lia|].
      rewrite (untoy_toy x fuel) by lia. rewrite IH by lia. reflexivity. }
    now rewrite G.
Qed.
Lemma toy_ok j : untoy_all (toy j) = Some j.
Proof. unfold untoy_all. rewrite <- (app_nil_r (toy j)) at 2. now rewrite untoy_toy by lia. Qed.

(* Full claim 1: every text which arrives is handed to the action as a message or ends the loop.  False: a type id which
   the receiver does not know is passed over in silence. *)
Theorem C89_unknown_refuted : ~ (forall alts term parse print, (forall j, parse (print j) = Some j) -> Forall proper alts ->
  forall es w, PipModel.exec alts term (fun _ => false) (fun _ => None) (fun _ => 0) parse print start es = Some w ->
  settled w = [] -> (length (delivered (wire w)) <= length (acted w))%nat).
Proof.
  intros H. specialize (H [SInt; SEmpty] 1%nat untoy_all toy toy_ok ltac:(repeat constructor)).
  specialize (H [Raw (toy (JArray [JInt 9; JInt 5])); Net (Push 10); Net (Pull 4); Net ReadDone; Net (Pull 6); Net ReadDone]).
  eassert (L : (_ <= _)%nat).
  { eapply H; [vm_compute; reflexivity|reflexivity]. }
  vm_compute in L. inversion L.
Qed.
(* Full claim 2: whatever messages of the type the other side writes, the action is called for the first of them in
   order, and the promise does not reject while the connection is open.  False: of what JSON does not carry one message
   ends the loop. *)
Theorem C89_empty_refuted : ~ (forall alts term parse print, (forall j, parse (print j) = Some j) -> Forall proper alts ->
  forall es w, polite es -> PipModel.exec alts term (fun _ => false) (fun _ => None) (fun _ => 0) parse print start es = Some w ->
  (forall i v, In (i, v) (said es) -> has_shape (SVar (SEmpty :: alts)) (VVar (S i) v)) -> closed (wire w) = false ->
  settled w = [] \/ exists v, settled w = [Done v]).
Proof.
  intros H. specialize (H [SCont SInt; SEmpty] 1%nat untoy_all toy toy_ok ltac:(repeat constructor)).
  specialize (H [Say 0 (VCont []); Net (Push 9); Net (Pull 4); Net ReadDone; Net (Pull 5); Net ReadDone]).
  edestruct H as [E|(v & E)]; [|vm_compute; reflexivity| | |discriminate E|discriminate E].
  - intros t [X|[X|[X|[X|[X|[X|[]]]]]]]; discriminate.
  - intros i v [X|[]]. injection X as <- <-. exact I.
  - reflexivity.
Qed.

(* Full claim 3: no text leads to undefined behaviour.  False: a message with a buffer may come as a text that is too long
   for base64_decode (C44_long). *)
Theorem C89_long : forall n alts term fails integral_of double_of parse t x,
  parse t = Some (JArray [JInt 1; JString x]) -> all_bytes x -> ~ In 0 x -> 2 ^ 31 <= 3 * N.of_nat (non_pad_count x) -> N.of_nat (non_pad_count x) < 2 ^ 31 ->
  receive (SBuffer n :: alts) term fails integral_of double_of parse t = ([], [Undefined]).
Proof.
  intros n alts term fails integral_of double_of parse t x E Hb Hz L U. unfold receive, from_string. rewrite E. unfold message. cbn - [read default].
  pose proof (C44_long integral_of double_of n x (match n with Some k => repeat 0 k | None => [] end) Hb Hz L U) as R.
  assert (V : (0 <=? 1)%Z && (1 <? Z.of_nat (length (SEmpty :: SBuffer n :: alts)))%Z = true) by (apply andb_true_intro; split; [reflexivity|apply Z.ltb_lt; cbn [length]; lia]).
  assert (G : read integral_of double_of (SVar (SEmpty :: SBuffer n :: alts)) (JArray [JInt 1; JString x]) (default (SVar (SEmpty :: SBuffer n :: alts))) = UB); [|rewrite G; reflexivity].
  generalize (default (SVar (SEmpty :: SBuffer n :: alts))). intros old.
  change (read integral_of double_of (SVar (SEmpty :: SBuffer n :: alts)) (JArray [JInt 1; JString x]) old) with
    (if negb ((0 <=? 1)%Z && (1 <? Z.of_nat (length (SEmpty :: SBuffer n :: alts)))%Z) then Ok (Some old)
     else thenr (read integral_of double_of (SBuffer n) (JString x) (default (SBuffer n))) (fun v => Ok (Some (VVar 1 v)))).
  rewrite V. cbn [negb]. change (default (SBuffer n)) with (VBuffer match n with Some k => repeat 0 k | None => [] end). rewrite R. reflexivity.
Qed.

Print Assumptions C89_handles.
Print Assumptions C89_once.
Print Assumptions C89_in_order_partial.
Print Assumptions C89_done_partial.
Print Assumptions C89_all_partial.
Print Assumptions C89_cut_off.
Print Assumptions C89_terminates.
Print Assumptions C89_long.
Print Assumptions C89_unknown_refuted.
Print Assumptions C89_empty_refuted.

(* a number, a string, then the end; a number behind it is not looked at *)
Definition some_alts : list shape := [SInt; SString; SEmpty].
Definition script : list event :=
  [Say 0 (VInt 7); Net (Push 3); Net (Pull 2); Net (Push 7); Net WriteDone; Net (Pull 2); Net ReadDone; Net (Pull 6); Net ReadDone;
   Say 1 (VString (bs "ab")); Net (Push 12); Net WriteDone; Say 2 VEmpty; Net (Push 6); Net WriteDone; Net (Pull 4); Net ReadDone; Net (Pull 8); Net ReadDone;
   Say 0 (VInt 1); Net (Pull 4); Net ReadDone; Net (Pull 2); Net ReadDone].
Example C89_ex : match PipModel.exec some_alts 2 (fun _ => false) (fun _ => None) (fun _ => 0) untoy_all toy start script with
  | Some w => acted w = [VVar 1 (VInt 7); VVar 2 (VString (bs "ab")); VVar 3 VEmpty] /\ settled w = [Done (VVar 3 VEmpty)] /\
              acted w = map alternative_of (until 2 (said script)) /\ length (said script) = 4%nat /\
              PipModel.step some_alts 2 (fun _ => false) (fun _ => None) (fun _ => 0) untoy_all toy w (Net (Pull 1)) = None
  | None => False
  end.
Proof. vm_compute. repeat split. Qed.
(* the action throws for the second message *)
Example C89_throw_ex : match PipModel.exec some_alts 2 (fun v => match v with VVar 2 _ => true | _ => false end) (fun _ => None) (fun _ => 0) untoy_all toy start (firstn 19 script) with
  | Some w => acted w = [VVar 1 (VInt 7); VVar 2 (VString (bs "ab"))] /\ settled w = [BadAction]
  | None => False
  end.
Proof. vm_compute. repeat split. Qed.
(* the connection ends in the middle of a message *)
Example C89_cut_ex : match PipModel.exec some_alts 2 (fun _ => false) (fun _ => None) (fun _ => 0) untoy_all toy start [Say 0 (VInt 7); Net (Push 5); Net Close; Net (Pull 4); Net ReadDone; Net (Pull 1); Net ReadEof] with
  | Some w => acted w = [] /\ settled w = [BadSocket] /\ failed (wire w) = true
  | None => False
  end.
Proof. vm_compute. repeat split. Qed.
