(* Proofs about two connected endpoints. *)
From Coq Require Import String.
From Verif Require Import Base WsModel WsSpec WsProofs HandshakeModel HandshakeProofs HandshakeProps ShaModel ShaProps EndpointModel EndpointSpec EndpointProofs EndpointProps DuoModel DuoSpec.
Open Scope N_scope.

Lemma prefix_refl {A} (a : list A) : prefix a a.
Proof. exists []. now rewrite app_nil_r. Qed.
Lemma prefix_trans {A} (a b c : list A) : prefix a b -> prefix b c -> prefix a c.
Proof. intros [x ->] [y ->]. exists (x ++ y). now rewrite app_assoc. Qed.
Lemma prefix_app {A} (a b : list A) : prefix a (a ++ b).
Proof. now exists b. Qed.
Lemma prefix_more {A} (a b c : list A) : prefix a b -> prefix a (b ++ c).
Proof. intros [x ->]. exists (x ++ c). now rewrite app_assoc. Qed.

(* ---- a part of the request ---- *)
Lemma read_until_more : forall reads buffer unread size b u r, read_until reads buffer unread = Line size b u r ->
  exists used, forall x more, read_until (used ++ more) buffer (unread ++ x) = Line size b (u ++ x) more.
Proof.
  induction reads as [|n reads IH]; intros buffer unread size b u r E; cbn [read_until] in E.
  - destruct (find_crlf buffer) as [i|] eqn:Ef.
    + injection E as <- <- <- <-. exists []. intros x more. cbn [app]. destruct more; cbn [read_until]; now rewrite Ef.
    + destruct (Nat.leb 256 (length buffer)); [discriminate|]. destruct unread; discriminate.
  - destruct (find_crlf buffer) as [i|] eqn:Ef.
    + injection E as <- <- <- <-. exists []. intros x more. cbn [app]. destruct more; cbn [read_until]; now rewrite Ef.
    + destruct (Nat.leb 256 (length buffer)) eqn:El; [discriminate|]. destruct unread as [|c unread]; [discriminate|].
      apply Nat.leb_gt in El.
      set (k := Nat.max 1 (Nat.min n (256 - length buffer))) in E.
      apply IH in E as [used U]. exists (Nat.min k (length (c :: unread)) :: used). intros x more.
      cbn [app]. cbn [read_until]. rewrite Ef. replace (Nat.leb 256 (length buffer)) with false by (symmetry; apply Nat.leb_gt; exact El).
      change (c :: unread ++ x) with ((c :: unread) ++ x).
      set (k' := Nat.min k (length (c :: unread))).
      assert (K : Nat.max 1 (Nat.min k' (256 - length buffer)) = k').
      { subst k' k. cbn [length]. lia. }
      rewrite K.
      assert (F : firstn k' ((c :: unread) ++ x) = firstn k (c :: unread)).
      { rewrite firstn_app. replace (k' - length (c :: unread))%nat with 0%nat by (subst k'; lia). rewrite firstn_O, app_nil_r.
        subst k'. destruct (Nat.min_spec k (length (c :: unread))) as [[L ->]|[L ->]]; [reflexivity|]. now rewrite firstn_all, firstn_all2. }
      assert (G : skipn k' ((c :: unread) ++ x) = skipn k (c :: unread) ++ x).
      { rewrite skipn_app. replace (k' - length (c :: unread))%nat with 0%nat by (subst k'; lia). rewrite skipn_O.
        f_equal. subst k'. destruct (Nat.min_spec k (length (c :: unread))) as [[L ->]|[L ->]]; [reflexivity|]. now rewrite skipn_all, skipn_all2. }
      rewrite F, G. apply U.
Qed.

Lemma read_headers_more : forall f reads info buffer unread,
  match read_headers f reads info buffer unread with
  | Resolved i b u => exists used, forall x more f', (f <= f')%nat -> read_headers f' (used ++ more) info buffer (unread ++ x) = Resolved i b (u ++ x)
  | HandshakeModel.Undefined => exists used, forall x more f', (f <= f')%nat -> read_headers f' (used ++ more) info buffer (unread ++ x) = HandshakeModel.Undefined
  | RejectBadRequest => False
  | _ => True
  end.
Proof.
  induction f as [|f IH]; intros reads info buffer unread; [exact I|]. cbn [read_headers].
  destruct (read_until reads buffer unread) as [size b u r| |] eqn:E; try exact I.
  apply read_until_more in E as [used U].
  destruct (Nat.ltb 2 size) eqn:Es.
  - destruct (parse_header info (firstn (size - 2) b)) as [info'|] eqn:Ep.
    + specialize (IH r info' (skipn size b) u). destruct (read_headers f r info' (skipn size b) u); try exact IH;
        (destruct IH as [used' U']; exists (used ++ used'); intros x more [|f'] Hf; [lia|]; cbn [read_headers]; rewrite <- app_assoc, U, Es, Ep; apply U'; lia).
    + exists used. intros x more [|f'] Hf; [lia|]. cbn [read_headers]. now rewrite U, Es, Ep.
  - exists used. intros x more [|f'] Hf; [lia|]. cbn [read_headers]. now rewrite U, Es.
Qed.

Lemma request_part origin token reads pre post : fits origin token -> handshake_request origin token = pre ++ post ->
  match parse_handshake_request reads pre with
  | Resolved info _ u => post = [] /\ u = [] /\ websocket_key info = bs "dGhlIHNhbXBsZSBub25jZQ==" /\ get_auth_token (cookies info) = Some (token, false)
  | RejectError | HandshakeModel.Waiting => True
  | _ => False
  end.
Proof.
  intros (H1 & H2 & H3 & H4 & H5) E.
  assert (T : exists t, handshake_request origin token = (bs "GET / HTTP/1.1" ++ crlf) ++ t).
  { unfold handshake_request. eexists. cbn [bs crlf app]. reflexivity. }
  destruct T as [t T].
  unfold parse_handshake_request. set (g := bs "GET / HTTP/1.1" ++ crlf) in *. unfold expect_equal.
  destruct (Nat.ltb_spec (length pre) (length g)) as [|L]; [exact I|].
  assert (P : exists q, pre = g ++ q /\ t = q ++ post).
  { destruct (app_split pre post g t) as (q & A & B); [congruence|exact L|]. exists q. auto. }
  destruct P as (q & -> & ->). rewrite first_len, bytes_eqb_refl, skip_len. clear L.
  pose proof (read_headers_more (S (length q)) reads (mk_info [] []) [] q) as M.
  assert (R : forall used, parse_handshake_request (used ++ repeat 1%nat (length (handshake_request origin token))) (handshake_request origin token)
    = read_headers (S (length (q ++ post))) (used ++ repeat 1%nat (length (handshake_request origin token))) (mk_info [] []) [] (q ++ post)).
  { intros used. rewrite T at 2. unfold parse_handshake_request. fold g. now rewrite expect_app. }
  assert (C : forall used, exists info, read_headers (S (length (q ++ post))) (used ++ repeat 1%nat (length (handshake_request origin token))) (mk_info [] []) [] (q ++ post)
     = Resolved info crlf [] /\ websocket_key info = bs "dGhlIHNhbXBsZSBub25jZQ==" /\ get_auth_token (cookies info) = Some (token, false)).
  { intros used. rewrite <- R. apply C22_request_understood_partial; auto. rewrite app_length, repeat_length. lia. }
  assert (LL : (S (length q) <= S (length (q ++ post)))%nat) by (rewrite app_length; lia).
  destruct (read_headers (S (length q)) reads (mk_info [] []) [] q) as [i b u| | | |]; try exact I.
  - destruct M as [used U]. destruct (C used) as (info & X & K1 & K2). rewrite U in X by exact LL.
    injection X as -> Eb Eu. apply app_eq_nil in Eu as [-> ->]. auto.
  - exact M.
  - destruct M as [used U]. destruct (C used) as (info & X & K1 & K2). rewrite U in X by exact LL. discriminate.
Qed.

(* the response *)
Lemma response_sig : { response : bytes |
  (forall info, websocket_key info = bs "dGhlIHNhbXBsZSBub25jZQ==" -> handshake_response info = Ok response)
  /\ (forall rest, parse_handshake_response (response ++ rest) = inl rest)
  /\ (forall pre post, response = pre ++ post -> post <> [] -> parse_handshake_response pre = inr RejectError)
  /\ [] <> response }.
Proof.
  destruct (handshake_response (mk_info (bs "dGhlIHNhbXBsZSBub25jZQ==") [])) as [response|] eqn:R; [|vm_compute in R; discriminate]. exists response.
  assert (P : forall input, parse_handshake_response input = expect_equal response input).
  { intros input. unfold parse_handshake_response. f_equal. vm_compute in R. injection R as <-. vm_compute. reflexivity. }
  assert (K : [] <> response) by (vm_compute in R; injection R as <-; discriminate).
  assert (O : forall info, websocket_key info = bs "dGhlIHNhbXBsZSBub25jZQ==" -> handshake_response info = Ok response).
  { intros [k c]. cbn [websocket_key]. intros ->. exact R. }
  clear R. split; [exact O|]. split; [|split; [|exact K]].
  - intros rest. rewrite P. apply expect_app.
  - intros pre post -> Hp. rewrite P. unfold expect_equal. rewrite app_length.
    destruct (Nat.ltb_spec (length pre) (length pre + length post)); [reflexivity|]. destruct post; [congruence|cbn in *; lia].
Qed.
Definition response : bytes := proj1_sig response_sig.
Lemma response_of info : websocket_key info = bs "dGhlIHNhbXBsZSBub25jZQ==" -> handshake_response info = Ok response.
Proof. apply (proj2_sig response_sig). Qed.
Lemma response_part pre post : response = pre ++ post -> post <> [] -> parse_handshake_response pre = inr RejectError.
Proof. apply (proj2_sig response_sig). Qed.
Lemma response_whole rest : parse_handshake_response (response ++ rest) = inl rest.
Proof. apply (proj2_sig response_sig). Qed.
Lemma response_ne : [] <> response.
Proof. apply (proj2_sig response_sig). Qed.

(* ---- what an endpoint puts on the wire ---- *)
Lemma written_app a b : written (a ++ b) = written a ++ written b.
Proof. unfold written. apply flat_map_app. Qed.

Lemma written_none o : count is_write o = 0%nat -> written o = [] /\ data_writes o = [].
Proof.
  induction o as [|x o IH]; [auto|]. unfold count. destruct x; cbn [filter is_write length]; try discriminate. exact IH.
Qed.

Lemma written_shape : forall o, (forall a c b, o = a ++ OClose c :: b -> count is_write b = 0%nat) -> (forall c, In (OClose c) o -> c = close_chunk) ->
  written o = concat (data_writes o) ++ (if existsb is_close_write o then close_chunk else []).
Proof.
  induction o as [|x o IH]; intros H1 H2; [reflexivity|].
  destruct x as [c|c|h].
  - change (written (OData c :: o)) with (c ++ written o). change (data_writes (OData c :: o)) with (c :: data_writes o).
    cbn [concat existsb is_close_write orb]. rewrite <- app_assoc. f_equal. apply IH.
    + intros a c' b ->. apply (H1 (OData c :: a) c' b). reflexivity.
    + intros c' Hc. apply H2. now right.
  - change (written (OClose c :: o)) with (c ++ written o). change (data_writes (OClose c :: o)) with (data_writes o).
    cbn [existsb is_close_write orb]. destruct (written_none o) as [-> ->]; [apply (H1 [] c o); reflexivity|].
    cbn [concat app]. rewrite app_nil_r. apply H2. now left.
  - change (written (OHandler h :: o)) with (written o). change (data_writes (OHandler h :: o)) with (data_writes o).
    cbn [existsb is_close_write orb]. apply IH.
    + intros a c' b ->. apply (H1 (OHandler h :: a) c' b). reflexivity.
    + intros c' Hc. apply H2. now right.
Qed.

Lemma data_frames fs w : WireBytes fs w -> forall acc rest, safe acc fs -> Forall (fun f => is_data f = true) fs ->
  run_from acc (w ++ rest) = (map EvMessage (delivered acc fs) ++ fst (run_from (WsSpec.pending acc fs) rest), snd (run_from (WsSpec.pending acc fs) rest)).
Proof.
  induction 1 as [|f fs w ws HF HW IH]; intros acc rest HS HD.
  - cbn [app WsSpec.pending delivered map]. destruct (run_from acc rest); auto.
  - destruct HS as [Hf HS]. apply Forall_cons_iff in HD as [Hd HD]. rewrite <- app_assoc. cbn [WsSpec.pending delivered]. rewrite Hd in *.
    pose proof (frame_turn_data acc f w (ws ++ rest) HF Hf Hd) as T.
    destruct (fin f); rewrite (run_from_next _ _ _ _ _ T), IH; auto.
Qed.

Section Wire.
Variable op : N.
Hypothesis Hop : op = op_text \/ op = op_binary.

Lemma op_le : op <= 2. Proof. destruct Hop as [-> | ->]; vm_compute; discriminate. Qed.

Definition stream (l : list bytes) : bytes := concat (concat (map (chunks op) l)).

(* what is left open when a message does not end *)
Fixpoint left_over (acc : bytes) (l : list bytes) : bytes :=
  match l with
  | [] => acc
  | p :: r => if Nat.eqb (length p mod default_max_frame) 0 && negb (Nat.eqb (length p) 0) then left_over (acc ++ p) r else left_over [] r
  end.

Lemma stream_frames l : Forall small l -> exists fs, WireBytes fs (stream l) /\ (forall acc, delivered acc fs = merged default_max_frame acc l) /\
  (forall acc, WsSpec.pending acc fs = left_over acc l) /\ (forall a, safe a fs) /\ Forall (fun f => is_data f = true) fs.
Proof.
  induction 1 as [|p l Hl _ (fs & HW & HD & HP & HS & HDat)].
  - exists []. repeat split; constructor.
  - assert (Hm : 0 < N.of_nat default_max_frame < 65536) by (vm_compute; auto).
    destruct (send_message_spec default_max_frame op p) as (ws & fs1 & E1 & HW1 & HO); [vm_compute; lia|pose proof op_le; lia|exact Hl|].
    exists (fs1 ++ fs). unfold stream. cbn [map concat]. unfold chunks at 1. rewrite E1, concat_app.
    split; [apply wire_app; [apply wire_of_forall2, HW1|exact HW]|].
    destruct (frags_delivered default_max_frame op p fs1 Hm op_le HO) as [Hd _].
    split; [|split; [|split]].
    + intros acc. destruct (delivered_step fs1 _ op p acc Hm op_le HO) as (D & P & _). destruct (delivered_app fs1 fs acc) as [-> _]. rewrite D, P. cbn [merged].
      destruct (Nat.eqb _ _ && _); rewrite HD; reflexivity.
    + intros acc. destruct (delivered_step fs1 _ op p acc Hm op_le HO) as (D & P & _). destruct (delivered_app fs1 fs acc) as [_ ->]. rewrite P. cbn [left_over].
      destruct (Nat.eqb _ _ && _); rewrite HP; reflexivity.
    + intros a. destruct (delivered_step fs1 _ op p a Hm op_le HO) as (_ & _ & S1). apply safe_app. split; [apply S1|apply HS].
    + apply Forall_app. auto.
Qed.

Lemma stream_run l rest : Forall small l ->
  run (stream l ++ rest) = (map EvMessage (joined l) ++ fst (run_from (left_over [] l) rest), snd (run_from (left_over [] l) rest)).
Proof.
  intros H. destruct (stream_frames l H) as (fs & HW & HD & HP & HS & HDat). unfold run. now rewrite (data_frames _ _ HW [] rest (HS []) HDat), HD, HP.
Qed.

Lemma merged_prefix a : forall acc b, prefix (merged 125 acc a) (merged 125 acc (a ++ b)).
Proof.
  induction a as [|p a IH]; intros acc b; [now exists (merged 125 acc b)|]. cbn [merged app].
  destruct (Nat.eqb _ _ && _); [apply IH|]. destruct (IH [] b) as [c E]. exists c. rewrite E. reflexivity.
Qed.
Lemma joined_prefix a b : prefix (joined a) (joined (a ++ b)).
Proof. apply merged_prefix. Qed.
Lemma close_any acc : run_from acc close_chunk = ([EvClose []], Stopped).
Proof. reflexivity. Qed.
Lemma nil_any acc : run_from acc [] = ([], WsModel.Waiting).
Proof. reflexivity. Qed.

Lemma stream_app a b : stream (a ++ b) = stream a ++ stream b.
Proof. unfold stream. now rewrite map_app, !concat_app. Qed.

Lemma map_prefix (l acc : list bytes) evs more : map EvMessage acc = evs ++ more -> exists l', evs = map EvMessage l' /\ prefix l' acc.
Proof.
  revert evs. induction acc as [|m acc IH]; intros [|e evs] E; cbn in E; try discriminate.
  - exists []. split; [reflexivity|exists []; reflexivity].
  - exists []. split; [reflexivity|exists (m :: acc); reflexivity].
  - injection E as <- E. destruct (IH _ E) as (l' & -> & c & ->). exists (m :: l'). split; [reflexivity|exists c; reflexivity].
Qed.

Lemma wire_run ls s o : exec op init ls = Some (s, o) -> no_write_error ls -> Forall small (accepted ls) ->
  let cw := existsb is_close_write o in
  exists l, run (written o) = (map EvMessage l ++ (if cw then [EvClose []] else []), if cw then Stopped else WsModel.Waiting)
    /\ prefix l (joined (accepted ls)) /\ (cw = false -> inflight s = [] -> queue s = [] -> l = joined (accepted ls)).
Proof.
  intros E Hn HG cw.
  assert (WS : written o = concat (data_writes o) ++ (if cw then close_chunk else [])).
  { apply written_shape; [intros a c b; eapply nothing_after_close; [exact I1_init|exact E]|intros c; eapply close_chunk_only; exact E]. }
  assert (HP : prefix_inv op [] [] init) by (exists [], []; cbn; auto).
  pose proof (exec_prefix op ls false [] [] init s o I1_init Hn HP E) as (dn & w & A & B & C). cbn [app] in A, B.
  destruct (exec_I1 _ _ _ _ _ _ I1_init E) as [HI _]. cbn [orb] in HI. fold cw in HI.
  assert (Gd : Forall small dn) by (rewrite A in HG; apply Forall_app in HG; tauto).
  rewrite WS, B. destruct cw eqn:Ecw.
  - assert (w = []).
    { destruct C as [[_ ->]|[[_ ->]|(p & q & cs & Hf & _)]]; auto. destruct (i_fl _ _ HI) as [X|[(cs' & X & Y & _)|[X _]]]; congruence. }
    subst w. rewrite app_nil_r. exists (joined dn). fold (stream dn). rewrite (stream_run dn close_chunk Gd), close_any.
    split; [reflexivity|]. split; [rewrite A; apply joined_prefix|discriminate].
  - rewrite app_nil_r.
    assert (X : exists more, stream (accepted ls) = concat (concat (map (chunks op) dn) ++ w) ++ more).
    { rewrite A, stream_app. rewrite concat_app. fold (stream dn). destruct C as [[_ ->]|[[_ ->]|(p & q & cs & Hf & Hq & Ech)]].
      - exists (stream (queue s)). now rewrite app_nil_r.
      - exists (stream (queue s)). now rewrite app_nil_r.
      - rewrite Hq. exists (concat cs ++ stream q). unfold stream at 2. cbn [map concat]. rewrite Ech, !concat_app, <- !app_assoc. reflexivity. }
    destruct X as [more X]. pose proof (stream_run (accepted ls) [] HG) as R. rewrite app_nil_r, nil_any in R. cbn [fst snd] in R. rewrite app_nil_r in R.
    set (W := concat (concat (map (chunks op) dn) ++ w)) in *.
    destruct (run_prefix W more) as [[Hw [evs Hm]]|[Hw Hm]]; rewrite <- X, R in Hm; cbn [fst] in Hm.
    + destruct (map_prefix [] _ _ _ Hm) as (l & El & Pl). exists l. split; [rewrite app_nil_r, <- El, <- Hw; apply surjective_pairing|].
      split; [exact Pl|]. intros _ Hf Hq. rewrite Hq, app_nil_r in A.
      assert (w = []) by (destruct C as [[_ ->]|[[_ ->]|(p & q & cs & Hf' & Hq' & _)]]; congruence). subst w.
      assert (W = stream (accepted ls)) by (subst W; rewrite app_nil_r, A; reflexivity).
      rewrite H, R in El. cbn [fst] in El. clear -El. revert El. generalize (joined (accepted ls)). intros b. revert l. induction b as [|x b IH]; intros [|y l] E; cbn in E; try discriminate; auto. injection E as -> E. f_equal. auto.
    + rewrite <- Hm in Hw. cbn in Hw. congruence.
Qed.
End Wire.

(* ---- one endpoint ---- *)
Lemma exec_snoc op ls l s s1 s2 o o1 : exec op s ls = Some (s1, o) -> step op s1 l = Some (s2, o1) -> exec op s (ls ++ [l]) = Some (s2, o ++ o1).
Proof.
  revert s o. induction ls as [|x ls IH]; intros s o E St; cbn [exec app] in *.
  - injection E as <- <-. rewrite St. now rewrite app_nil_r.
  - destruct (step op s x) as [[s' o']|]; [|discriminate]. destruct (exec op s' ls) as [[s3 o3]|] eqn:E3; [|discriminate].
    injection E as <- <-. rewrite (IH s' o3 E3 St). now rewrite app_assoc.
Qed.

Lemma heard_app a b : heard_in (a ++ b) = heard_in a ++ heard_in b.
Proof. unfold heard_in. apply flat_map_app. Qed.

(* what a label tells the application *)
Definition told (stopped : bool) (l : label) : list bytes := match l with RxMessage p => if stopped then [] else [p] | _ => [] end.

Lemma loop_heard op s s' o : loop_turn op s = (s', o) -> heard_in o = [].
Proof.
  unfold loop_turn. rewrite close_send. destruct (is_close _); [intros E; injection E as <- <-; reflexivity|].
  destruct (queue s) as [|p q]; [intros E; injection E as <- <-; reflexivity|]. destruct (chunks_some op p) as (c & cs & ->).
  intros E. injection E as <- <-. reflexivity.
Qed.
Lemma ssq_heard op s s' o : start_send_queue op s = (s', o) -> heard_in o = [].
Proof. unfold start_send_queue. destruct (_ || _); [intros E; injection E as <- <-; reflexivity|apply loop_heard]. Qed.
Lemma call_heard s h : (forall p, h <> HMessage p) -> heard_in (call_handler s h) = [].
Proof. unfold call_handler. destruct (stopped s); [reflexivity|]. destruct h; try reflexivity. intros H. exfalso. now apply (H p). Qed.

Lemma step_heard op s l s' o : step op s l = Some (s', o) -> heard_in o = told (stopped s) l.
Proof.
  unfold step. destruct (crashed s); [discriminate|].
  destruct l as [p| | | |p| |p| | | |i|i rs]; unfold reader_label, start_messaging, send_message_call, send_close_call; cbv zeta;
    try (destruct (negb (reader_on s)) eqn:Erd; [discriminate|]); intros E; cbn [told].
  - apply some_inj in E. eapply ssq_heard; exact E.
  - apply some_inj in E. eapply ssq_heard; exact E.
  - apply some_inj in E. destruct (_ && _); [|injection E as <- <-; reflexivity].
    destruct (queue _); [injection E as <- <-; reflexivity|]. eapply ssq_heard; exact E.
  - injection E as <- <-. reflexivity.
  - injection E as <- <-. unfold call_handler. destruct (stopped s); reflexivity.
  - apply some_inj in E. destruct (is_close _); [injection E as <- <-; apply call_heard; discriminate|]. eapply ssq_heard; exact E.
  - injection E as <- <-. reflexivity.
  - injection E as <- <-. reflexivity.
  - injection E as <- <-. apply call_heard; discriminate.
  - injection E as <- <-. apply call_heard; discriminate.
  - unfold write_ok in E. destruct (nth_error _ _) as [w|]; [|discriminate]. apply some_inj in E. destruct w as [[|c cs]|].
    + eapply loop_heard; exact E.
    + injection E as <- <-. reflexivity.
    + injection E as <- <-. destruct (close_received _); [apply call_heard; discriminate|reflexivity].
  - unfold write_err in E. destruct (nth_error _ _) as [w|]; [|discriminate]. apply some_inj in E.
    destruct w; injection E as <- <-; [|reflexivity]. apply call_heard. destruct (_ && _); discriminate.
Qed.

(* an endpoint that was not started *)
Lemma started_mono op : forall ls s s' o, exec op s ls = Some (s', o) -> started s' = false -> started s = false.
Proof.
  induction ls as [|l ls IH]; intros s s' o E H.
  - injection E as <- <-. exact H.
  - apply exec_cons in E as (s1 & o1 & o2 & E1 & E2 & ->). apply IH in E2; auto. destruct (step_flags _ _ _ _ _ E1) as [F _].
    rewrite F in E2. now apply orb_false_iff in E2.
Qed.

Lemma quiet op : forall ls s s' o, exec op s ls = Some (s', o) -> started s' = false ->
  inflight s = [] -> reader_on s = false -> written o = [] /\ heard_in o = [] /\ inflight s' = [] /\ reader_on s' = false.
Proof.
  induction ls as [|l ls IH]; intros s s' o E H Hf Hr.
  - injection E as <- <-. auto.
  - apply exec_cons in E as (s1 & o1 & o2 & E1 & E2 & ->). pose proof (started_mono _ _ _ _ _ E2 H) as H1.
    assert (H0 : started s = false).
    { destruct (step_flags _ _ _ _ _ E1) as [F _]. rewrite F in H1. now apply orb_false_iff in H1. }
    assert (G : written o1 = [] /\ heard_in o1 = [] /\ inflight s1 = [] /\ reader_on s1 = false).
    { rewrite (step_heard _ _ _ _ _ E1). revert E1. unfold step. destruct (crashed s); [discriminate|].
      destruct l as [p| | | |p| |p| | | |i|i rs]; unfold reader_label, start_messaging, send_message_call, send_close_call, start_send_queue, write_ok, write_err; cbv zeta;
        rewrite ?Hr, ?Hf; cbn [negb]; try discriminate; try (destruct i; discriminate); intros E.
      - cbn [running stopped started set_queue] in E. rewrite H0 in E. cbn [negb] in E. rewrite orb_true_r in E. injection E as <- <-. cbn. auto.
      - cbn [running stopped started set_pending] in E. rewrite H0 in E. cbn [negb] in E. rewrite orb_true_r in E. injection E as <- <-. cbn. auto.
      - destruct (stopped s) eqn:Est.
        + rewrite H0 in E. cbn in E. injection E as <- <-. auto.
        + exfalso. apply some_inj in E. rewrite H0 in E. cbn [negb andb] in E.
          assert (X : started s1 = true).
          { destruct (queue _); [injection E as <- <-; reflexivity|]. apply (ssq_frame op (set_started s) s1 o1) in E as (_ & _ & F & _). exact F. }
          congruence.
      - injection E as <- <-. auto. }
    destruct G as (G1 & G2 & G3 & G4). destruct (IH _ _ _ E2 H G3 G4) as (K1 & K2 & K3 & K4).
    rewrite written_app, heard_app, G1, G2, K1, K2. auto.
Qed.

Section Two.
Variable op : side -> byte.
Hypothesis Hop : data_opcodes op.

(* what a side has written that arrives: everything before its first failing write *)
Definition source (sd : side) (p : peer) (acc : list bytes) (W : bytes) : Prop :=
  exists ls0 ls1 s0 o0, exec (op sd) init ls0 = Some (s0, o0) /\ no_write_error ls0 /\ exec (op sd) init (ls0 ++ ls1) = Some (ep p, outs p)
    /\ (broken p = false -> ls1 = []) /\ accepted (ls0 ++ ls1) = acc /\ W = written o0.

Definition recv (p : peer) (W : bytes) : Prop :=
  exists evs, (forall y, run (W ++ y) = (evs ++ fst (run_from (payload p) (inbox p ++ coming p ++ y)), snd (run_from (payload p) (inbox p ++ coming p ++ y))))
    /\ prefix (heard_in (outs p)) (messages evs) /\ (stopped (ep p) = false -> heard_in (outs p) = messages evs).

Definition same (p q : peer) : Prop :=
  phase_ q = phase_ p /\ notes q = notes p /\ payload q = payload p /\ inbox q = inbox p /\ coming q = coming p /\ broken q = broken p.

Lemma more_nil p : more [] p = p.
Proof. unfold more, with_coming. rewrite app_nil_r. now destruct p. Qed.
Lemma more_more a b p : more b (more a p) = more (a ++ b) p.
Proof. unfold more, with_coming. cbn. now rewrite app_assoc. Qed.

Lemma source_quiet sd p acc W : source sd p acc W -> started (ep p) = false ->
  W = [] /\ heard_in (outs p) = [] /\ inflight (ep p) = [] /\ reader_on (ep p) = false.
Proof.
  intros (ls0 & ls1 & s0 & o0 & E0 & Hn & E1 & Hb & Ha & ->) Hs.
  destruct (quiet _ _ _ _ _ E1 Hs eq_refl eq_refl) as (A & B & C & D).
  apply exec_app in E1 as (s' & oa & ob & Ea & Eb & Eo). rewrite E0 in Ea. injection Ea as <- <-.
  rewrite Eo, written_app in A. apply app_eq_nil in A as [A _]. auto.
Qed.

Lemma act_ok sd l me oth me' oth' acc W : act op sd l me oth = Some (me', oth') -> source sd me acc W -> (is_write_error l = true -> broken me = true) ->
  exists w, source sd me' (acc ++ accepted [l]) (W ++ w) /\ oth' = more w oth /\ same me me'
    /\ heard_in (outs me') = heard_in (outs me) ++ told (stopped (ep me)) l
    /\ started (ep me') = started (ep me) || (match l with CallStart => negb (stopped (ep me)) | _ => false end)
    /\ stopped (ep me') = stopped (ep me) || (match l with CallStop => true | _ => false end).
Proof.
  unfold act. destruct (step (op sd) (ep me) l) as [[s o]|] eqn:St; [|discriminate]. intros E (ls0 & ls1 & s0 & o0 & E0 & Hn & E1 & Hb & Ha & ->) Hw.
  apply some_inj in E. injection E as <- <-.
  pose proof (exec_snoc _ _ _ _ _ _ _ _ E1 St) as E2. destruct (step_flags _ _ _ _ _ St) as [F1 F2].
  assert (Acc : accepted ((ls0 ++ ls1) ++ [l]) = acc ++ accepted [l]) by (rewrite accepted_app, Ha; reflexivity).
  exists (if broken me then [] else written o).
  assert (R : same me (did o (with_ep s me))
    /\ heard_in (outs (did o (with_ep s me))) = heard_in (outs me) ++ told (stopped (ep me)) l
    /\ started (ep (did o (with_ep s me))) = started (ep me) || (match l with CallStart => negb (stopped (ep me)) | _ => false end)
    /\ stopped (ep (did o (with_ep s me))) = stopped (ep me) || (match l with CallStop => true | _ => false end)).
  { split; [repeat split|]. split; [|auto]. cbn [did outs with_ep]. now rewrite heard_app, (step_heard _ _ _ _ _ St). }
  destruct (broken me) eqn:Eb.
  - split; [|split; [now rewrite more_nil|exact R]].
    exists ls0, (ls1 ++ [l]), s0, o0. rewrite app_assoc. cbn [did with_ep ep outs broken]. rewrite app_nil_r, Eb. repeat split; auto; discriminate.
  - rewrite (Hb eq_refl) in *. rewrite app_nil_r in *. rewrite E0 in E1. injection E1 as -> ->.
    split; [|split; [reflexivity|exact R]].
    exists (ls0 ++ [l]), [], s, (outs me ++ o). rewrite app_nil_r. cbn [did with_ep ep outs broken].
    split; [exact E2|]. split.
    { unfold no_write_error in *. rewrite forallb_app, Hn. cbn. destruct (is_write_error l); [exfalso; specialize (Hw eq_refl); discriminate|reflexivity]. }
    split; [exact E2|]. split; [auto|]. split; [exact Acc|]. now rewrite written_app.
Qed.

Definition feed (sd : side) (evs : list event) (me oth : peer) : option (peer * peer) :=
  fold_left (fun r e => match r with None => None | Some (a, b) => act op sd (heard_as e) a b end) evs (Some (me, oth)).

Lemma feed_none sd evs : fold_left (fun r e => match r with None => None | Some (a, b) => act op sd (heard_as e) a b end) evs None = None.
Proof. induction evs; auto. Qed.

Lemma accepted_heard e : accepted [heard_as e] = []. Proof. destruct e; reflexivity. Qed.

Lemma feed_ok sd : forall evs me oth me' oth' acc W, feed sd evs me oth = Some (me', oth') -> source sd me acc W ->
  exists w, source sd me' acc (W ++ w) /\ oth' = more w oth /\ same me me'
    /\ heard_in (outs me') = heard_in (outs me) ++ (if stopped (ep me) then [] else messages evs)
    /\ started (ep me') = started (ep me) /\ stopped (ep me') = stopped (ep me).
Proof.
  induction evs as [|e evs IH]; intros me oth me' oth' acc W E HS.
  - injection E as <- <-. exists []. rewrite app_nil_r, more_nil. repeat split; auto. destruct (stopped (ep me)); now rewrite app_nil_r.
  - unfold feed in E. cbn [fold_left] in E. destruct (act op sd (heard_as e) me oth) as [[me1 oth1]|] eqn:A; [|rewrite feed_none in E; discriminate].
    destruct (act_ok _ _ _ _ _ _ _ _ A HS) as (w & S1 & O1 & (P1 & P2 & P3 & P4 & P5 & P6) & H1 & St1 & Sp1); [destruct e; discriminate|].
    rewrite accepted_heard, app_nil_r in S1.
    destruct (IH _ _ _ _ _ _ E S1) as (w2 & S2 & O2 & (Q1 & Q2 & Q3 & Q4 & Q5 & Q6) & H2 & St2 & Sp2).
    assert (X1 : stopped (ep me1) = stopped (ep me)) by (rewrite Sp1; destruct e; apply orb_false_r).
    assert (X2 : started (ep me1) = started (ep me)) by (rewrite St1; destruct e; apply orb_false_r).
    exists (w ++ w2). rewrite app_assoc. split; [exact S2|]. split; [rewrite O2, O1; apply more_more|].
    split; [repeat split; congruence|]. split; [|split; congruence].
    rewrite H2, H1, X1, <- app_assoc. f_equal. destruct (stopped (ep me)).
    + destruct e; reflexivity.
    + change (e :: evs) with ([e] ++ evs). rewrite messages_app. f_equal. destruct e; reflexivity.
Qed.

Lemma recv_more p W w : recv p W -> recv (more w p) (W ++ w).
Proof. intros (evs & H & K). exists evs. split; [|exact K]. intros y. cbn [more with_coming payload inbox coming]. rewrite <- !app_assoc. apply H. Qed.

Lemma recv_same p q W : recv p W -> payload q = payload p -> inbox q ++ coming q = inbox p ++ coming p -> heard_in (outs q) = heard_in (outs p) ->
  (stopped (ep q) = false -> stopped (ep p) = false) -> recv q W.
Proof.
  intros (evs & H & K1 & K2) E1 E2 E3 E4. exists evs. split; [|rewrite E3; auto].
  intros y. rewrite !app_assoc, E1, E2, <- !app_assoc. apply H.
Qed.

Lemma recv_next p q W evs p' rest : recv p W -> read_turn (payload p) (inbox p) = TNext evs p' rest ->
  payload q = p' -> inbox q = rest -> coming q = coming p -> stopped (ep q) = stopped (ep p) ->
  heard_in (outs q) = heard_in (outs p) ++ (if stopped (ep p) then [] else messages evs) -> recv q W.
Proof.
  intros (evs0 & H & K1 & K2) T E1 E2 E3 E4 E5. exists (evs0 ++ evs). split; [|split].
  - intros y. rewrite H, E1, E2, E3. 
    assert (T' : read_turn (payload p) (inbox p ++ coming p ++ y) = TNext evs p' (rest ++ coming p ++ y)) by (rewrite read_turn_mono by (rewrite T; discriminate); rewrite T; reflexivity).
    rewrite (run_from_next _ _ _ _ _ T'). cbn [fst snd]. now rewrite <- app_assoc.
  - rewrite E5, messages_app. destruct (stopped (ep p)) eqn:Es.
    + rewrite app_nil_r. now apply prefix_more.
    + rewrite (K2 eq_refl). apply prefix_refl.
  - rewrite E4. intros Hs. rewrite E5, Hs, messages_app, (K2 Hs). reflexivity.
Qed.

Lemma source_good sd p acc W : source sd p acc W -> Forall small acc -> snd (run W) <> WsModel.Undefined
  /\ prefix (messages (fst (run W))) (joined acc) /\ Forall (fun e => match e with EvMessage _ | EvClose [] => True | _ => False end) (fst (run W)).
Proof.
  intros (ls0 & ls1 & s0 & o0 & E0 & Hn & E1 & Hb & Ha & ->) HG. rewrite accepted_app in Ha.
  assert (G0 : Forall small (accepted ls0)) by (rewrite <- Ha in HG; apply Forall_app in HG; tauto).
  destruct (wire_run (op sd) (Hop sd) _ _ _ E0 Hn G0) as (l & R & P & _). rewrite R. cbn [fst snd].
  split; [destruct (existsb _ _); discriminate|]. split.
  - assert (M : messages (map EvMessage l) = l) by (clear; induction l as [|x l IH]; [reflexivity|cbn; f_equal; exact IH]).
    rewrite messages_app, M. replace (messages (if existsb is_close_write o0 then [EvClose []] else [])) with (@nil bytes) by (destruct (existsb _ _); reflexivity).
    rewrite app_nil_r, <- Ha. eapply prefix_trans; [exact P|apply joined_prefix].
  - apply Forall_app. split; [apply Forall_forall; intros e He; apply in_map_iff in He as (m & <- & _); exact I|].
    destruct (existsb _ _); repeat constructor.
Qed.

Lemma recv_defined sd q acc p W : recv p W -> source sd q acc W -> Forall small acc -> read_turn (payload p) (inbox p) <> TUndef.
Proof.
  intros (evs & H & _) HS HG T. destruct (source_good _ _ _ _ HS HG) as [U _]. apply U.
  specialize (H []). rewrite app_nil_r in H. rewrite H. cbn [snd].
  assert (T' : read_turn (payload p) (inbox p ++ coming p ++ []) = TUndef) by (rewrite read_turn_mono by (rewrite T; discriminate); rewrite T; reflexivity).
  rewrite run_from_unfold, T'. reflexivity.
Qed.
End Two.

Lemma step_nobad op s l s' o : step op s l = Some (s', o) -> l <> RxBad -> ~ In (OHandler HBadRequest) o.
Proof.
  assert (GL : forall s s' o, loop_turn op s = (s', o) -> ~ In (OHandler HBadRequest) o).
  { clear. intros s s' o. unfold loop_turn. rewrite close_send.
    destruct (is_close (EndpointModel.pending s)); [|destruct (queue s) as [|p q]; [|destruct (chunks_some op p) as (c1 & cs & ->)]];
      intros E; injection E as <- <-; cbn; intuition discriminate. }
  assert (GS : forall s s' o, start_send_queue op s = (s', o) -> ~ In (OHandler HBadRequest) o).
  { intros s0 s0' o0. unfold start_send_queue. destruct (_ || _); [|apply GL]. intros E. injection E as <- <-. auto. }
  assert (GH : forall s h, h <> HBadRequest -> ~ In (OHandler HBadRequest) (call_handler s h)).
  { intros s0 h Hh. unfold call_handler. destruct (stopped s0); cbn; intuition congruence. }
  intros E Hl. revert E. unfold step. destruct (crashed s); [discriminate|].
  destruct l; unfold reader_label, write_ok, write_err, start_messaging; cbv zeta;
    try (destruct (negb (reader_on s)); [discriminate|]);
    try (destruct (nth_error _ _) as [[[|c0 cs]|]|]; [| | |discriminate]);
    intros E; apply some_inj in E;
    try (exact (GS _ _ _ E)); try (exact (GL _ _ _ E));
    try (destruct (negb (started s) && negb (stopped s)); [destruct (queue _); [|exact (GS _ _ _ E)]|]);
    try (destruct (is_close _); [|exact (GS _ _ _ E)]);
    injection E as <- <-;
    try (destruct (close_received _)); try (apply GH; discriminate); try (apply GH; destruct (_ && _); discriminate); try (cbn; intuition congruence).
Qed.

Lemma step_crashes op cw s l s' o : I1 cw s -> step op s l = Some (s', o) -> crashed s' = true -> exists i r, l = WriteErr i r.
Proof. intros HI St Hc. apply (step_crash op cw s l s' o HI St) in Hc as [_ [r ->]]. eauto. Qed.

(* what the events of a stream of an endpoint are *)
Definition fine (e : event) : Prop := match e with EvMessage _ | EvClose [] => True | _ => False end.

Section Pair.
Variable op : side -> byte.
Hypothesis Hop : data_opcodes op.
Variables origin token : list N.
Hypothesis Hfits : fits origin token.

Definition bad_told (p : peer) : Prop := In (OHandler HBadRequest) (outs p).
Definition wrote_badly (sd : side) (ms : list move) : Prop := exists i r, In (App sd (WriteErr i r)) ms.

Record inv (ms : list move) (c s : peer) (Wc Ws : bytes) : Prop := {
  v_sc : source op Client c (sent Client ms) Wc;
  v_ss : source op Server s (sent Server ms) Ws;
  v_up : match phase_ s with Shaking => inbox s ++ coming s = handshake_request origin token ++ Wc | Writing _ | Ready => recv s Wc | Failed => True end;
  v_down : match phase_ c with
           | Ready => recv c Ws
           | Failed => True
           | _ => exists r, inbox c ++ coming c = r ++ Ws /\ match phase_ s with Shaking => r = [] | Writing _ | Ready => r = response | Failed => r = [] \/ r = response end
           end;
  v_order : phase_ c = Ready -> phase_ s <> Shaking;
  v_qc : phase_ c <> Ready -> started (ep c) = false /\ payload c = [];
  v_qs : phase_ s <> Ready -> started (ep s) = false /\ payload s = [];
  v_bc : match phase_ c with Writing t => broken c = false /\ t = [] | Shaking => broken c = false | _ => True end;
  v_bs : match phase_ s with Writing t => broken s = false /\ t = token | Shaking => broken s = false | _ => True end;
  v_nc : notes c = match phase_ c with Ready => [NReady []] | Failed => [NError] | _ => [] end;
  v_ns : notes s = match phase_ s with Ready => [NReady token] | Failed => [NError] | _ => [] end;
  v_xc : ~ bad_told c;
  v_xs : ~ bad_told s;
  v_cc : crashed (ep c) = true -> wrote_badly Client ms;
  v_cs : crashed (ep s) = true -> wrote_badly Server ms }.

Lemma sent_app sd a b : sent sd (a ++ b) = sent sd a ++ sent sd b.
Proof. unfold sent. apply flat_map_app. Qed.

Lemma wrote_app sd ms m : wrote_badly sd ms -> wrote_badly sd (ms ++ [m]).
Proof. intros (i & r & H). exists i, r. apply in_or_app. auto. Qed.

(* a move of one side that leaves it in its phase *)
Lemma inv_client ms m c s c' Wc Ws w : inv ms c s Wc Ws -> who m = Client -> source op Client c' (sent Client (ms ++ [m])) (Wc ++ w) ->
  phase_ c' = phase_ c -> notes c' = notes c -> (phase_ c <> Ready -> started (ep c') = false /\ payload c' = payload c /\ broken c' = broken c /\ inbox c' ++ coming c' = inbox c ++ coming c) ->
  (phase_ c = Ready -> recv c' Ws) -> ~ bad_told c' -> (crashed (ep c') = true -> wrote_badly Client (ms ++ [m])) ->
  inv (ms ++ [m]) c' (more w s) (Wc ++ w) Ws.
Proof.
  intros [] Hm S P1 P2 P3 P4 P5 P6.
  assert (SS : sent Server (ms ++ [m]) = sent Server ms).
  { rewrite sent_app. destruct m; cbn in Hm; subst; cbn; try apply app_nil_r. destruct l; apply app_nil_r. }
  split; rewrite ?SS, ?P1, ?P2; auto; cbn [more with_coming phase_ broken notes ep payload inbox coming].
  - destruct (phase_ s); auto; try (now apply recv_more). rewrite app_assoc, v_up0, <- app_assoc. reflexivity.
  - destruct (phase_ c) eqn:Ep; auto; (destruct P3 as (_ & _ & _ & ->); [congruence|exact v_down0]).
  - intros Hr. destruct (P3 Hr) as (A & B & _). destruct (v_qc0 Hr). split; [exact A|congruence].
  - destruct (phase_ c) eqn:Ep; auto; (destruct P3 as (_ & _ & -> & _); [congruence|exact v_bc0]).
  - intros Hc. apply wrote_app. auto.
Qed.

Lemma inv_server ms m c s s' Wc Ws w : inv ms c s Wc Ws -> who m = Server -> source op Server s' (sent Server (ms ++ [m])) (Ws ++ w) ->
  phase_ s' = phase_ s -> notes s' = notes s -> (phase_ s <> Ready -> started (ep s') = false /\ payload s' = payload s /\ broken s' = broken s /\ inbox s' ++ coming s' = inbox s ++ coming s) ->
  (phase_ s = Ready -> recv s' Wc) -> (forall t, phase_ s = Writing t -> recv s' Wc) -> ~ bad_told s' -> (crashed (ep s') = true -> wrote_badly Server (ms ++ [m])) ->
  inv (ms ++ [m]) (more w c) s' Wc (Ws ++ w).
Proof.
  intros [] Hm S P1 P2 P3 P4 P4' P5 P6.
  assert (SS : sent Client (ms ++ [m]) = sent Client ms).
  { rewrite sent_app. destruct m; cbn in Hm; subst; cbn; try apply app_nil_r. destruct l; apply app_nil_r. }
  split; rewrite ?SS, ?P1, ?P2; auto; cbn [more with_coming phase_ broken notes ep payload inbox coming].
  - destruct (phase_ s) eqn:Ep; eauto. destruct P3 as (_ & _ & _ & ->); [congruence|exact v_up0].
  - destruct (phase_ c); auto; try (now apply recv_more); (destruct v_down0 as (r & A & B); exists r; split; [rewrite app_assoc, A, <- app_assoc; reflexivity|exact B]).
  - intros Hr. destruct (P3 Hr) as (A & B & _). destruct (v_qs0 Hr). split; [exact A|congruence].
  - destruct (phase_ s) eqn:Ep; auto; (destruct P3 as (_ & _ & -> & _); [congruence|exact v_bs0]).
  - intros Hc. apply wrote_app. auto.
Qed.

(* the parts of such a move that do not depend on the side *)
Lemma outer_told b l : outer l = true -> told b l = [].
Proof. destruct l; auto; discriminate. Qed.

Lemma act_nobad sd l me oth me' oth' : act op sd l me oth = Some (me', oth') -> l <> RxBad -> ~ bad_told me -> ~ bad_told me'.
Proof.
  unfold act, bad_told. destruct (step (op sd) (ep me) l) as [[s o]|] eqn:St; [|discriminate]. intros E Hl Hb. apply some_inj in E. injection E as <- <-.
  cbn [did outs with_ep]. intros X. apply in_app_or in X as [X|X]; [auto|]. exact (step_nobad _ _ _ _ _ St Hl X).
Qed.

Lemma act_crash sd l me oth me' oth' acc W : act op sd l me oth = Some (me', oth') -> source op sd me acc W -> crashed (ep me') = true -> exists i r, l = WriteErr i r.
Proof.
  unfold act. destruct (step (op sd) (ep me) l) as [[s o]|] eqn:St; [|discriminate]. intros E (ls0 & ls1 & s0 & o0 & E0 & Hn & E1 & _) Hc. apply some_inj in E. injection E as <- <-.
  destruct (exec_I1 _ _ _ _ _ _ I1_init E1) as [HI _]. exact (step_crashes _ _ _ _ _ _ HI St Hc).
Qed.

Lemma feed_crash sd : forall evs me oth me' oth' acc W, feed op sd evs me oth = Some (me', oth') -> source op sd me acc W -> crashed (ep me) = false -> crashed (ep me') = false.
Proof.
  induction evs as [|e evs IH]; intros me oth me' oth' acc W E HS Hc.
  - injection E as <- <-. exact Hc.
  - unfold feed in E. cbn [fold_left] in E. destruct (act op sd (heard_as e) me oth) as [[me1 oth1]|] eqn:A; [|rewrite feed_none in E; discriminate].
    destruct (act_ok _ _ _ _ _ _ _ _ _ A HS) as (w & S1 & _); [destruct e; discriminate|]. eapply IH; [exact E|exact S1|].
    destruct (crashed (ep me1)) eqn:C1; [|reflexivity]. destruct (act_crash _ _ _ _ _ _ _ _ A HS C1) as (i & r & X). destruct e; discriminate.
Qed.

Lemma feed_nobad sd : forall evs me oth me' oth', feed op sd evs me oth = Some (me', oth') -> Forall fine evs -> ~ bad_told me -> ~ bad_told me'.
Proof.
  induction evs as [|e evs IH]; intros me oth me' oth' E HF Hb.
  - injection E as <- <-. exact Hb.
  - apply Forall_cons_iff in HF as [He HF]. unfold feed in E. cbn [fold_left] in E. destruct (act op sd (heard_as e) me oth) as [[me1 oth1]|] eqn:A; [|rewrite feed_none in E; discriminate].
    eapply IH; [exact E|exact HF|]. eapply act_nobad; [exact A|destruct e; try discriminate; destruct He|exact Hb].
Qed.

Lemma recv_fine sd q acc p W : recv p W -> source op sd q acc W -> Forall small acc ->
  match read_turn (payload p) (inbox p) with TNext evs _ _ => Forall fine evs | TStop e => fine e | _ => True end.
Proof.
  intros (evs & H & _) HS HG. destruct (source_good op Hop _ _ _ _ HS HG) as (_ & _ & F).
  specialize (H []). rewrite app_nil_r in H. rewrite H in F. cbn [fst] in F. apply Forall_app in F as [_ F].
  destruct (read_turn (payload p) (inbox p)) as [|e p' r|e|] eqn:T; try exact I.
  - assert (T' : read_turn (payload p) (inbox p ++ coming p ++ []) = TNext e p' (r ++ coming p ++ [])) by (rewrite read_turn_mono by (rewrite T; discriminate); rewrite T; reflexivity).
    rewrite (run_from_next _ _ _ _ _ T') in F. cbn [fst] in F. apply Forall_app in F. tauto.
  - assert (T' : read_turn (payload p) (inbox p ++ coming p ++ []) = TStop e) by (rewrite read_turn_mono by (rewrite T; discriminate); rewrite T; reflexivity).
    rewrite run_from_unfold, T' in F. cbn [fst] in F. now inversion F.
Qed.

Definition stay (sd : side) (m : move) (me me' : peer) (oth oth' : peer) (acc : list bytes) (W Win : bytes) : Prop :=
  exists w, source op sd me' (acc ++ sent sd [m]) (W ++ w) /\ oth' = more w oth /\ phase_ me' = phase_ me /\ notes me' = notes me
   /\ (phase_ me <> Ready -> started (ep me') = false /\ payload me' = payload me /\ broken me' = broken me /\ inbox me' ++ coming me' = inbox me ++ coming me)
   /\ (recv me Win -> recv me' Win) /\ ~ bad_told me' /\ (crashed (ep me') = true -> crashed (ep me) = true \/ exists i r, m = App sd (WriteErr i r)).

Definition staying (m : move) : bool := match m with App _ _ | Arrive _ _ | Read _ | ReadFail _ => true | _ => false end.

Lemma sent_one sd l : sent sd [App sd l] = accepted [l].
Proof. destruct sd, l; reflexivity. Qed.

Lemma turn_stays m me oth me' oth' acc W acc' q Win : turn op m me oth = Some (me', oth') -> staying m = true ->
  source op (who m) me acc W -> (phase_ me <> Ready -> started (ep me) = false) -> ~ bad_told me ->
  (phase_ me = Ready -> recv me Win) -> source op (other (who m)) q acc' Win -> Forall small acc' ->
  stay (who m) m me me' oth oth' acc W Win.
Proof.
  intros T Hst HS Hq Hb HR HQ HG.
  assert (Q : started (ep me) = false -> inflight (ep me) = [] /\ reader_on (ep me) = false) by (intros X; destruct (source_quiet _ _ _ _ _ HS X) as (_ & _ & A & B); auto).
  destruct m as [sd l|sd n|sd|sd|sd b|sd rs|sd]; try discriminate; cbn [who] in *; cbn [turn] in T.
  - destruct (outer l) eqn:Ho; [|discriminate]. cbn [negb] in T.
    assert (X : exists me0, act op sd l me0 oth = Some (me', oth') /\ (me0 = me \/ (me0 = broke me /\ is_write_error l = true)) /\ (is_write_error l = true -> broken me0 = true) /\ (l = CallStart -> phase_ me = Ready)).
    { destruct l; try discriminate; cbn [is_write_error];
        try (exists me; split; [exact T|split; [now left|split; [discriminate|discriminate]]]; fail).
      - exists me. destruct (phase_ me) eqn:Ep; try discriminate. split; [exact T|split; [now left|split; [discriminate|auto]]].
      - exists (broke me). split; [destruct (phase_ me); exact T|split; [now right|split; [auto|discriminate]]]. }
    destruct X as (me0 & A & H0 & Hw & Hcs).
    assert (S0 : source op sd me0 acc W).
    { destruct H0 as [-> |[-> _]]; [exact HS|]. destruct HS as (ls0 & ls1 & s0 & o0 & E0 & Hn & E1 & Hbr & Ha & Ew).
      exists ls0, ls1, s0, o0. cbn [broke ep outs broken]. repeat split; auto. discriminate. }
    destruct (act_ok _ _ _ _ _ _ _ _ _ A S0 Hw) as (w & S1 & O1 & (P1 & P2 & P3 & P4 & P5 & P6) & H1 & St1 & Sp1).
    rewrite outer_told, app_nil_r in H1 by exact Ho.
    assert (K : phase_ me0 = phase_ me /\ notes me0 = notes me /\ payload me0 = payload me /\ inbox me0 = inbox me /\ coming me0 = coming me /\ ep me0 = ep me /\ outs me0 = outs me) by (destruct H0 as [-> |[-> _]]; repeat split).
    destruct K as (K1 & K2 & K3 & K4 & K5 & K6 & K7). rewrite K6 in *. rewrite K7 in *.
    exists w. rewrite sent_one. split; [exact S1|]. split; [exact O1|]. split; [congruence|]. split; [congruence|]. split; [|split; [|split]].
    + intros Hr. specialize (Hq Hr). split; [|split; [congruence|split; [|congruence]]].
      * rewrite St1, Hq. destruct l; auto. exfalso. apply Hr. auto.
      * destruct H0 as [-> |[-> Hwe]]; [congruence|]. exfalso. destruct l; try discriminate. destruct (Q Hq) as [Q1 _].
        unfold act in A. cbn [broke ep] in A. unfold step, write_err in A. rewrite Q1 in A. destruct (crashed (ep me)); [discriminate|]. destruct i; discriminate.
    + intros HRc. eapply recv_same; [exact HRc|congruence|congruence|exact H1|]. rewrite Sp1. intros X. now apply orb_false_iff in X.
    + eapply act_nobad; [exact A|destruct l; discriminate|]. unfold bad_told. rewrite K7. exact Hb.
    + intros Hc. right. destruct (act_crash _ _ _ _ _ _ _ _ A S0 Hc) as (i & r & ->). eauto.
  - apply some_inj in T. injection T as <- <-. exists []. rewrite more_nil, !app_nil_r.
    assert (Z : (inbox me ++ firstn n (coming me)) ++ skipn n (coming me) = inbox me ++ coming me) by now rewrite <- app_assoc, firstn_skipn.
    split; [destruct sd; exact HS|]. do 3 (split; [reflexivity|]). split; [|split; [|split]].
    + intros Hr. repeat split; auto.
    + intros HRc. eapply recv_same; [exact HRc|reflexivity|exact Z|reflexivity|auto].
    + exact Hb.
    + auto.
  - unfold read in T. destruct (crashed (ep me)) eqn:Hcr; [discriminate|]. cbn [orb] in T. destruct (reader_on (ep me)) eqn:Hrd; [|discriminate]. cbn [negb] in T.
    assert (Hready : phase_ me = Ready).
    { destruct (phase_ me) eqn:Ep; auto; (destruct Q as [_ Q2]; [apply Hq; discriminate|congruence]). }
    specialize (HR Hready).
    pose proof (recv_defined op Hop _ _ _ _ _ HR HQ HG) as Hdef. pose proof (recv_fine _ _ _ _ _ HR HQ HG) as Hfine.
    assert (Snil : sent sd [Read sd] = []) by reflexivity.
    destruct (read_turn (payload me) (inbox me)) as [|evs p' rest|e|] eqn:RT; try discriminate.
    + fold (feed op sd evs (with_payload p' (with_inbox rest me)) oth) in T.
      assert (S0 : source op sd (with_payload p' (with_inbox rest me)) acc W) by exact HS.
      destruct (feed_ok _ _ _ _ _ _ _ _ _ T S0) as (w & S1 & O1 & (P1 & P2 & P3 & P4 & P5 & P6) & H1 & St1 & Sp1).
      cbn [with_payload with_inbox phase_ notes payload inbox coming broken outs ep] in *.
      exists w. rewrite Snil, app_nil_r. split; [exact S1|]. split; [exact O1|]. split; [exact P1|]. split; [exact P2|]. split; [congruence|]. split; [|split].
      * intros _. eapply recv_next; [exact HR|exact RT|exact P3|exact P4|exact P5|exact Sp1|exact H1].
      * eapply feed_nobad; [exact T|exact Hfine|exact Hb].
      * intros Hc. rewrite (feed_crash _ _ _ _ _ _ _ _ T S0 Hcr) in Hc. discriminate.
    + assert (T' : feed op sd [e] me oth = Some (me', oth')) by exact T.
      destruct (feed_ok _ _ _ _ _ _ _ _ _ T' HS) as (w & S1 & O1 & (P1 & P2 & P3 & P4 & P5 & P6) & H1 & St1 & Sp1).
      assert (M : messages [e] = []).
      { assert (TE := read_turn_events (payload me) (inbox me)). rewrite RT in TE. destruct e; try reflexivity. discriminate. }
      exists w. rewrite Snil, app_nil_r. split; [exact S1|]. split; [exact O1|]. split; [exact P1|]. split; [exact P2|]. split; [congruence|]. split; [|split].
      * intros _. eapply recv_same; [exact HR|exact P3|congruence| |congruence]. rewrite H1, M. destruct (stopped (ep me)); apply app_nil_r.
      * eapply feed_nobad; [exact T'|constructor; [exact Hfine|constructor]|exact Hb].
      * intros Hc. rewrite (feed_crash _ _ _ _ _ _ _ _ T' HS Hcr) in Hc. discriminate.
    + congruence.
  - destruct (read_turn (payload me) (inbox me)); try discriminate.
    destruct (act_ok _ _ _ _ _ _ _ _ _ T HS) as (w & S1 & O1 & (P1 & P2 & P3 & P4 & P5 & P6) & H1 & St1 & Sp1); [discriminate|].
    cbn [told] in H1. rewrite app_nil_r in H1. rewrite orb_false_r in *.
    assert (Snil : sent sd [ReadFail sd] = []) by reflexivity.
    exists w. rewrite Snil. split; [exact S1|]. split; [exact O1|]. split; [exact P1|]. split; [exact P2|]. split; [|split; [|split]].
    + intros Hr. specialize (Hq Hr). destruct (Q Hq) as [_ Q2]. exfalso. unfold act, step, reader_label in T. destruct (crashed (ep me)); [discriminate|]. rewrite Q2 in T. discriminate.
    + intros HRc. eapply recv_same; [exact HRc|exact P3|congruence|exact H1|congruence].
    + eapply act_nobad; [exact T|discriminate|exact Hb].
    + intros Hc. destruct (act_crash _ _ _ _ _ _ _ _ T HS Hc) as (i & r & X). discriminate.
Qed.

Lemma source_eq sd p q acc W : source op sd p acc W -> ep q = ep p -> outs q = outs p -> (broken q = false -> broken p = false) -> source op sd q acc W.
Proof.
  intros (ls0 & ls1 & s0 & o0 & E0 & Hn & E1 & Hbr & Ha & Ew) A B C. exists ls0, ls1, s0, o0. rewrite A, B. repeat split; auto.
Qed.

Lemma sent_other sd m ms : sent sd [m] = [] -> sent sd (ms ++ [m]) = sent sd ms.
Proof. intros H. rewrite sent_app, H. apply app_nil_r. Qed.

Lemma bool_eq_false b : b = false -> b <> true. Proof. now intros ->. Qed.

Lemma go_inv ms m c s c' s' Wc Ws : inv ms c s Wc Ws -> smalls ms -> go op (c, s) m = Some (c', s') -> exists Wc' Ws', inv (ms ++ [m]) c' s' Wc' Ws'.
Proof.
  intros V [Gc Gs] G. pose proof V as V'. destruct V'. unfold go in G. cbn [fst snd] in G.
  destruct (staying m) eqn:Hst.
  - destruct (who m) eqn:Hw.
    + destruct (turn_stays m c s c' s' (sent Client ms) Wc (sent Server ms) s Ws G Hst) as (w & S1 & O1 & P1 & P2 & P3 & P4 & P5 & P6); rewrite ?Hw; auto.
      { intros X. now apply v_qc0. }
      { intros X. rewrite X in v_down0. exact v_down0. }
      rewrite Hw in *. rewrite <- sent_app in S1. exists (Wc ++ w), Ws. rewrite O1. eapply inv_client; eauto.
      * intros X. rewrite X in v_down0. auto.
      * intros X. destruct (P6 X) as [Y|(i & r & ->)]; [apply wrote_app; auto|]. exists i, r. apply in_or_app. right. now left.
    + destruct (turn op m s c) as [[s1 c1]|] eqn:T; [|discriminate]. apply some_inj in G. injection G as -> ->.
      destruct (turn_stays m s c s' c' (sent Server ms) Ws (sent Client ms) c Wc T Hst) as (w & S1 & O1 & P1 & P2 & P3 & P4 & P5 & P6); rewrite ?Hw; auto.
      { intros X. now apply v_qs0. }
      { intros X. rewrite X in v_up0. exact v_up0. }
      rewrite Hw in *. rewrite <- sent_app in S1. exists Wc, (Ws ++ w). rewrite O1. eapply inv_server; eauto.
      * intros X. rewrite X in v_up0. auto.
      * intros t X. rewrite X in v_up0. auto.
      * intros X. destruct (P6 X) as [Y|(i & r & ->)]; [apply wrote_app; auto|]. exists i, r. apply in_or_app. right. now left.
  - assert (NS : forall sd, sent sd [m] = []) by (intros sd; destruct m; try discriminate; reflexivity).
    assert (QC : phase_ c <> Ready -> Wc = []) by (intros X; destruct (v_qc0 X) as [Y _]; now destruct (source_quiet _ _ _ _ _ v_sc0 Y)).
    assert (QS : phase_ s <> Ready -> Ws = []) by (intros X; destruct (v_qs0 X) as [Y _]; now destruct (source_quiet _ _ _ _ _ v_ss0 Y)).
    destruct m as [sd l|sd n|sd|sd|sd b|sd rs|sd]; try discriminate; cbn [who turn] in G; destruct sd.
    + (* the client's request was written *)
      destruct (phase_ c) as [|t| |] eqn:Ep; try discriminate. apply some_inj in G. injection G as Gp <-. destruct v_bc0 as [Bc ->].
      exists Wc, Ws. destruct b; subst c'.
      * split; rewrite ?sent_other by auto; cbn [reach phase_ notes ep outs payload inbox coming broken]; rewrite ?v_nc0; auto; try discriminate; try (intros X; apply wrote_app; auto).
        intros _. apply v_qc0. discriminate.
      * split; rewrite ?sent_other by auto; cbn [broke reach phase_ notes ep outs payload inbox coming broken]; rewrite ?v_nc0; auto; try discriminate; try (intros X; apply wrote_app; auto).
        -- eapply source_eq; [exact v_sc0|reflexivity|reflexivity|discriminate].
        -- intros _. apply v_qc0. discriminate.
    + destruct (phase_ s) as [|t| |] eqn:Ep; try discriminate. apply some_inj in G. injection G as <- Gp. destruct v_bs0 as [Bs ->].
      exists Wc, Ws. destruct b; subst s'.
      * split; rewrite ?sent_other by auto; cbn [reach phase_ notes ep outs payload inbox coming broken]; rewrite ?v_ns0; auto; try discriminate; try (intros X; apply wrote_app; auto); congruence.
      * split; rewrite ?sent_other by auto; cbn [broke reach phase_ notes ep outs payload inbox coming broken]; rewrite ?v_ns0; auto; try discriminate; try (intros X; apply wrote_app; auto).
        -- eapply source_eq; [exact v_ss0|reflexivity|reflexivity|discriminate].
        -- destruct (phase_ c); auto; (destruct v_down0 as (r & A & B); exists r; auto).
        -- intros _. apply v_qs0. discriminate.
    + (* the client reads the response *)
      destruct (phase_ c) as [|t| |] eqn:Ep; try discriminate. destruct (crashed (ep c)) eqn:Hcr; [discriminate|]. cbn [shake] in G.
      destruct v_down0 as (r & A & B).
      assert (R : r = [] \/ r = response) by (destruct (phase_ s); auto).
      assert (X : exists rest, parse_handshake_response (inbox c) = inl rest /\ r = response /\ rest ++ coming c = Ws).
      { destruct R as [-> | ->].
        - assert (Ws = []).
          { apply QS. intros Y. rewrite Y in B. now apply response_ne in B. }
          subst Ws. cbn [app] in A. apply app_eq_nil in A as [A _]. rewrite A in G. discriminate.
        - destruct (le_lt_dec (length response) (length (inbox c))) as [L|L].
          + destruct (app_split (inbox c) (coming c) response Ws A L) as (u & A1 & A2). exists u. rewrite A1, response_whole. auto.
          + destruct (app_split response Ws (inbox c) (coming c)) as (u & A1 & A2); [symmetry; exact A|now apply Nat.lt_le_incl|].
            rewrite (response_part (inbox c) u A1) in G; [discriminate G|]. intros ->. rewrite app_nil_r in A1. rewrite <- A1 in L. exact (Nat.lt_irrefl _ L). }
      destruct X as (rest & E & -> & Er). rewrite E in G. apply some_inj in G. injection G as <- <-.
      exists Wc, Ws. split; rewrite ?sent_other by auto; cbn [reach with_inbox phase_ notes ep outs payload inbox coming broken]; rewrite ?v_nc0; auto; try discriminate; try (intros X; apply wrote_app; auto).
      * destruct v_qc0 as [Q1 Q2]; [discriminate|]. exists []. cbn [reach with_inbox payload inbox coming outs ep].
        rewrite Q2. destruct (source_quiet _ _ _ _ _ v_sc0 Q1) as (_ & Hh & _). rewrite Hh. split; [|split; [apply prefix_refl|auto]].
        intros y. rewrite <- Er, <- app_assoc. cbn [app]. apply surjective_pairing.
      * intros _ X. rewrite X in B. symmetry in B; now apply response_ne in B.
      * congruence.
    + (* the server reads the request *)
      destruct (phase_ s) as [|t| |] eqn:Ep; try discriminate. destruct (crashed (ep s)) eqn:Hcr; [discriminate|]. cbn [shake] in G.
      assert (Hc : phase_ c <> Ready) by (intros X; now apply v_order0).
      rewrite (QC Hc), app_nil_r in v_up0. symmetry in v_up0. pose proof (request_part origin token rs _ _ Hfits v_up0) as R.
      destruct (parse_handshake_request rs (inbox s)) as [info b u| | | |]; try discriminate; try contradiction.
      destruct R as (R1 & -> & K1 & K2). rewrite (response_of _ K1), K2, v_bs0 in G. apply some_inj in G. injection G as <- <-.
      destruct v_qs0 as [Q1 Q2]; [discriminate|]. destruct (source_quiet _ _ _ _ _ v_ss0 Q1) as (HW & Hh & _).
      exists Wc, Ws. split; rewrite ?sent_other by auto; cbn [reach with_inbox more with_coming phase_ notes ep outs payload inbox coming broken]; rewrite ?v_ns0; auto; try discriminate; try (intros X; apply wrote_app; auto).
      * exists []. cbn [reach with_inbox payload inbox coming outs ep]. rewrite Q2, Hh, R1, (QC Hc). split; [|split; [apply prefix_refl|auto]]. intros y. cbn [app]. apply surjective_pairing.
      * destruct (phase_ c) eqn:Epc; auto; [| |congruence]; (destruct v_down0 as (r & A & ->); exists response; split; [rewrite app_assoc, A, HW; cbn [app]; now rewrite app_nil_r|reflexivity]).
      * congruence.
    + destruct (phase_ c) as [|t| |] eqn:Ep; try discriminate. apply some_inj in G. injection G as <- <-.
      exists Wc, Ws. split; rewrite ?sent_other by auto; cbn [reach phase_ notes ep outs payload inbox coming broken]; rewrite ?v_nc0; auto; try discriminate; try (intros X; apply wrote_app; auto).
      intros _. apply v_qc0. discriminate.
    + destruct (phase_ s) as [|t| |] eqn:Ep; try discriminate. apply some_inj in G. injection G as <- <-.
      exists Wc, Ws. split; rewrite ?sent_other by auto; cbn [reach phase_ notes ep outs payload inbox coming broken]; rewrite ?v_ns0; auto; try discriminate; try (intros X; apply wrote_app; auto).
      * destruct (phase_ c); auto; (destruct v_down0 as (r & A & B); exists r; auto).
      * intros _. apply v_qs0. discriminate.
Qed.

Lemma play_app a : forall x b, play op x (a ++ b) = match play op x a with Some y => play op y b | None => None end.
Proof. induction a as [|m a IH]; intros x b; [reflexivity|]. cbn [app play]. destruct (go op x m); auto. Qed.

Lemma smalls_app a b : smalls (a ++ b) -> smalls a.
Proof. intros [A B]. rewrite sent_app in A, B. apply Forall_app in A, B. split; tauto. Qed.

Lemma begun_inv : inv [] (fst (begun origin token)) (snd (begun origin token)) [] [].
Proof.
  split; cbn; auto; try discriminate.
  - exists [], [], init, []. repeat split; auto.
  - exists [], [], init, []. repeat split; auto.
  - now rewrite app_nil_r.
  - exists []. auto.
Qed.

Lemma play_inv ms : forall x, play op (begun origin token) ms = Some x -> smalls ms -> exists Wc Ws, inv ms (fst x) (snd x) Wc Ws.
Proof.
  induction ms as [|m ms IH] using rev_ind; intros x P G.
  - injection P as <-. exists [], []. apply begun_inv.
  - rewrite play_app in P. destruct (play op (begun origin token) ms) as [y|]; [|discriminate]. cbn [play] in P.
    destruct (go op y m) as [z|] eqn:Gm; [|discriminate]. apply some_inj in P. subst z.
    destruct (IH y eq_refl (smalls_app _ _ G)) as (Wc & Ws & V). destruct y as [c s], x as [c' s'].
    exact (go_inv _ _ _ _ _ _ _ _ V (smalls_app _ _ G) Gm).
Qed.

Lemma recv_sent sd q acc p W : recv p W -> source op sd q acc W -> Forall small acc -> prefix (heard_in (outs p)) (joined acc).
Proof.
  intros (evs & H & P & _) HS HG. destruct (source_good op Hop _ _ _ _ HS HG) as (_ & Q & _).
  specialize (H []). rewrite app_nil_r in H. rewrite H in Q. cbn [fst] in Q. rewrite messages_app in Q.
  eapply prefix_trans; [exact P|]. eapply prefix_trans; [apply prefix_app|exact Q].
Qed.

Lemma in_order ms x sd : play op (begun origin token) ms = Some x -> smalls ms -> prefix (heard (other sd) x) (joined (sent sd ms)).
Proof.
  intros P G. destruct (play_inv ms x P G) as (Wc & Ws & []). destruct G as [Gc Gs]. unfold heard. destruct sd; cbn [other peer_of].
  - assert (N : phase_ (snd x) <> Ready -> prefix (heard_in (outs (snd x))) (joined (sent Client ms))).
    { intros X. destruct (v_qs0 X) as [Y _]. destruct (source_quiet _ _ _ _ _ v_ss0 Y) as (_ & -> & _). exists (joined (sent Client ms)). reflexivity. }
    destruct (phase_ (snd x)) eqn:Ep; try (apply N; discriminate). eapply recv_sent; eauto.
  - assert (N : phase_ (fst x) <> Ready -> prefix (heard_in (outs (fst x))) (joined (sent Server ms))).
    { intros X. destruct (v_qc0 X) as [Y _]. destruct (source_quiet _ _ _ _ _ v_sc0 Y) as (_ & -> & _). exists (joined (sent Server ms)). reflexivity. }
    destruct (phase_ (fst x)) eqn:Ep; try (apply N; discriminate). eapply recv_sent; eauto.
Qed.

(* ---- when nothing fails and nobody stops or closes ---- *)
Record fair (p : peer) : Prop := {
  f_broken : broken p = false;
  f_stopped : stopped (ep p) = false;
  f_phase : phase_ p <> Failed;
  f_pending : is_close (EndpointModel.pending (ep p)) = false;
  f_close : existsb is_close_write (outs p) = false;
  f_reader : started (ep p) = true -> reader_on (ep p) = true;
  f_crash : crashed (ep p) = false }.

Definition gentle (l : label) : bool := match l with CallSend _ | CallStart | WriteOk _ | RxMessage _ => true | _ => false end.
Definition fair_ep (s : state) : Prop := stopped s = false /\ is_close (EndpointModel.pending s) = false /\ (started s = true -> reader_on s = true) /\ crashed s = false.

Lemma loop_gentle o1 s s' o : loop_turn o1 s = (s', o) -> fair_ep s -> fair_ep s' /\ existsb is_close_write o = false.
Proof.
  unfold loop_turn. intros E (A & B & C & D). rewrite B in E. destruct (queue s) as [|p q].
  - injection E as <- <-. split; [|reflexivity]. repeat split; auto.
  - destruct (chunks_some o1 p) as (c & cs & X). rewrite X in E. injection E as <- <-. split; [|reflexivity]. repeat split; auto.
Qed.

Lemma step_gentle o1 s l s' o : step o1 s l = Some (s', o) -> gentle l = true -> fair_ep s -> fair_ep s' /\ existsb is_close_write o = false.
Proof.
  intros E Hl F. pose proof F as (A & B & C & D). revert E. unfold step. rewrite D.
  destruct l as [p| | | |p| |p| | | |i|i rs]; try discriminate; unfold reader_label, start_messaging, send_message_call, start_send_queue; cbv zeta.
  - cbn [running stopped started set_queue]. intros E. apply some_inj in E. destruct (_ || _).
    + injection E as <- <-. split; [|reflexivity]. repeat split; auto.
    + eapply loop_gentle; [exact E|]. repeat split; auto.
  - intros E. apply some_inj in E. destruct (_ && _).
    + destruct (queue _).
      * injection E as <- <-. split; [|reflexivity]. repeat split; auto.
      * cbn [running stopped started set_started] in E. destruct (_ || _).
        -- injection E as <- <-. split; [|reflexivity]. repeat split; auto.
        -- eapply loop_gentle; [exact E|]. repeat split; auto.
    + injection E as <- <-. split; [exact F|reflexivity].
  - destruct (negb (reader_on s)); [discriminate|]. intros E. apply some_inj in E. injection E as <- <-. split; [exact F|]. apply existsb_handler.
  - unfold write_ok. destruct (nth_error _ _) as [w|]; [|discriminate]. intros E. apply some_inj in E. destruct w as [[|c cs]|].
    + eapply loop_gentle; [exact E|]. destruct (queue _); repeat split; auto.
    + injection E as <- <-. split; [|reflexivity]. repeat split; auto.
    + injection E as <- <-. split; [repeat split; auto|]. destruct (close_received _); [apply existsb_handler|reflexivity].
Qed.

Lemma fair_make p : fair p -> fair_ep (ep p). Proof. intros []. repeat split; auto. Qed.

Lemma act_fair sd l me oth me' oth' : act op sd l me oth = Some (me', oth') -> gentle l = true -> fair me -> fair me'.
Proof.
  unfold act. destruct (step (op sd) (ep me) l) as [[s o]|] eqn:St; [|discriminate]. intros E Hl F. apply some_inj in E. injection E as <- <-.
  destruct (step_gentle _ _ _ _ _ St Hl (fair_make _ F)) as ((A & B & C & D) & X). destruct F. split; auto.
  cbn [did outs with_ep]. now rewrite existsb_app, f_close0, X.
Qed.

Lemma fair_more w p : fair p -> fair (more w p). Proof. intros []. split; auto. Qed.

(* without a close frame the stream has messages only *)
Definition is_message (e : event) : bool := match e with EvMessage _ => true | _ => false end.

Lemma source_calm sd p acc W : source op sd p acc W -> Forall small acc -> fair p ->
  snd (run W) = WsModel.Waiting /\ forallb is_message (fst (run W)) = true /\ (inflight (ep p) = [] -> queue (ep p) = [] -> messages (fst (run W)) = joined acc).
Proof.
  intros (ls0 & ls1 & s0 & o0 & E0 & Hn & E1 & Hb & Ha & ->) HG []. rewrite (Hb f_broken0) in *. rewrite app_nil_r in *. rewrite E0 in E1. injection E1 as -> ->.
  subst acc. destruct (wire_run (op sd) (Hop sd) _ _ _ E0 Hn HG) as (l & R & P & K). rewrite f_close0 in *. rewrite R. cbn [fst snd]. rewrite app_nil_r.
  split; [reflexivity|]. split.
  - apply forallb_forall. intros e He. apply in_map_iff in He as (m & <- & _). reflexivity.
  - intros A B. rewrite (K eq_refl A B). generalize (joined (accepted ls0)). clear. intros b. induction b as [|x b IH]; [reflexivity|]. cbn. f_equal. exact IH.
Qed.

Lemma recv_calm sd q acc p W : recv p W -> source op sd q acc W -> Forall small acc -> fair q ->
  match read_turn (payload p) (inbox p) with TWait => True | TNext evs _ _ => forallb is_message evs = true | _ => False end.
Proof.
  intros (evs & H & _) HS HG F. destruct (source_calm _ _ _ _ HS HG F) as (A & B & _).
  specialize (H []). rewrite app_nil_r in H. rewrite H in A, B. cbn [fst snd] in A, B. rewrite forallb_app in B. apply andb_true_iff in B as [_ B].
  destruct (read_turn (payload p) (inbox p)) as [|e p' r|e|] eqn:T; try exact I.
  - assert (T' : read_turn (payload p) (inbox p ++ coming p ++ []) = TNext e p' (r ++ coming p ++ [])) by (rewrite read_turn_mono by (rewrite T; discriminate); rewrite T; reflexivity).
    rewrite (run_from_next _ _ _ _ _ T') in B. cbn [fst] in B. rewrite forallb_app in B. now apply andb_true_iff in B.
  - assert (T' : read_turn (payload p) (inbox p ++ coming p ++ []) = TStop e) by (rewrite read_turn_mono by (rewrite T; discriminate); rewrite T; reflexivity).
    rewrite run_from_unfold, T' in A. discriminate.
  - assert (T' : read_turn (payload p) (inbox p ++ coming p ++ []) = TUndef) by (rewrite read_turn_mono by (rewrite T; discriminate); rewrite T; reflexivity).
    rewrite run_from_unfold, T' in A. discriminate.
Qed.

(* messages are given to the application at once, and nothing else changes *)
Lemma feed_messages sd : forall evs me oth, forallb is_message evs = true -> reader_on (ep me) = true -> crashed (ep me) = false -> stopped (ep me) = false ->
  feed op sd evs me oth = Some (did (map (fun m => OHandler (HMessage m)) (messages evs)) me, oth).
Proof.
  induction evs as [|e evs IH]; intros me oth HM Hr Hc Hs.
  - unfold feed. cbn. unfold did. rewrite app_nil_r. now destruct me.
  - cbn [forallb] in HM. apply andb_true_iff in HM as [He HM]. destruct e as [p| | | | |]; try discriminate.
    unfold feed. cbn [fold_left heard_as].
    assert (A : act op sd (RxMessage p) me oth = Some (did [OHandler (HMessage p)] me, oth)).
    { unfold act, step, reader_label, call_handler. rewrite Hc, Hr. cbn [negb]. rewrite Hs. cbn [written flat_map app]. rewrite more_nil.
      unfold did, with_ep. cbn. destruct (broken me); reflexivity. }
    rewrite A. fold (feed op sd evs (did [OHandler (HMessage p)] me) oth). rewrite IH by auto. f_equal. f_equal.
    unfold did. cbn [phase_ ep notes outs payload inbox coming broken]. now rewrite <- app_assoc.
Qed.

Definition all_calm (ms : list move) : Prop := forallb calm ms = true.

Lemma calm_no_wrote sd ms : all_calm ms -> ~ wrote_badly sd ms.
Proof. intros H (i & r & X). unfold all_calm in H. rewrite forallb_forall in H. apply H in X. discriminate. Qed.

Lemma turn_fair ms m me oth me' oth' acc acc' W Win : turn op m me oth = Some (me', oth') -> all_calm (ms ++ [m]) ->
  source op (who m) me acc W -> source op (other (who m)) oth acc' Win -> Forall small acc' ->
  (phase_ me <> Ready -> started (ep me) = false) -> (phase_ me = Ready -> recv me Win) ->
  (phase_ me' = Failed -> notes me' = [NError]) -> notes me = match phase_ me with Ready => notes me | Failed => [NError] | _ => [] end -> (crashed (ep me') = true -> wrote_badly (who m) (ms ++ [m])) ->
  fair me -> fair oth -> fair me' /\ fair oth'.
Proof.
  intros T HC HS HO HG Hq HR HN Hnt HX F Fo.
  assert (Cm : calm m = true) by (unfold all_calm in HC; rewrite forallb_app in HC; apply andb_true_iff in HC as [_ HC]; cbn in HC; now rewrite andb_true_r in HC).
  assert (NC : crashed (ep me') = false).
  { destruct (crashed (ep me')); [|reflexivity]. exfalso. exact (calm_no_wrote _ _ HC (HX eq_refl)). }
  destruct m as [sd l|sd n|sd|sd|sd b|sd rs|sd]; try discriminate; cbn [who] in *; cbn [turn] in T.
  - destruct (outer l) eqn:Ho; [|discriminate]. cbn [negb] in T.
    assert (A : act op sd l me oth = Some (me', oth') /\ gentle l = true /\ is_write_error l = false).
    { destruct l; try discriminate; try (split; [exact T|split; reflexivity]). split; [|split; reflexivity]. destruct (phase_ me); try discriminate. exact T. }
    destruct A as (A & Hg & Hw). split; [eapply act_fair; eauto|].
    destruct (act_ok _ _ _ _ _ _ _ _ _ A HS) as (w & _ & -> & _); [congruence|]. now apply fair_more.
  - apply some_inj in T. injection T as <- <-. split; [|exact Fo]. destruct F. split; auto.
  - unfold read in T. destruct F. rewrite f_crash0 in T. cbn [orb] in T. destruct (reader_on (ep me)) eqn:Hrd; [|discriminate]. cbn [negb] in T.
    assert (Hready : phase_ me = Ready).
    { destruct (phase_ me) eqn:Ep; auto; (destruct (source_quiet _ _ _ _ _ HS) as (_ & _ & _ & X); [apply Hq; discriminate|congruence]). }
    pose proof (recv_calm _ _ _ _ _ (HR Hready) HO HG Fo) as RC.
    destruct (read_turn (payload me) (inbox me)) as [|evs p' rest|e|]; try discriminate; try contradiction.
    fold (feed op sd evs (with_payload p' (with_inbox rest me)) oth) in T. rewrite feed_messages in T by auto. apply some_inj in T. injection T as <- <-.
    split; [|exact Fo]. split; auto. cbn [did outs with_payload with_inbox]. rewrite existsb_app, f_close0. cbn [orb].
    clear. induction (messages evs) as [|x l IH]; [reflexivity|exact IH].
  - destruct b; [|discriminate]. destruct (phase_ me) as [|t| |] eqn:Ep; try discriminate. apply some_inj in T. injection T as <- <-. split; [|exact Fo].
    destruct F. destruct sd; split; auto; discriminate.
  - destruct (phase_ me) as [|t| |] eqn:Ep; try discriminate. destruct (crashed (ep me)) eqn:Hcr; [discriminate|]. destruct F. destruct sd; cbn [shake] in T.
    + destruct (parse_handshake_response (inbox me)) as [rest|o]; [|destruct o; try discriminate]; apply some_inj in T; injection T as <- <-.
      * split; [|exact Fo]. split; auto. discriminate.
      * exfalso. cbn in HN. rewrite Hnt in HN. specialize (HN eq_refl). discriminate.
    + destruct (parse_handshake_request rs (inbox me)) as [info b u| | | |]; try discriminate.
      * destruct (handshake_response info) as [r|], (get_auth_token (cookies info)) as [[t [|]]|];
          apply some_inj in T; injection T as <- <-; try discriminate.
        split; [split; auto; discriminate|]. destruct (broken me); [exact Fo|now apply fair_more].
      * apply some_inj in T. injection T as <- <-. exfalso. cbn in HN. rewrite Hnt in HN. specialize (HN eq_refl). discriminate.
      * apply some_inj in T. injection T as <- <-. discriminate.
Qed.

Lemma flip_go c s m x : who m = Server -> go op (c, s) m = Some x -> turn op m s c = Some (snd x, fst x).
Proof. unfold go. intros ->. cbn [fst snd]. destruct (turn op m s c) as [[a b]|]; [|discriminate]. intros E. apply some_inj in E. now subst x. Qed.

Lemma started_stays m me oth me' oth' acc W : turn op m me oth = Some (me', oth') -> source op (who m) me acc W -> started (ep me) = true -> started (ep me') = true.
Proof.
  intros T HS Hs. destruct m as [sd l|sd n|sd|sd|sd b|sd rs|sd]; cbn [who turn] in *.
  - destruct (outer l); [|discriminate]. cbn [negb] in T.
    assert (A : exists me0, act op sd l me0 oth = Some (me', oth') /\ ep me0 = ep me).
    { destruct l; try discriminate; try (exists me; split; [exact T|reflexivity]).
      - exists me. destruct (phase_ me); try discriminate. split; [exact T|reflexivity].
      - exists (broke me). split; [destruct (phase_ me); exact T|reflexivity]. }
    destruct A as (me0 & A & K). unfold act in A. destruct (step (op sd) (ep me0) l) as [[s' o]|] eqn:St; [|discriminate]. apply some_inj in A. injection A as <- <-.
    destruct (step_flags _ _ _ _ _ St) as [X _]. cbn [did with_ep ep]. now rewrite X, K, Hs.
  - apply some_inj in T. injection T as <- <-. exact Hs.
  - unfold read in T. destruct (_ || _); [discriminate|]. destruct (read_turn (payload me) (inbox me)) as [|evs p' rest|e|]; try discriminate.
    + fold (feed op sd evs (with_payload p' (with_inbox rest me)) oth) in T.
      destruct (feed_ok _ _ _ _ _ _ _ acc W T) as (w & _ & _ & _ & _ & X & _); [exact HS|]. rewrite X. exact Hs.
    + destruct (feed_ok op sd [e] _ _ _ _ acc W T) as (w & _ & _ & _ & _ & X & _); [exact HS|]. rewrite X. exact Hs.
    + apply some_inj in T. injection T as <- <-. exact Hs.
  - destruct (read_turn (payload me) (inbox me)); try discriminate. unfold act in T. destruct (step (op sd) (ep me) RxError) as [[s' o]|] eqn:St; [|discriminate]. apply some_inj in T. injection T as <- <-.
    destruct (step_flags _ _ _ _ _ St) as [X _]. cbn [did with_ep ep]. now rewrite X, Hs.
  - destruct (phase_ me); try discriminate. apply some_inj in T. injection T as <- <-. destruct b, sd; exact Hs.
  - destruct (phase_ me); try discriminate. destruct (crashed (ep me)); [discriminate|]. destruct sd; cbn [shake] in T.
    + destruct (parse_handshake_response (inbox me)) as [rest|[]]; try discriminate; apply some_inj in T; injection T as <- <-; exact Hs.
    + destruct (parse_handshake_request rs (inbox me)) as [info b u| | | |]; try discriminate; try (destruct (handshake_response info), (get_auth_token (cookies info)) as [[t [|]]|]); apply some_inj in T; injection T as <- <-; exact Hs.
  - destruct (phase_ me); try discriminate. apply some_inj in T. injection T as <- <-. exact Hs.
Qed.

Lemma turn_other m me oth me' oth' acc W : turn op m me oth = Some (me', oth') -> source op (who m) me acc W -> (exists w, oth' = more w oth).
Proof.
  intros T HS. destruct m as [sd l|sd n|sd|sd|sd b|sd rs|sd]; cbn [who turn] in *;
    assert (Z : exists w, oth = more w oth) by (exists []; now rewrite more_nil);
    assert (ZA : forall l a b c, act op sd l a b = Some (me', c) -> exists w, c = more w b) by
      (intros l' a b' c A; unfold act in A; destruct (step (op sd) (ep a) l') as [[s' o]|]; [|discriminate]; apply some_inj in A; injection A as _ <-; destruct (broken a); [exists []; now rewrite more_nil|eauto]).
  - destruct (outer l); [|discriminate]. cbn [negb] in T. destruct l; try discriminate; try (eapply ZA; exact T); destruct (phase_ me); try discriminate; eapply ZA; exact T.
  - apply some_inj in T. now injection T as _ <-.
  - unfold read in T. destruct (_ || _); [discriminate|]. destruct (read_turn (payload me) (inbox me)) as [|evs p' rest|e|]; try discriminate.
    + fold (feed op sd evs (with_payload p' (with_inbox rest me)) oth) in T.
      destruct (feed_ok _ _ _ _ _ _ _ acc W T) as (w & _ & X & _); [exact HS|]. eauto.
    + eapply ZA; exact T.
    + apply some_inj in T. now injection T as _ <-.
  - destruct (read_turn (payload me) (inbox me)); try discriminate. eapply ZA; exact T.
  - destruct (phase_ me); try discriminate. apply some_inj in T. now injection T as _ <-.
  - destruct (phase_ me); try discriminate. destruct (crashed (ep me)); [discriminate|]. destruct sd; cbn [shake] in T.
    + destruct (parse_handshake_response (inbox me)) as [rest|[]]; try discriminate; apply some_inj in T; now injection T as _ <-.
    + destruct (parse_handshake_request rs (inbox me)) as [info b u| | | |]; try discriminate; try (destruct (handshake_response info), (get_auth_token (cookies info)) as [[t [|]]|]);
        apply some_inj in T; injection T as _ <-; auto. destruct (broken me); eauto.
  - destruct (phase_ me); try discriminate. apply some_inj in T. now injection T as _ <-.
Qed.

Lemma call_start_started sd me oth me' oth' : turn op (App sd CallStart) me oth = Some (me', oth') -> stopped (ep me) = false -> started (ep me') = true.
Proof.
  cbn [turn outer negb]. intros T Hs. destruct (phase_ me); try discriminate. unfold act in T. destruct (step (op sd) (ep me) CallStart) as [[s' o]|] eqn:St; [|discriminate]. apply some_inj in T. injection T as <- <-.
  destruct (step_flags _ _ _ _ _ St) as [X _]. cbn [did with_ep ep]. rewrite X, Hs. apply orb_true_r.
Qed.

(* everything that is known after calm moves *)
Record good_state (ms : list move) (x : peers) (Wc Ws : bytes) : Prop := {
  g_inv : inv ms (fst x) (snd x) Wc Ws;
  g_smalls : smalls ms;
  g_calm : all_calm ms;
  g_fc : fair (fst x);
  g_fs : fair (snd x);
  g_started : forall sd, In (App sd CallStart) ms -> started (ep (peer_of sd x)) = true }.

Lemma go_good ms m x y Wc Ws : good_state ms x Wc Ws -> smalls (ms ++ [m]) -> all_calm (ms ++ [m]) -> go op x m = Some y -> exists Wc' Ws', good_state (ms ++ [m]) y Wc' Ws'.
Proof.
  intros [V G C Fc Fs St] G' C' E. destruct x as [c s], y as [c' s']. cbn [fst snd] in *.
  destruct (go_inv _ _ _ _ _ _ _ _ V G E) as (Wc' & Ws' & V'). exists Wc', Ws'.
  pose proof V as V0. pose proof V' as V1. destruct V0, V1. destruct G as [Gc Gs].
  destruct (who m) eqn:Hw.
  - assert (T : turn op m c s = Some (c', s')) by (unfold go in E; rewrite Hw in E; exact E).
    assert (F : fair c' /\ fair s').
    { apply (turn_fair ms m c s c' s' (sent Client ms) (sent Server ms) Wc Ws T C'); rewrite ?Hw; auto.
      - intros X. now apply v_qc0.
      - intros X. rewrite X in v_down0. exact v_down0.
      - intros X. rewrite X in v_nc1. exact v_nc1.
      - destruct (phase_ c); auto. }
    destruct F as [F1 F2]. split; auto. intros sd Hin. apply in_app_or in Hin as [Hin|[Hin|[]]].
    + specialize (St sd Hin). destruct sd; cbn [peer_of fst snd] in *.
      * eapply started_stays; [exact T|rewrite Hw; exact v_sc0|exact St].
      * destruct (turn_other m c s c' s' _ _ T ltac:(rewrite Hw; exact v_sc0)) as [w ->]. exact St.
    + subst m. cbn [who] in Hw. subst sd. cbn [peer_of fst]. eapply call_start_started; [exact T|apply Fc].
  - pose proof (flip_go _ _ _ _ Hw E) as T. cbn [fst snd] in T.
    assert (F : fair s' /\ fair c').
    { apply (turn_fair ms m s c s' c' (sent Server ms) (sent Client ms) Ws Wc T C'); rewrite ?Hw; auto.
      - intros X. now apply v_qs0.
      - intros X. rewrite X in v_up0. exact v_up0.
      - intros X. rewrite X in v_ns1. exact v_ns1.
      - destruct (phase_ s); auto. }
    destruct F as [F1 F2]. split; auto. intros sd Hin. apply in_app_or in Hin as [Hin|[Hin|[]]].
    + specialize (St sd Hin). destruct sd; cbn [peer_of fst snd] in *.
      * destruct (turn_other m s c s' c' _ _ T ltac:(rewrite Hw; exact v_ss0)) as [w ->]. exact St.
      * eapply started_stays; [exact T|rewrite Hw; exact v_ss0|exact St].
    + subst m. cbn [who] in Hw. subst sd. cbn [peer_of snd]. eapply call_start_started; [exact T|apply Fs].
Qed.

Lemma begun_good : good_state [] (begun origin token) [] [].
Proof.
  split.
  - exact begun_inv.
  - split; constructor.
  - reflexivity.
  - split; cbn; auto; discriminate.
  - split; cbn; auto; discriminate.
  - intros sd [].
Qed.

Lemma play_good ms : forall x, play op (begun origin token) ms = Some x -> smalls ms -> all_calm ms -> exists Wc Ws, good_state ms x Wc Ws.
Proof.
  induction ms as [|m ms IH] using rev_ind; intros x P G C.
  - injection P as <-. exists [], []. apply begun_good.
  - rewrite play_app in P. destruct (play op (begun origin token) ms) as [y|]; [|discriminate]. cbn [play] in P.
    destruct (go op y m) as [z|] eqn:Gm; [|discriminate]. apply some_inj in P. subst z.
    assert (C0 : all_calm ms) by (unfold all_calm in *; rewrite forallb_app in C; now apply andb_true_iff in C).
    destruct (IH y eq_refl (smalls_app _ _ G) C0) as (Wc & Ws & V). eapply go_good; eauto.
Qed.

(* ---- everything comes to rest ---- *)
Definition cost (c : bytes) : nat := (2 * length c + 1)%nat.
Definition costs (cs : list bytes) : nat := list_sum (map cost cs).
Definition backlog (o1 : N) (s : state) : nat :=
  match inflight s with
  | [] => costs (concat (map (chunks o1) (queue s)))
  | WData cs :: _ => (1 + costs cs + costs (concat (map (chunks o1) (tl (queue s)))))%nat
  | WClose :: _ => 0%nat
  end.

Lemma costs_app a b : costs (a ++ b) = (costs a + costs b)%nat.
Proof. unfold costs. now rewrite map_app, list_sum_app. Qed.
Lemma costs_cons a b : costs (a :: b) = (cost a + costs b)%nat. Proof. reflexivity. Qed.

Lemma loop_backlog o1 s s' o : loop_turn o1 s = (s', o) -> is_close (EndpointModel.pending s) = false -> inflight s = [] ->
  (backlog o1 s' + 2 * length (written o) <= backlog o1 s)%nat.
Proof.
  unfold loop_turn. intros E Hp Hf. rewrite Hp in E. destruct (queue s) as [|p q] eqn:Eq.
  - injection E as <- <-. unfold backlog. cbn [set_running inflight queue]. rewrite Hf, Eq. cbn. lia.
  - destruct (chunks_eq o1 p) as (c & cs & X & Y). rewrite X in E. injection E as <- <-.
    unfold backlog. cbn [push_write set_inflight inflight queue]. rewrite Hf, Eq. cbn [app tl map concat]. rewrite Y, costs_app, costs_cons.
    unfold written, cost. cbn [flat_map]. rewrite app_nil_r. lia.
Qed.

Lemma write_backlog o1 cw s i s' o : I1 cw s -> is_close (EndpointModel.pending s) = false -> write_ok o1 s i = Some (s', o) ->
  (backlog o1 s' + 2 * length (written o) < backlog o1 s)%nat.
Proof.
  intros HI Hp. unfold write_ok. destruct (i_fl _ _ HI) as [Hf|[(cs & Hf & Hcw & Hq & Hr)|[Hf Hcw]]]; rewrite Hf.
  - destruct i; discriminate.
  - destruct i as [|i]; [|destruct i; discriminate]. cbn [nth_error remove_nth firstn skipn app]. intros E. apply some_inj in E.
    destruct cs as [|c cs].
    + destruct (queue s) as [|p q] eqn:Eq; [congruence|]. cbn [set_inflight queue] in E. rewrite Eq in E.
      apply loop_backlog in E; [|exact Hp|reflexivity]. unfold backlog at 2 in E. cbn [set_queue set_inflight inflight queue] in E.
      unfold backlog at 2. rewrite Hf, Eq. cbn [tl]. lia.
    + injection E as <- <-. unfold backlog. cbn [push_write set_inflight inflight queue]. rewrite Hf. cbn [app]. rewrite costs_cons. unfold written, cost. cbn [flat_map]. rewrite app_nil_r. lia.
  - apply (i_cw _ _ HI) in Hcw as [_ X]. rewrite X in Hp. discriminate.
Qed.

Definition shaking_c (f : phase) : nat := match f with Writing _ => 2 | Shaking => 1 | _ => 0 end.
Definition shaking_s (f : phase) : nat := match f with Shaking => 2 * length response + 2 | Writing _ => 1 | _ => 0 end.
Definition load (sd : side) (p : peer) : nat := (backlog (op sd) (ep p) + length (inbox p) + 2 * length (coming p))%nat.
Definition work (x : peers) : nat := (shaking_c (phase_ (fst x)) + shaking_s (phase_ (snd x)) + load Client (fst x) + load Server (snd x))%nat.

Definition shaking (sd : side) (f : phase) : nat := match sd with Client => shaking_c f | Server => shaking_s f end.
Lemma work_of sd x : work x = (shaking sd (phase_ (peer_of sd x)) + load sd (peer_of sd x) + (shaking (other sd) (phase_ (peer_of (other sd) x)) + load (other sd) (peer_of (other sd) x)))%nat.
Proof. unfold work. destruct sd; cbn [shaking other peer_of]; lia. Qed.

Lemma load_more sd w p : load sd (more w p) = (load sd p + 2 * length w)%nat.
Proof. unfold load. cbn [more with_coming ep inbox coming]. rewrite app_length. lia. Qed.

Lemma parse_shorter input rest : parse_handshake_response input = inl rest -> (length rest <= length input)%nat.
Proof. intros H. destruct (C25_client_refuses _ _ H) as (r & _ & ->). rewrite app_length. lia. Qed.

Lemma turn_work m me oth me' oth' acc acc' W Win : turn op m me oth = Some (me', oth') -> internal m = true -> (forall rs, m <> ShakeRead Server rs) ->
  source op (who m) me acc W -> source op (other (who m)) oth acc' Win -> Forall small acc' ->
  (phase_ me <> Ready -> started (ep me) = false) -> (phase_ me = Ready -> recv me Win) -> fair me -> fair oth ->
  let before := (shaking (who m) (phase_ me) + load (who m) me + (shaking (other (who m)) (phase_ oth) + load (other (who m)) oth))%nat in
  let after := (shaking (who m) (phase_ me') + load (who m) me' + (shaking (other (who m)) (phase_ oth') + load (other (who m)) oth'))%nat in
  (after < before)%nat \/ (me' = me /\ oth' = oth /\ exists sd n, m = Arrive sd n).
Proof.
  intros T HI Hns HS HO HG Hq HR F Fo before after.
  destruct m as [sd l|sd n|sd|sd|sd b|sd rs|sd]; try discriminate; cbn [who] in *; cbn [turn] in T.
  - destruct l; try discriminate. cbn [outer negb] in T. left. unfold act, step in T. rewrite (f_crash _ F) in T.
    destruct (write_ok (op sd) (ep me) i) as [[s' o]|] eqn:Wk; [|discriminate]. apply some_inj in T. injection T as <- <-.
    destruct HS as (ls0 & ls1 & s0 & o0 & E0 & Hn & E1 & _). destruct (exec_I1 _ _ _ _ _ _ I1_init E1) as [I _].
    pose proof (write_backlog _ _ _ _ _ _ I (f_pending _ F) Wk) as L. subst before after. rewrite (f_broken _ F), load_more. unfold load at 1 3.
    cbn [did with_ep ep phase_ inbox coming more with_coming]. lia.
  - apply some_inj in T. injection T as <- <-. subst before after.
    destruct (Nat.eq_dec (length (firstn n (coming me))) 0) as [Z|Z].
    + right. assert (Z' : firstn n (coming me) = []) by now apply length_zero_iff_nil. split; [|split; [reflexivity|eauto]].
      assert (K : skipn n (coming me) = coming me) by (rewrite <- (firstn_skipn n (coming me)) at 2; now rewrite Z').
      unfold with_inbox, with_coming. cbn. rewrite Z', K, app_nil_r. now destruct me.
    + left. unfold load at 1 3. cbn [with_inbox with_coming ep phase_ inbox coming]. rewrite app_length.
      assert (L : length (coming me) = (length (firstn n (coming me)) + length (skipn n (coming me)))%nat) by (rewrite <- app_length, firstn_skipn; reflexivity). lia.
  - left. unfold read in T. rewrite (f_crash _ F) in T. cbn [orb] in T. destruct (reader_on (ep me)) eqn:Hrd; [|discriminate]. cbn [negb] in T.
    assert (Hready : phase_ me = Ready).
    { destruct (phase_ me) eqn:Ep; auto; (destruct (source_quiet _ _ _ _ _ HS) as (_ & _ & _ & X); [apply Hq; discriminate|congruence]). }
    pose proof (recv_calm _ _ _ _ _ (HR Hready) HO HG Fo) as RC.
    destruct (read_turn (payload me) (inbox me)) as [|evs p' rest|e|] eqn:RT; try discriminate; try contradiction.
    fold (feed op sd evs (with_payload p' (with_inbox rest me)) oth) in T. rewrite feed_messages in T by (auto; apply F). apply some_inj in T. injection T as <- <-.
    apply read_turn_shrink in RT. subst before after. unfold load at 1 3. cbn [did with_payload with_inbox ep phase_ inbox coming]. lia.
  - left. destruct b; [|discriminate]. destruct (phase_ me) as [|t| |] eqn:Ep; try discriminate. apply some_inj in T. injection T as <- <-. subst before after.
    rewrite ?Ep. destruct sd; unfold load; cbn [reach ep phase_ inbox coming shaking shaking_c shaking_s]; lia.
  - left. destruct sd; [|exfalso; now apply (Hns rs)]. destruct (phase_ me) as [|t| |] eqn:Ep; try discriminate. destruct (crashed (ep me)); [discriminate|]. cbn [shake] in T.
    subst before after. rewrite ?Ep. destruct (parse_handshake_response (inbox me)) as [rest|[]] eqn:Pr; try discriminate; apply some_inj in T; injection T as <- <-.
    + apply parse_shorter in Pr. unfold load. cbn [reach with_inbox ep phase_ inbox coming shaking shaking_c]. lia.
    + unfold load. cbn [reach with_inbox ep phase_ inbox coming shaking shaking_c]. lia.
Qed.

Lemma go_work ms x m y Wc Ws : good_state ms x Wc Ws -> internal m = true -> go op x m = Some y -> (work y < work x)%nat \/ (y = x /\ exists sd n, m = Arrive sd n).
Proof.
  intros [V [Gc Gs] C Fc Fs St] HI E. destruct x as [c s], y as [c' s']. cbn [fst snd] in *. destruct V.
  destruct (who m) eqn:Hw.
  - assert (T : turn op m c s = Some (c', s')) by (unfold go in E; rewrite Hw in E; exact E).
    pose proof (turn_work m c s c' s' (sent Client ms) (sent Server ms) Wc Ws T HI) as K. rewrite Hw in K.
    rewrite (work_of Client (c', s')), (work_of Client (c, s)). cbn [peer_of other fst snd] in *.
    destruct K as [K|(-> & -> & K)]; auto.
    + intros rs ->. discriminate.
    + intros X. now apply v_qc0.
    + intros X. rewrite X in v_down0. exact v_down0.
  - pose proof (flip_go _ _ _ _ Hw E) as T. cbn [fst snd] in T.
    assert (D : (exists rs, m = ShakeRead Server rs) \/ forall rs, m <> ShakeRead Server rs).
    { destruct m as [sd l|sd n|sd|sd|sd b|[|] rs|sd]; try (right; discriminate). left. eauto. }
    destruct D as [[rs ->]|D].
    + left. cbn [turn] in T. destruct (phase_ s) as [|t| |] eqn:Ep; try discriminate. destruct (crashed (ep s)); [discriminate|]. cbn [shake] in T.
      assert (Hc : phase_ c <> Ready) by (intros X; now apply v_order0).
      destruct (v_qc0 Hc) as [Qc _]. destruct (source_quiet _ _ _ _ _ v_sc0 Qc) as (HW & _). rewrite HW, app_nil_r in v_up0. symmetry in v_up0.
      pose proof (request_part origin token rs _ _ Hfits v_up0) as R.
      destruct (parse_handshake_request rs (inbox s)) as [info b u| | | |]; try discriminate; try contradiction.
      destruct R as (R1 & -> & K1 & K2). rewrite (response_of _ K1), K2, v_bs0 in T. apply some_inj in T. injection T as <- <-.
      unfold work. cbn [fst snd]. rewrite load_more, Ep. unfold load at 2 4. cbn [reach with_inbox more with_coming phase_ ep inbox coming shaking_s length]. lia.
    + pose proof (turn_work m s c s' c' (sent Server ms) (sent Client ms) Ws Wc T HI D) as K. rewrite Hw in K.
      rewrite (work_of Server (c', s')), (work_of Server (c, s)). cbn [peer_of other fst snd] in *.
      destruct K as [K|(-> & -> & K)]; auto.
      * intros X. now apply v_qs0.
      * intros X. rewrite X in v_up0. exact v_up0.
Qed.

Lemma internal_calm m : internal m = true -> calm m = true.
Proof. destruct m as [sd l|sd n|sd|sd|sd b|sd rs|sd]; try discriminate; auto. destruct l; auto; discriminate. Qed.
Lemma internal_sent sd m : internal m = true -> sent sd [m] = [].
Proof. destruct m as [s l|s n|s|s|s b|s rs|s]; try discriminate; auto. destruct l; auto; discriminate. Qed.

Lemma go_internal ms x m y Wc Ws : good_state ms x Wc Ws -> internal m = true -> go op x m = Some y -> exists Wc' Ws', good_state (ms ++ [m]) y Wc' Ws'.
Proof.
  intros H HI E. pose proof H as []. eapply go_good; eauto.
  - destruct g_smalls0. split; rewrite sent_app, internal_sent, app_nil_r; auto.
  - unfold all_calm in *. rewrite forallb_app, g_calm0. cbn. now rewrite (internal_calm _ HI).
Qed.

Lemma busy_bound n : forall x k y ms Wc Ws, (work x <= n)%nat -> good_state ms x Wc Ws -> busy op x k y -> (k + work y <= n)%nat.
Proof.
  induction n as [|n IH]; intros x k y ms Wc Ws L H B; destruct B as [x|x m y k z HI E Hne B]; try lia.
  - destruct (go_work _ _ _ _ _ _ H HI E) as [X|[X _]]; [lia|congruence].
  - destruct (go_work _ _ _ _ _ _ H HI E) as [X|[X _]]; [|congruence].
    destruct (go_internal _ _ _ _ _ _ H HI E) as (Wc' & Ws' & H').
    assert ((k + work z <= n)%nat) by (eapply IH; [|exact H'|exact B]; lia). lia.
Qed.

(* nothing is left to do *)
Definition at_rest (x : peers) : Prop := forall sd, phase_ (peer_of sd x) = Ready /\ inflight (ep (peer_of sd x)) = [] /\ coming (peer_of sd x) = []
  /\ (reader_on (ep (peer_of sd x)) = true -> read_turn (payload (peer_of sd x)) (inbox (peer_of sd x)) = TWait).

Lemma go_peer x m : go op x m = match turn op m (peer_of (who m) x) (peer_of (other (who m)) x) with
   | Some (a, b) => Some (match who m with Client => (a, b) | Server => (b, a) end) | None => None end.
Proof. unfold go. destruct (who m); cbn [peer_of other]; [|reflexivity]. destruct (turn op m (fst x) (snd x)) as [[a b]|]; reflexivity. Qed.

Lemma rest_or_move ms x Wc Ws : good_state ms x Wc Ws -> (exists m y, internal m = true /\ go op x m = Some y /\ y <> x) \/ at_rest x.
Proof.
  intros H. pose proof H as [V [Gc Gs] C Fc Fs St]. destruct V.
  assert (Strict : forall m y, internal m = true -> go op x m = Some y -> (forall sd n, m <> Arrive sd n) -> exists m y, internal m = true /\ go op x m = Some y /\ y <> x).
  { intros m y HI E Hn. exists m, y. split; [exact HI|]. split; [exact E|]. intros ->. destruct (go_work _ _ _ _ _ _ H HI E) as [X|[_ (sd & n & X)]]; [lia|]. now apply (Hn sd n). }
  assert (A : (exists m y, internal m = true /\ go op x m = Some y /\ y <> x) \/ forall sd, coming (peer_of sd x) = []).
  { assert (B : forall sd, (exists m y, internal m = true /\ go op x m = Some y /\ y <> x) \/ coming (peer_of sd x) = []).
    { intros sd. destruct (coming (peer_of sd x)) as [|b r] eqn:Ec; [now right|]. left.
      destruct (go op x (Arrive sd 1)) as [y|] eqn:E; [|rewrite go_peer in E; cbn [who turn] in E; discriminate].
      exists (Arrive sd 1), y. split; [reflexivity|]. split; [exact E|]. intros ->.
      rewrite go_peer in E. cbn [who turn] in E. rewrite Ec in E. cbn [firstn skipn] in E. apply some_inj in E.
      assert (X : coming (peer_of sd x) = r) by (destruct sd; cbn [peer_of]; rewrite <- E; reflexivity). rewrite Ec in X.
      apply (f_equal (@length N)) in X. cbn in X. lia. }
    destruct (B Client) as [X|X]; [now left|]. destruct (B Server) as [Y|Y]; [now left|]. right. intros [|]; auto. }
  destruct A as [A|HC]; [now left|].
  (* the server *)
  destruct (phase_ (snd x)) as [|t| |] eqn:Es.
  - left. assert (Hc : phase_ (fst x) <> Ready) by (intros X; now apply v_order0).
    destruct (v_qc0 Hc) as [Qc _]. destruct (source_quiet _ _ _ _ _ v_sc0 Qc) as (HW & _). rewrite HW in v_up0. specialize (HC Server). cbn [peer_of] in HC. rewrite HC, !app_nil_r in v_up0.
    set (m := ShakeRead Server (repeat 1%nat (length (handshake_request origin token)))).
    destruct Hfits as (H1 & H2 & H3 & H4 & H5).
    destruct (C22_request_understood_partial origin token (repeat 1%nat (length (handshake_request origin token))) H1 H2 H3 H4 H5) as (info & P & K1 & K2); [rewrite repeat_length; lia|].
    destruct (go op x m) as [y|] eqn:E; [eapply Strict; [|exact E|]; [reflexivity|discriminate]|]. exfalso.
    rewrite go_peer in E. subst m. cbn [who turn other peer_of] in E. rewrite Es, (f_crash _ Fs) in E. cbn [shake] in E. rewrite v_up0, P, (response_of _ K1), K2 in E. discriminate.
  - left. destruct (go op x (ShakeWrite Server true)) as [y|] eqn:E; [eapply Strict; [|exact E|]; [reflexivity|discriminate]|]. exfalso.
    rewrite go_peer in E. cbn [who turn other peer_of] in E. rewrite Es in E. discriminate.
  - destruct (phase_ (fst x)) as [|t| |] eqn:Ec.
    + left. destruct v_down0 as (r & A & ->). specialize (HC Client). cbn [peer_of] in HC. rewrite HC, app_nil_r in A.
      destruct (go op x (ShakeRead Client [])) as [y|] eqn:E; [eapply Strict; [|exact E|]; [reflexivity|discriminate]|]. exfalso.
      rewrite go_peer in E. cbn [who turn other peer_of] in E. rewrite Ec, (f_crash _ Fc) in E. cbn [shake] in E. rewrite A, response_whole in E. discriminate.
    + left. destruct (go op x (ShakeWrite Client true)) as [y|] eqn:E; [eapply Strict; [|exact E|]; [reflexivity|discriminate]|]. exfalso.
      rewrite go_peer in E. cbn [who turn other peer_of] in E. rewrite Ec in E. discriminate.
    + (* both are ready *)
      assert (F : forall sd, fair (peer_of sd x)) by (intros [|]; auto).
      assert (RC : forall sd, match read_turn (payload (peer_of sd x)) (inbox (peer_of sd x)) with TWait => True | TNext evs _ _ => forallb is_message evs = true | _ => False end).
      { intros [|]; cbn [peer_of]; eapply recv_calm; eauto. }
      assert (B : forall sd, (exists m y, internal m = true /\ go op x m = Some y /\ y <> x) \/
         (inflight (ep (peer_of sd x)) = [] /\ (reader_on (ep (peer_of sd x)) = true -> read_turn (payload (peer_of sd x)) (inbox (peer_of sd x)) = TWait))).
      { intros sd. destruct (inflight (ep (peer_of sd x))) as [|w ws] eqn:Ei.
        - destruct (reader_on (ep (peer_of sd x))) eqn:Er; [|right; split; [reflexivity|discriminate]].
          specialize (RC sd). destruct (read_turn (payload (peer_of sd x)) (inbox (peer_of sd x))) as [|evs p' rest|e|] eqn:RT; try contradiction; [right; auto|].
          left. destruct (go op x (Read sd)) as [y|] eqn:E; [eapply Strict; [|exact E|]; [reflexivity|discriminate]|]. exfalso.
          rewrite go_peer in E. cbn [who turn] in E. unfold read in E. rewrite (f_crash _ (F sd)), Er, RT in E. cbn [orb negb] in E.
          fold (feed op sd evs (with_payload p' (with_inbox rest (peer_of sd x))) (peer_of (other sd) x)) in E. rewrite feed_messages in E; [discriminate|exact RC|exact Er|apply (F sd)|apply (F sd)].
        - left. destruct (go op x (App sd (WriteOk 0))) as [y|] eqn:E; [eapply Strict; [|exact E|]; [reflexivity|discriminate]|]. exfalso.
          rewrite go_peer in E. cbn [who turn outer negb] in E. unfold act, step, write_ok in E. rewrite (f_crash _ (F sd)), Ei in E. cbn [nth_error] in E.
          destruct (match w with WData (c0 :: cs) => _ | _ => _ end) as [a b]; discriminate. }
      destruct (B Client) as [X|[X1 X2]]; [now left|]. destruct (B Server) as [Y|[Y1 Y2]]; [now left|]. right.
      intros [|]; (split; [cbn [peer_of]; assumption|]); split; auto.
    + exfalso. now apply (f_phase _ Fc).
  - exfalso. now apply (f_phase _ Fs).
Qed.

Lemma at_rest_resting x : at_rest x -> resting op x.
Proof.
  intros R m y HI E. rewrite go_peer in E. destruct (R (who m)) as (Hp & Hi & Hc & Hr).
  destruct m as [sd l|sd n|sd|sd|sd b|sd rs|sd]; try discriminate; cbn [who turn] in *; rewrite ?Hp in E; try discriminate.
  - destruct l; try discriminate. cbn [outer negb] in E. unfold act, step, write_ok in E. rewrite Hi in E. destruct (crashed _); [discriminate|]. destruct i; discriminate.
  - rewrite Hc in E. rewrite firstn_nil, skipn_nil, app_nil_r in E. apply some_inj in E. subst y.
    assert (X : with_inbox (inbox (peer_of sd x)) (with_coming [] (peer_of sd x)) = peer_of sd x) by (unfold with_inbox, with_coming; cbn; rewrite <- Hc; now destruct (peer_of sd x)).
    rewrite X. destruct sd, x; reflexivity.
  - unfold read in E. destruct (crashed _); [discriminate|]. cbn [orb] in E. destruct (reader_on _); [|discriminate]. cbn [negb] in E. rewrite (Hr eq_refl) in E. discriminate.
Qed.

Lemma resting_at_rest ms x Wc Ws : good_state ms x Wc Ws -> resting op x -> at_rest x.
Proof. intros H R. destruct (rest_or_move _ _ _ _ H) as [(m & y & HI & E & Hn)|X]; [|exact X]. exfalso. apply Hn. now apply (R m). Qed.

Lemma reaches_rest n : forall ms x Wc Ws, (work x <= n)%nat -> good_state ms x Wc Ws -> exists k y, busy op x k y /\ resting op y.
Proof.
  induction n as [|n IH]; intros ms x Wc Ws L H; (destruct (rest_or_move _ _ _ _ H) as [(m & y & HI & E & Hn)|X]; [|exists 0%nat, x; split; [constructor|now apply at_rest_resting]]).
  - destruct (go_work _ _ _ _ _ _ H HI E) as [X|[X _]]; [lia|congruence].
  - destruct (go_work _ _ _ _ _ _ H HI E) as [X|[X _]]; [|congruence]. destruct (go_internal _ _ _ _ _ _ H HI E) as (Wc' & Ws' & H').
    destruct (IH (ms ++ [m]) y Wc' Ws' ltac:(lia) H') as (k & z & B & R). exists (S k), z. split; [|exact R]. econstructor; eauto.
Qed.

Lemma rest_delivers ms x Wc Ws : good_state ms x Wc Ws -> at_rest x -> (forall sd, In (App sd CallStart) ms) -> forall sd, heard (other sd) x = joined (sent sd ms).
Proof.
  intros [V [Gc Gs] C Fc Fs St] R Hst. destruct V.
  assert (Q : forall sd acc W, source op sd (peer_of sd x) acc W -> fair (peer_of sd x) -> queue (ep (peer_of sd x)) = []).
  { intros sd acc W (ls0 & ls1 & s0 & o0 & E0 & Hn & E1 & Hb & Ha & _) F. rewrite (Hb (f_broken _ F)) in *. rewrite app_nil_r in *.
    assert (D0 : drained false init) by (intros X; discriminate).
    pose proof (exec_drained _ _ _ _ _ _ I1_init Hn D0 E1) as D. destruct (R sd) as (_ & Hi & _).
    destruct (D (St sd (Hst sd)) (f_stopped _ F) Hi) as [X|X]; [|exact X]. cbn [orb] in X. rewrite (f_close _ F) in X. discriminate. }
  assert (K : forall sd acc W, source op sd (peer_of sd x) acc W -> Forall small acc -> recv (peer_of (other sd) x) W -> fair (peer_of sd x) -> fair (peer_of (other sd) x) -> heard (other sd) x = joined acc).
  { intros sd acc W HS HG (evs & H & _ & HK) F Fo. destruct (R sd) as (_ & Hi & _). destruct (R (other sd)) as (_ & _ & Hc & Hr).
    destruct (source_calm _ _ _ _ HS HG F) as (_ & _ & M). specialize (M Hi (Q _ _ _ HS F)). unfold heard. rewrite (HK (f_stopped _ Fo)).
    specialize (H []). rewrite Hc, !app_nil_r in H. specialize (Hr (f_reader _ Fo (St _ (Hst _)))). rewrite run_from_unfold, Hr in H. cbn [fst snd] in H. rewrite app_nil_r in H. rewrite H in M. exact M. }
  intros [|]; [eapply (K Client); eauto|eapply (K Server); eauto]; cbn [other peer_of].
  - destruct (R Server) as [X _]. cbn [peer_of] in X. rewrite X in v_up0. exact v_up0.
  - destruct (R Client) as [X _]. cbn [peer_of] in X. rewrite X in v_down0. exact v_down0.
Qed.

Lemma busy_good : forall x k y ms Wc Ws, good_state ms x Wc Ws -> busy op x k y -> exists ms' Wc' Ws', good_state (ms ++ ms') y Wc' Ws' /\ forallb internal ms' = true.
Proof.
  intros x k y ms Wc Ws H B. revert ms Wc Ws H. induction B as [x|x m y k z HI E Hn B IH]; intros ms Wc Ws H.
  - exists [], Wc, Ws. now rewrite app_nil_r.
  - destruct (go_internal _ _ _ _ _ _ H HI E) as (Wc' & Ws' & H'). destruct (IH _ _ _ H') as (ms' & Wc2 & Ws2 & H2 & HI2).
    exists (m :: ms'), Wc2, Ws2. rewrite <- app_assoc in H2. split; [exact H2|]. cbn. now rewrite HI.
Qed.

Lemma internal_sents sd ms' : forallb internal ms' = true -> sent sd ms' = [].
Proof.
  induction ms' as [|m ms' IH]; [reflexivity|]. cbn [forallb]. intros H. apply andb_true_iff in H as [A B].
  change (m :: ms') with ([m] ++ ms'). rewrite sent_app, internal_sent, IH; auto.
Qed.
End Pair.

Lemma goods_smalls ms : goods ms -> smalls ms.
Proof. intros [A B]. split; (eapply Forall_impl; [|eassumption]); intros m [H _]; exact H. Qed.
Lemma goods_joined ms sd : goods ms -> joined (sent sd ms) = sent sd ms.
Proof.
  intros [A B]. apply merged_same. destruct sd; (eapply Forall_impl; [|eassumption]); intros m [_ H]; exact H.
Qed.
