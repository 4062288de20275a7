From Coq Require Import String.
From Verif Require Import Base RouteModel RouteSpec RouteProofs RouteProps NavModel NavSpec.
Open Scope N_scope.

Lemma plain_above c : plain_char c -> 32 < c /\ c <> 47.
Proof.
  intros (E & S & _). unfold encoded in E. unfold is_slash in S. destruct (N.leb_spec c 32); [discriminate|]. destruct (N.eqb_spec c 47); [discriminate|]. lia.
Qed.

Lemma split_segment x r : Forall plain_char x -> split (x ++ 47 :: r) = x :: split r.
Proof.
  induction x as [|c x IH]; intros H; [reflexivity|]. inversion H as [|? ? Hc Hx]; subst. cbn. destruct Hc as (_ & -> & _). now rewrite IH.
Qed.
Lemma split_last x : Forall plain_char x -> split x = [x].
Proof. induction x as [|c x IH]; intros H; [reflexivity|]. inversion H as [|? ? Hc Hx]; subst. cbn. destruct Hc as (_ & -> & _). now rewrite IH. Qed.
Lemma split_join : forall l x, Forall plain_segment (x :: l) -> split (x ++ join l) = x :: l.
Proof.
  induction l as [|y l IH]; intros x H; inversion H as [|? ? Hx Hl]; subst.
  - cbn. rewrite app_nil_r. apply split_last, Hx.
  - cbn [join flat_map app]. rewrite split_segment by apply Hx. f_equal. now apply IH.
Qed.

Lemma encode_plain x : Forall plain_char x -> encode x = x.
Proof. induction x as [|c x IH]; intros H; [reflexivity|]. inversion H as [|? ? Hc Hx]; subst. cbn. destruct Hc as (-> & _). cbn. now rewrite <- IH at 2. Qed.

Lemma path_plain : forall l acc, Forall plain_segment l -> path_state l acc = rev acc ++ l.
Proof.
  induction l as [|x l IH]; intros acc H; [now rewrite app_nil_r|]. inversion H as [|? ? Hx Hl]; subst. destruct Hx as (Hc & Hs & Hd).
  destruct l as [|y l].
  - cbn [path_state]. rewrite Hd, Hs, encode_plain by auto. cbn. reflexivity.
  - change (path_state (x :: y :: l) acc) with (path_state (y :: l) (if double_dot x then tl acc else if single_dot x then acc else encode x :: acc)).
    rewrite Hd, Hs, encode_plain by auto. rewrite (IH (x :: acc) Hl). cbn [rev]. now rewrite <- app_assoc.
Qed.

Definition seen_char (c : N) : Prop := 32 < c /\ is_query c = false.
Lemma join_chars l : Forall plain_segment l -> Forall seen_char (join l).
Proof.
  induction 1 as [|x l Hx Hl IH]; [constructor|]. cbn. constructor; [split; [lia|reflexivity]|]. apply Forall_app. split; [|auto].
  destruct Hx as (Hc & _). eapply Forall_impl; [|exact Hc]. intros c Hq. split; [now apply plain_above|apply Hq].
Qed.

Lemma skip_blank_id s : Forall seen_char s -> skip_blank s = s.
Proof. intros H. destruct H as [|c s [Hc _] Hs]; [reflexivity|]. cbn. unfold blank. destruct (N.leb_spec c 32); [lia|reflexivity]. Qed.
Lemma trim_id s : Forall seen_char s -> trim s = s.
Proof. intros H. unfold trim. rewrite (skip_blank_id s H), skip_blank_id; [apply rev_involutive|]. now apply Forall_rev. Qed.
Lemma no_newlines_id s : Forall seen_char s -> no_newlines s = s.
Proof.
  induction 1 as [|c s [Hc _] Hs IH]; [reflexivity|]. cbn. destruct (N.eqb_spec c 9); [lia|]. destruct (N.eqb_spec c 10); [lia|]. destruct (N.eqb_spec c 13); [lia|].
  cbn. now f_equal.
Qed.
Lemma before_query_id s : Forall seen_char s -> before_query s = s.
Proof. induction 1 as [|c s [_ Hc] Hs IH]; [reflexivity|]. cbn. rewrite Hc. now f_equal. Qed.

(* an address in plain characters stays as it is *)
Lemma resolve_plain cur x l : Forall plain_segment (x :: l) -> (x <> [] \/ l = []) -> resolve cur (join (x :: l)) = Some (join (x :: l)).
Proof.
  intros H Hx. pose proof (join_chars _ H) as HC. unfold resolve. rewrite (trim_id _ HC), (no_newlines_id _ HC).
  cbn [join flat_map app] in *. fold (join l) in *. cbn [has_scheme lower N.leb andb]. replace (97 <=? lower 47) with false by reflexivity. cbn [andb].
  replace (is_query 47) with false by reflexivity. replace (is_slash 47) with true by reflexivity.
  inversion HC as [|? ? _ HC']; subst. rewrite (before_query_id _ HC'), split_join, path_plain by auto. cbn [rev app join flat_map].
  destruct x as [|c x].
  - destruct Hx as [Hx|Hx]; [congruence|]. subst l. reflexivity.
  - cbn [app]. inversion H as [|? ? (Hc & _) _]; subst. inversion Hc as [|? ? (_ & Hs & _) _]; subst. now rewrite Hs.
Qed.

Lemma digit_plain c : digit c -> plain_char c.
Proof.
  unfold digit. intros H. unfold plain_char, encoded, is_slash, is_query.
  repeat match goal with |- context [?a =? ?b] => destruct (N.eqb_spec a b); [lia|] | |- context [?a <=? ?b] => destruct (N.leb_spec a b); [lia|] | |- context [?a <? ?b] => destruct (N.ltb_spec a b); [lia|] end.
  auto.
Qed.
Lemma digits_plain x : Forall digit x -> plain_segment x.
Proof.
  intros H. split; [eapply Forall_impl; [apply digit_plain|exact H]|].
  assert (L : map lower x = x).
  { clear -H. induction H as [|c x Hc Hx IH]; [reflexivity|]. cbn. rewrite IH. unfold lower, digit in *. destruct (N.leb_spec 65 c); [lia|reflexivity]. }
  unfold single_dot, double_dot. rewrite L.
  assert (D : forall y, ~ Forall digit y -> bytes_eqb x y = false) by (intros y Hy; destruct (bytes_eqb_spec x y); [congruence|reflexivity]).
  assert (Q : forall y, In 46 y \/ In 37 y -> ~ Forall digit y).
  { intros y Hy F. pose proof (proj1 (Forall_forall _ _) F) as G. unfold digit in G. destruct Hy as [Hy|Hy]; apply G in Hy; lia. }
  rewrite !D; [auto|apply Q; cbn; tauto..].
Qed.

Lemma c_string_id s : ~ In 0 s -> c_string s = s.
Proof. induction s as [|c s IH]; intros H; [reflexivity|]. cbn in *. destruct (N.eqb_spec c 0); [intuition|]. now rewrite IH by tauto. Qed.

(* the segments of the address of a route *)
Lemma good_segments m i ms : good_route m (Route i ms) -> exists name ts, nth_error m i = Some (name, ts) /\ to_string m i ms = join (name :: map param_text ms) /\
  Forall plain_segment (name :: map param_text ms) /\ (name <> [] \/ ms = []).
Proof.
  intros (name & ts & E & Hn & Hne & HT & HS & HP). exists name, ts. split; [auto|]. split; [now apply to_string_text with ts|]. split.
  - constructor; [auto|]. clear -HS HP. induction ms as [|v ms IH]; [constructor|]. inversion HS; inversion HP; subst. cbn. constructor; [|auto].
    destruct v as [s|z]; cbn in *; [auto|]. apply digits_plain. destruct z as [|p|p]; try lia. apply dec_spec.
  - destruct Hne as [?|Hne]; [auto|]. subst ts. inversion HT. auto.
Qed.

Lemma push_good m pre i ms b : plain_prefix pre -> good_route m (Route i ms) -> (index b < length (entries b))%nat ->
  push_state (pre ++ c_string (to_string m i ms)) b = Some {| entries := firstn (S (index b)) (entries b) ++ [pre ++ to_string m i ms]; index := S (index b) |}.
Proof.
  intros (segs & -> & Hs) G Hb. destruct (good_segments m i ms G) as (name & ts & E & ET & HP & Hn).
  assert (HS : Forall plain_segment segs) by (eapply Forall_impl; [|exact Hs]; tauto).
  assert (HC : Forall seen_char (to_string m i ms)) by (rewrite ET; now apply join_chars).
  rewrite c_string_id. 2: { intros X. apply (proj1 (Forall_forall _ _) HC) in X. destruct X. lia. }
  rewrite ET. assert (EJ : join segs ++ join (name :: map param_text ms) = join (segs ++ name :: map param_text ms)) by (unfold join; now rewrite flat_map_app).
  rewrite EJ. unfold push_state. destruct segs as [|x segs]; cbn [app].
  - rewrite resolve_plain; auto. destruct Hn as [?|Hn]; [auto|]. subst ms. now right.
  - rewrite resolve_plain; auto; [|inversion Hs; tauto]. change (Forall plain_segment ((x :: segs) ++ name :: map param_text ms)). apply Forall_app. auto.
Qed.

Lemma good_from_string m i ms : wf_map m -> good_route m (Route i ms) -> (forall name ts, In (name, ts) m -> all_bytes name) -> from_string m (to_string m i ms) = Ok (Route i ms).
Proof.
  intros HW (name & ts & E & Hn & Hne & HT & HS & HP) HB. apply (C47_round_trip_iff m i name ts ms); auto. eapply HB, nth_error_In; eauto.
Qed.

Record refines (m : route_map) (pre : list N) (h : routes) (s : nav) : Prop := {
  ref_length : length (entries (page s)) = length (visited h);
  ref_index : index (page s) = shown h;
  ref_shown : (shown h < length (visited h))%nat;
  ref_prefix : prefix s = pre;
  ref_reads : forall k v p, nth_error (visited h) k = Some v -> nth_error (entries (page s)) k = Some p ->
    (length pre <= length p)%nat /\ from_string m (skipn (length pre) p) = Ok v;
  ref_address : forall k v p, nth_error (visited h) (S k) = Some v -> nth_error (entries (page s)) (S k) = Some p -> p = address m pre v;
  ref_store : nth_error (visited h) (shown h) = Some (store s) }.

(* reading the address puts the shown route into the store *)
Lemma receive_refines m pre h s : length (entries (page s)) = length (visited h) -> index (page s) = shown h -> (shown h < length (visited h))%nat -> prefix s = pre ->
  (forall k v p, nth_error (visited h) k = Some v -> nth_error (entries (page s)) k = Some p -> (length pre <= length p)%nat /\ from_string m (skipn (length pre) p) = Ok v) ->
  (forall k v p, nth_error (visited h) (S k) = Some v -> nth_error (entries (page s)) (S k) = Some p -> p = address m pre v) ->
  exists s', receive_event m s = Done s' /\ refines m pre h s'.
Proof.
  intros HL HI HS HP HR HA. unfold receive_event, pathname.
  destruct (nth_error (visited h) (shown h)) as [v|] eqn:Ev; [|apply nth_error_None in Ev; lia].
  destruct (nth_error (entries (page s)) (shown h)) as [p|] eqn:Ep; [|apply nth_error_None in Ep; lia].
  rewrite HI, HP, (nth_error_nth _ _ _ Ep). destruct (HR _ _ _ Ev Ep) as [H1 H2]. destruct (Nat.ltb_spec (length p) (length pre)); [lia|].
  rewrite H2. eexists. split; [reflexivity|]. split; cbn; auto.
Qed.

Lemma firstn_nth {A} (l : list A) n k : (k < n)%nat -> nth_error (firstn n l) k = nth_error l k.
Proof. revert l k. induction n as [|n IH]; intros l k H; [lia|]. destruct l, k; cbn; auto. apply IH. lia. Qed.

Lemma perform_refines m pre h s a : wf_map m -> (forall name ts, In (name, ts) m -> all_bytes name) -> plain_prefix pre -> good_action m a -> refines m pre h s ->
  exists s', perform m a s = Done s' /\ refines m pre (go_to a h) s'.
Proof.
  intros HW HB HP G [RL RI RS RP RR RA RT]. destruct a as [[|i ms]|t|i]; cbn [perform go_to good_action] in *.
  - apply receive_refines; auto.
  - unfold web_route_update. rewrite RP, (push_good m pre i ms (page s)) by (auto; lia).
    apply receive_refines; cbn [page entries index visited shown prefix]; rewrite ?RI.
    + rewrite !app_length, !firstn_length. cbn [length]. lia.
    + reflexivity.
    + rewrite app_length, firstn_length. cbn [length]. lia.
    + reflexivity.
    + intros k v p Ev Ep. destruct (Nat.ltb_spec k (S (shown h))).
      * rewrite nth_error_app1 in Ev by (rewrite firstn_length; lia). rewrite nth_error_app1 in Ep by (rewrite firstn_length; lia).
        rewrite firstn_nth in Ev by lia. rewrite firstn_nth in Ep by lia. eauto.
      * rewrite nth_error_app2 in Ev by (rewrite firstn_length; lia). rewrite nth_error_app2 in Ep by (rewrite firstn_length; lia).
        rewrite firstn_length in Ev, Ep. replace (k - Nat.min (S (shown h)) (length (visited h)))%nat with (k - S (shown h))%nat in Ev by lia.
        replace (k - Nat.min (S (shown h)) (length (entries (page s))))%nat with (k - S (shown h))%nat in Ep by lia.
        destruct (k - S (shown h))%nat as [|q]; [|destruct q; discriminate]. cbn in Ev, Ep. injection Ev as <-. injection Ep as <-.
        split; [rewrite app_length; lia|]. rewrite skipn_app, skipn_all, Nat.sub_diag. cbn [app skipn]. now apply good_from_string.
    + intros k v p Ev Ep. destruct (Nat.ltb_spec (S k) (S (shown h))).
      * rewrite nth_error_app1 in Ev by (rewrite firstn_length; lia). rewrite nth_error_app1 in Ep by (rewrite firstn_length; lia).
        rewrite firstn_nth in Ev by lia. rewrite firstn_nth in Ep by lia. eauto.
      * rewrite nth_error_app2 in Ev by (rewrite firstn_length; lia). rewrite nth_error_app2 in Ep by (rewrite firstn_length; lia).
        rewrite firstn_length in Ev, Ep. replace (S k - Nat.min (S (shown h)) (length (visited h)))%nat with (S k - S (shown h))%nat in Ev by lia.
        replace (S k - Nat.min (S (shown h)) (length (entries (page s))))%nat with (S k - S (shown h))%nat in Ep by lia.
        destruct (S k - S (shown h))%nat as [|q]; [|destruct q; discriminate]. cbn in Ev, Ep. injection Ev as <-. injection Ep as <-. reflexivity.
  - contradiction.
  - rewrite RL. destruct (Nat.ltb_spec i (length (visited h))).
    + apply receive_refines; cbn; auto.
    + exists s. split; [reflexivity|]. split; auto.
Qed.

Lemma perform_all_refines m pre : wf_map m -> (forall name ts, In (name, ts) m -> all_bytes name) -> plain_prefix pre -> forall l h s, Forall (good_action m) l -> refines m pre h s ->
  exists s', perform_all m l s = Done s' /\ refines m pre (fold_left (fun h a => go_to a h) l h) s'.
Proof.
  intros HW HB HP. induction l as [|a l IH]; intros h s G R; [exists s; auto|]. inversion G; subst.
  destruct (perform_refines m pre h s a) as (s1 & E & R1); auto. cbn. rewrite E. auto.
Qed.

Lemma map_pointwise {A B} (f : B -> A) : forall (l : list A) (l' : list B), length l = length l' ->
  (forall k x y, nth_error l' k = Some x -> nth_error l k = Some y -> y = f x) -> l = map f l'.
Proof.
  induction l as [|y l IH]; intros [|x l'] HL H; try discriminate; [reflexivity|]. cbn. f_equal; [now apply (H 0%nat)|]. apply IH; [now injection HL|].
  intros k a b Ha Hb. now apply (H (S k)).
Qed.

(* ---- dots ---- *)
Lemma lower_dots c : In (lower c) [46; 37; 50; 101] -> plain_char c.
Proof.
  intros H. assert (c = 46 \/ c = 37 \/ c = 50 \/ c = 101 \/ c = 69) as X.
  { unfold lower in H. destruct ((65 <=? c) && (c <=? 90)) eqn:E; [apply andb_prop in E as [E1 E2]; apply N.leb_le in E1; apply N.leb_le in E2|]; cbn in H; decompose [or] H; try contradiction; subst; auto; lia. }
  decompose [or] X; subst; repeat split; reflexivity.
Qed.
Lemma dots_plain x l : map lower x = l -> Forall (fun c => In c [46; 37; 50; 101]) l -> Forall plain_char x.
Proof. intros <- H. rewrite Forall_map in H. eapply Forall_impl; [|exact H]. apply lower_dots. Qed.
Lemma bytes_eqb_true a b : bytes_eqb a b = true -> a = b.
Proof. destruct (bytes_eqb_spec a b); [auto|discriminate]. Qed.
Lemma double_dot_plain x : double_dot x = true -> Forall plain_char x.
Proof.
  unfold double_dot. intros H. repeat (apply orb_prop in H as [H|H]); apply bytes_eqb_true in H; (eapply dots_plain; [exact H|]); repeat (apply Forall_cons || apply Forall_nil); cbn; tauto.
Qed.
Lemma single_dot_plain x : single_dot x = true -> Forall plain_char x.
Proof.
  unfold single_dot. intros H. repeat (apply orb_prop in H as [H|H]); apply bytes_eqb_true in H; (eapply dots_plain; [exact H|]); repeat (apply Forall_cons || apply Forall_nil); cbn; tauto.
Qed.
Lemma not_both x : double_dot x = true -> single_dot x = false.
Proof.
  unfold double_dot, single_dot. intros H. repeat (apply orb_prop in H as [H|H]); apply bytes_eqb_true in H; rewrite H; reflexivity.
Qed.

Lemma split_join_chars : forall l x, Forall (Forall plain_char) (x :: l) -> split (x ++ join l) = x :: l.
Proof.
  induction l as [|y l IH]; intros x H; inversion H as [|? ? Hx Hl]; subst.
  - cbn. rewrite app_nil_r. apply split_last, Hx.
  - cbn [join flat_map]. change (x ++ (47 :: y) ++ flat_map (cons 47) l) with (x ++ 47 :: (y ++ join l)). rewrite split_segment by auto. now rewrite IH.
Qed.
Lemma join_chars' l : Forall (Forall plain_char) l -> Forall seen_char (join l).
Proof.
  induction 1 as [|x l Hc Hl IH]; [constructor|]. cbn. constructor; [split; [lia|reflexivity]|]. apply Forall_app. split; [|auto].
  eapply Forall_impl; [|exact Hc]. intros c Hq. split; [now apply plain_above|apply Hq].
Qed.
Lemma resolve_chars cur x l : Forall (Forall plain_char) (x :: l) -> x <> [] -> resolve cur (join (x :: l)) = Some (join (path_state (x :: l) [])).
Proof.
  intros H Hx. pose proof (join_chars' _ H) as HC. unfold resolve. rewrite (trim_id _ HC), (no_newlines_id _ HC).
  cbn [join flat_map app] in *. fold (join l) in *. cbn [has_scheme lower N.leb andb]. replace (97 <=? lower 47) with false by reflexivity. cbn [andb].
  replace (is_query 47) with false by reflexivity. replace (is_slash 47) with true by reflexivity.
  inversion HC as [|? ? _ HC']; subst. rewrite (before_query_id _ HC'), split_join_chars by auto.
  destruct x as [|c x]; [congruence|]. cbn [app]. inversion H as [|? ? Hc _]; subst. inversion Hc as [|? ? (_ & Hs & _) _]; subst. now rewrite Hs.
Qed.
Lemma path_plain_app : forall l x r acc, Forall plain_segment l -> path_state (l ++ x :: r) acc = path_state (x :: r) (rev l ++ acc).
Proof.
  induction l as [|y l IH]; intros x r acc H; [reflexivity|]. inversion H as [|? ? (Hc & Hs & Hd) Hl]; subst.
  assert (E : path_state ((y :: l) ++ x :: r) acc = path_state (l ++ x :: r) (if double_dot y then tl acc else if single_dot y then acc else encode y :: acc)).
  { cbn [app]. destruct (l ++ x :: r) eqn:Q; [now destruct l|]. reflexivity. }
  rewrite E, Hd, Hs, (encode_plain y Hc), IH by auto. cbn [rev]. now rewrite <- app_assoc.
Qed.
Lemma rev_tl_rev {A} (l : list A) : rev (tl (rev l)) = removelast l.
Proof. induction l as [|x l _] using rev_ind; [reflexivity|]. rewrite rev_app_distr. cbn [rev app tl]. rewrite rev_involutive. symmetry. apply removelast_last. Qed.

(* what an address with dots in it means *)
Lemma dots_resolved cur a d b : Forall plain_segment a -> Forall plain_segment b -> hd [] (a ++ [d]) <> [] -> double_dot d = true \/ single_dot d = true ->
  resolve cur (join (a ++ d :: b)) = Some (join ((if double_dot d then removelast a else a) ++ (match b with [] => [[]] | _ => b end))).
Proof.
  intros Ha Hb Hh Hd. assert (C : Forall (Forall plain_char) (a ++ d :: b)).
  { apply Forall_app. split; [eapply Forall_impl; [|exact Ha]; intros x X; apply X|]. constructor; [destruct Hd as [Hd|Hd]; [now apply double_dot_plain|now apply single_dot_plain]|]. eapply Forall_impl; [|exact Hb]; intros x X; apply X. }
  assert (R : resolve cur (join (a ++ d :: b)) = Some (join (path_state (a ++ d :: b) []))).
  { destruct a as [|x a]; cbn [app] in *; apply resolve_chars; auto. }
  rewrite R. f_equal. f_equal. rewrite path_plain_app, app_nil_r by auto. destruct b as [|y b].
  - cbn [path_state]. destruct (double_dot d) eqn:E; [|destruct Hd as [Hd| ->]; [discriminate|]]; cbn [rev]; [now rewrite rev_tl_rev|now rewrite rev_involutive].
  - change (path_state (d :: y :: b) (rev a)) with (path_state (y :: b) (if double_dot d then tl (rev a) else if single_dot d then rev a else encode d :: rev a)).
    destruct (double_dot d) eqn:E; [|destruct Hd as [Hd| ->]; [discriminate|]]; rewrite path_plain by auto; [now rewrite rev_tl_rev|now rewrite rev_involutive].
Qed.

(* what follows a question mark or a number sign is not part of the path *)
Lemma skip_blank_keep s c t : blank c = false -> exists s', skip_blank (s ++ c :: t) = s' ++ c :: t.
Proof.
  intros H. induction s as [|d s (s' & IH)]; cbn; [exists []; now rewrite H|]. destruct (blank d); [eauto|]. now exists (d :: s).
Qed.
Lemma trim_query s q r : Forall seen_char s -> 32 < q -> exists r', trim (s ++ q :: r) = s ++ q :: r'.
Proof.
  intros H Q. assert (B : blank q = false) by (unfold blank; destruct (N.leb_spec q 32); [lia|reflexivity]). unfold trim.
  assert (E : skip_blank (s ++ q :: r) = s ++ q :: r).
  { destruct H as [|c s [Hc _] Hs]; cbn; [now rewrite B|]. unfold blank. destruct (N.leb_spec c 32); [lia|reflexivity]. }
  rewrite E, rev_app_distr. cbn [rev]. rewrite <- app_assoc. cbn [app]. destruct (skip_blank_keep (rev r) q (rev s) B) as (r' & ->).
  exists (rev r'). rewrite rev_app_distr. cbn [rev]. now rewrite rev_involutive, <- app_assoc.
Qed.
Lemma query_chars q : In q (bs "?#") -> is_query q = true /\ 32 < q.
Proof. intros [<-|[<-|[]]]; split; reflexivity. Qed.
Lemma before_query_cut s q r : Forall seen_char s -> is_query q = true -> before_query (s ++ q :: r) = s.
Proof. induction 1 as [|c s [_ Hc] Hs IH]; intros Q; cbn; [now rewrite Q|]. rewrite Hc. f_equal. now apply IH. Qed.
Lemma resolve_query cur x l q r : Forall plain_segment (x :: l) -> (x <> [] \/ l = []) -> In q (bs "?#") -> resolve cur (join (x :: l) ++ q :: r) = Some (join (x :: l)).
Proof.
  intros H Hx Hq. destruct (query_chars q Hq) as [Q Q32]. pose proof (join_chars _ H) as HC. unfold resolve. destruct (trim_query _ q r HC Q32) as (r' & ->).
  unfold no_newlines. rewrite filter_app. fold (no_newlines (join (x :: l))). rewrite (no_newlines_id _ HC). cbn [filter].
  assert (negb ((q =? 9) || (q =? 10) || (q =? 13)) = true) as -> by (destruct (N.eqb_spec q 9), (N.eqb_spec q 10), (N.eqb_spec q 13); try lia; reflexivity).
  remember (filter _ r') as r2 eqn:R2. clear R2.
  cbn [join flat_map app] in *. fold (join l) in *. cbn [has_scheme lower N.leb andb]. replace (97 <=? lower 47) with false by reflexivity. cbn [andb].
  replace (is_query 47) with false by reflexivity. replace (is_slash 47) with true by reflexivity.
  inversion HC as [|? ? _ HC']; subst. rewrite (before_query_cut _ q r2 HC' Q), split_join, path_plain by auto. cbn [rev app join flat_map].
  destruct x as [|c x].
  - destruct Hx as [Hx|Hx]; [congruence|]. subst l. destruct Hq as [<-|[<-|[]]]; reflexivity.
  - cbn [app]. inversion H as [|? ? (Hc & _) _]; subst. inversion Hc as [|? ? (_ & Hs & _) _]; subst. now rewrite Hs.
Qed.

Lemma c_string_cut x b : c_string (x ++ 0 :: b) = c_string x.
Proof. induction x as [|c x IH]; [reflexivity|]. cbn. destruct (c =? 0); [reflexivity|]. now rewrite IH. Qed.

(* ---- encoded characters ---- *)
Lemma percent_ok c : is_byte c -> [37; hex_digit (c / 16); hex_digit (c mod 16)] = percent c.
Proof.
  intros H. unfold is_byte in H. unfold percent, hex. assert (D : forall d, d < 16 -> hex_digit d = nth (N.to_nat d) (bs "0123456789ABCDEF") 0).
  { intros d Hd. unfold hex_digit. assert (X : exists k, (k < 16)%nat /\ d = N.of_nat k) by (exists (N.to_nat d); lia). destruct X as (k & Hk & ->). rewrite Nat2N.id.
    do 16 (destruct k as [|k]; [reflexivity|]). lia. }
  rewrite <- !D; [reflexivity|apply N.mod_lt; lia|apply N.div_lt_upper_bound; lia].
Qed.
Lemma encode_percent x : Forall is_byte x -> encode x = flat_map (fun c => if encoded c then percent c else [c]) x.
Proof. induction 1 as [|c x H _ IH]; [reflexivity|]. cbn [encode flat_map]. rewrite (percent_ok c H). f_equal. exact IH. Qed.
Lemma fair_plain c : plain_char c -> is_byte c -> fair_char c.
Proof. intros H B. pose proof (plain_above c H) as [A _]. destruct H as (_ & H1 & H2). repeat split; auto; lia. Qed.

Lemma path_encoded : forall l acc, Forall (fun x => single_dot x = false /\ double_dot x = false) l -> path_state l acc = rev acc ++ map encode l.
Proof.
  induction l as [|x l IH]; intros acc H; [now rewrite app_nil_r|]. inversion H as [|? ? Hx Hl]; subst. destruct Hx as (Hs & Hd).
  destruct l as [|y l].
  - cbn [path_state]. rewrite Hd, Hs. reflexivity.
  - change (path_state (x :: y :: l) acc) with (path_state (y :: l) (if double_dot x then tl acc else if single_dot x then acc else encode x :: acc)).
    rewrite Hd, Hs. rewrite (IH (encode x :: acc) Hl). cbn [rev]. now rewrite <- app_assoc.
Qed.
Definition line_char (c : N) : Prop := c <> 0 /\ c <> 9 /\ c <> 10 /\ c <> 13 /\ is_query c = false.
Lemma split_fair_segment x r : Forall (fun c => is_slash c = false) x -> split (x ++ 47 :: r) = x :: split r.
Proof. induction 1 as [|c x Hc Hx IH]; [reflexivity|]. cbn. rewrite Hc. now rewrite IH. Qed.
Lemma split_fair_last x : Forall (fun c => is_slash c = false) x -> split x = [x].
Proof. induction 1 as [|c x Hc Hx IH]; [reflexivity|]. cbn. rewrite Hc. now rewrite IH. Qed.
Lemma split_join_fair : forall l x, Forall (Forall (fun c => is_slash c = false)) (x :: l) -> split (x ++ join l) = x :: l.
Proof.
  induction l as [|y l IH]; intros x H; inversion H as [|? ? Hx Hl]; subst.
  - cbn. rewrite app_nil_r. apply split_fair_last, Hx.
  - cbn [join flat_map]. change (x ++ (47 :: y) ++ flat_map (cons 47) l) with (x ++ 47 :: (y ++ join l)). rewrite split_fair_segment by auto. now rewrite IH.
Qed.
Lemma no_newlines_line s : Forall line_char s -> no_newlines s = s.
Proof.
  induction 1 as [|c s Hc Hs IH]; [reflexivity|]. destruct Hc as (_ & A & B & C & _). cbn. destruct (N.eqb_spec c 9); [lia|]. destruct (N.eqb_spec c 10); [lia|]. destruct (N.eqb_spec c 13); [lia|].
  cbn. now f_equal.
Qed.
Lemma before_query_line s : Forall line_char s -> before_query s = s.
Proof. induction 1 as [|c s Hc Hs IH]; [reflexivity|]. cbn. destruct Hc as (_ & _ & _ & _ & ->). now f_equal. Qed.
Lemma join_line l : Forall (Forall line_char) l -> Forall line_char (join l).
Proof. induction 1 as [|x l Hc Hl IH]; [constructor|]. cbn. constructor; [repeat split; discriminate|]. apply Forall_app. auto. Qed.
Lemma skip_blank_hd s d : 32 < hd d s -> skip_blank s = s.
Proof. destruct s as [|c s]; [reflexivity|]. cbn. intros H. unfold blank. destruct (N.leb_spec c 32); [lia|reflexivity]. Qed.
Lemma hd_rev (s : list N) d : hd d (rev s) = last s d.
Proof. induction s as [|c s _] using rev_ind; [reflexivity|]. rewrite rev_app_distr, last_last. reflexivity. Qed.
Lemma resolve_encoded cur x l : Forall (Forall line_char) (x :: l) -> Forall (Forall (fun c => is_slash c = false)) (x :: l) -> Forall (fun x => single_dot x = false /\ double_dot x = false) (x :: l) ->
  32 < last (join (x :: l)) 47 -> (x <> [] \/ l = []) -> resolve cur (join (x :: l)) = Some (join (map encode (x :: l))).
Proof.
  intros H1 H2 H3 HL Hx. pose proof (join_line _ H1) as HC. unfold resolve. unfold trim. rewrite (skip_blank_hd (join (x :: l)) 47) by (cbn; lia).
  rewrite (skip_blank_hd (rev (join (x :: l))) 47) by (now rewrite hd_rev). rewrite rev_involutive, (no_newlines_line _ HC).
  cbn [join flat_map app] in *. fold (join l) in *. cbn [has_scheme lower N.leb andb]. replace (97 <=? lower 47) with false by reflexivity. cbn [andb].
  replace (is_query 47) with false by reflexivity. replace (is_slash 47) with true by reflexivity.
  inversion HC as [|? ? _ HC']; subst. rewrite (before_query_line _ HC'), split_join_fair, path_encoded by auto. cbn [rev app].
  destruct x as [|c x].
  - destruct Hx as [Hx|Hx]; [congruence|]. subst l. reflexivity.
  - cbn [app]. inversion H2 as [|? ? Hc _]; subst. inversion Hc as [|? ? Hs _]; subst. now rewrite Hs.
Qed.
Lemma plain_line x : Forall plain_char x -> Forall line_char x.
Proof. intros H. eapply Forall_impl; [|exact H]. intros c Hc. pose proof (plain_above c Hc) as [A _]. destruct Hc as (_ & _ & Hq). repeat split; auto; lia. Qed.
Lemma plain_no_slash x : Forall plain_char x -> Forall (fun c => is_slash c = false) x.
Proof. intros H. eapply Forall_impl; [|exact H]. intros c Hc. apply Hc. Qed.
Lemma last_app_ne {A} (a b : list A) d : b <> [] -> last (a ++ b) d = last b d.
Proof. intros H. induction a as [|x a IH]; [reflexivity|]. cbn [app]. destruct (a ++ b) eqn:E; [destruct a; [cbn in E; congruence|discriminate]|]. rewrite <- E in *. change (last (x :: a ++ b) d) with (match a ++ b with [] => x | _ => last (a ++ b) d end). rewrite E in *. exact IH. Qed.

(* the segments of a fair route *)
Lemma fair_segments m i ms : fair_route m i ms -> exists name ts, nth_error m i = Some (name, ts) /\ plain_segment name /\ to_string m i ms = join (name :: map param_text ms) /\
  to_string m i (map as_addressed ms) = join (map encode (name :: map param_text ms)) /\
  Forall (Forall line_char) (name :: map param_text ms) /\ Forall (Forall (fun c => is_slash c = false)) (name :: map param_text ms) /\
  Forall (fun x => single_dot x = false /\ double_dot x = false) (name :: map param_text ms) /\ (name <> [] \/ ms = []).
Proof.
  intros (name & ts & E & Hn & Hne & HT & HS & HP & HL). exists name, ts. split; [auto|]. split; [auto|].
  assert (X : Forall2 (fun v x => x = encode (param_text v) /\ Forall line_char (param_text v) /\ Forall (fun c => is_slash c = false) (param_text v) /\ single_dot (param_text v) = false /\ double_dot (param_text v) = false) ms (map param_text (map as_addressed ms))).
  { clear -HS HP. induction ms as [|v ms IH]; [constructor|]. inversion HS; inversion HP; subst. cbn [map]. constructor; [|auto]. destruct v as [s|z]; cbn [param_text as_addressed].
    - match goal with H : fair_value _ |- _ => destruct H as (A & B & C) end. split; [|split; [|split; [|split]]]; auto.
      + symmetry. apply encode_percent. eapply Forall_impl; [|exact A]. intros c Hc. apply Hc.
      + eapply Forall_impl; [|exact A]. intros c Hc. repeat split; apply Hc.
      + eapply Forall_impl; [|exact A]. intros c Hc. apply Hc.
    - assert (P : plain_segment (std_to_string z)) by (apply digits_plain; cbn in *; destruct z as [|p|p]; try lia; apply dec_spec).
      destruct P as (P & P1 & P2). rewrite encode_plain by exact P. repeat split; auto using plain_line, plain_no_slash. }
  split; [now apply to_string_text with ts|]. split.
  - rewrite (to_string_text m i name ts _ E). unfold join, route_text. cbn [map flat_map]. rewrite (encode_plain name) by apply Hn. cbn [app]. f_equal. f_equal.
    clear -X. f_equal. induction X as [|v x ms l (-> & _) _ IH]; [reflexivity|]. cbn. now f_equal.
  - assert (Y : Forall (fun v => Forall line_char (param_text v) /\ Forall (fun c => is_slash c = false) (param_text v) /\ single_dot (param_text v) = false /\ double_dot (param_text v) = false) ms).
    { clear -X. induction X as [|v x ms l (_ & H) _ IH]; constructor; auto. }
    destruct Hn as (Hn & D1 & D2). split; [|split; [|split]].
    + constructor; [now apply plain_line|]. rewrite Forall_map. eapply Forall_impl; [|exact Y]. intros v H; apply H.
    + constructor; [now apply plain_no_slash|]. rewrite Forall_map. eapply Forall_impl; [|exact Y]. intros v H; apply H.
    + constructor; [auto|]. rewrite Forall_map. eapply Forall_impl; [|exact Y]. intros v H; apply H.
    + destruct Hne as [?|Hne]; [auto|]. subst ts. inversion HT. auto.
Qed.

Lemma push_fair m pre i ms b : plain_prefix pre -> fair_route m i ms ->
  push_state (pre ++ c_string (to_string m i ms)) b = Some {| entries := firstn (S (index b)) (entries b) ++ [pre ++ to_string m i (map as_addressed ms)]; index := S (index b) |}.
Proof.
  intros (segs & -> & Hs) G. destruct (fair_segments m i ms G) as (name & ts & E & Pn & ET & EA & HP1 & HP2 & HP3 & Hn).
  destruct G as (name' & ts' & _ & _ & _ & _ & _ & _ & HL).
  assert (HS : Forall plain_segment segs) by (eapply Forall_impl; [|exact Hs]; tauto).
  rewrite c_string_id. 2: { rewrite ET. intros X. pose proof (join_line _ HP1) as Z. rewrite Forall_forall in Z. apply Z in X. destruct X as (X & _). congruence. }
  rewrite ET, EA in *. assert (EJ : join segs ++ join (name :: map param_text ms) = join (segs ++ name :: map param_text ms)) by (unfold join; now rewrite flat_map_app).
  assert (HS' : map encode segs = segs) by (clear -HS; induction HS as [|x l (H & _) _ IH]; [reflexivity|]; cbn; now rewrite (encode_plain x H), IH).
  assert (EK : join segs ++ join (map encode (name :: map param_text ms)) = join (map encode (segs ++ name :: map param_text ms))).
  { rewrite map_app, HS'. unfold join. now rewrite flat_map_app. }
  rewrite EJ, EK. unfold push_state.
  assert (R : resolve (pathname b) (join (segs ++ name :: map param_text ms)) = Some (join (map encode (segs ++ name :: map param_text ms)))); [|now rewrite R].
  assert (A1 : Forall (Forall line_char) (segs ++ name :: map param_text ms)) by (apply Forall_app; split; [eapply Forall_impl; [|exact HS]; intros x Hx; apply plain_line, Hx|exact HP1]).
  assert (A2 : Forall (Forall (fun c => is_slash c = false)) (segs ++ name :: map param_text ms)) by (apply Forall_app; split; [eapply Forall_impl; [|exact HS]; intros x Hx; apply plain_no_slash, Hx|exact HP2]).
  assert (A3 : Forall (fun x => single_dot x = false /\ double_dot x = false) (segs ++ name :: map param_text ms)) by (apply Forall_app; split; [eapply Forall_impl; [|exact HS]; intros x (_ & ?); auto|exact HP3]).
  assert (A4 : 32 < last (join (segs ++ name :: map param_text ms)) 47) by (rewrite <- EJ, last_app_ne by discriminate; exact HL).
  destruct segs as [|x segs]; cbn [app] in *; apply resolve_encoded; auto.
  - destruct Hn as [?|Hn]; [auto|]. subst ms. now right.
  - inversion Hs. left. tauto.
Qed.

Lemma as_addressed_fits ts ms : Forall2 has_type ts ms -> Forall survives ms -> Forall fair_value ms -> Forall2 has_type ts (map as_addressed ms) /\ Forall survives (map as_addressed ms).
Proof.
  induction 1 as [|t v ts ms H HT IH]; intros HS HF; [split; constructor|]. inversion HS; inversion HF; subst. destruct IH as [I1 I2]; auto. cbn [map]. split; constructor; auto; destruct v as [s|z]; auto.
  - match goal with H : fair_value _ |- _ => destruct H as (A & _) end. destruct t; cbn in *; auto.
    clear -A. unfold all_bytes. induction A as [|c s Hc _ IHs]; [constructor|]. cbn [flat_map]. apply Forall_app. split; [|exact IHs]. destruct (encoded c); [|repeat constructor; apply Hc].
    rewrite <- percent_ok by apply Hc. destruct Hc as (Hc & _). unfold is_byte in *. assert (D : forall d, d < 16 -> hex_digit d < 256) by (intros d Hd; unfold hex_digit; destruct (d <? 10); lia).
    repeat constructor; [apply D, N.div_lt_upper_bound; lia|apply D, N.mod_lt; lia].
  - match goal with H : fair_value _ |- _ => destruct H as (A & _) end. cbn [survives as_addressed] in *. split.
    + destruct s as [|c s]; [tauto|]. cbn [flat_map]. destruct (encoded c); discriminate.
    + clear -A. induction A as [|c s Hc _ IHs]; [tauto|]. cbn [flat_map]. intros K. apply in_app_or in K as [K|K]; [|auto]. destruct (encoded c).
      * rewrite <- percent_ok in K by apply Hc. destruct Hc as (Hc & _). unfold is_byte in Hc. assert (D : forall d, d < 16 -> hex_digit d <> 47) by (intros d Hd; unfold hex_digit; destruct (d <? 10); lia).
        destruct K as [K|[K|[K|[]]]]; [discriminate|revert K; apply D, N.div_lt_upper_bound; lia|revert K; apply D, N.mod_lt; lia].
      * destruct K as [->|[]]. destruct Hc as (_ & _ & _ & _ & _ & Hc & _). discriminate.
Qed.

