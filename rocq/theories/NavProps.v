(* C69: the route shown is the one last navigated to, back and forward included. *)
From Coq Require Import String.
From Verif Require Import Base RouteModel RouteSpec RouteProofs RouteProps NavModel NavSpec NavProofs.
Open Scope N_scope.

Definition names_are_bytes (m : route_map) : Prop := forall name ts, In (name, ts) m -> all_bytes name.

(* The full statement is for every route of the map.  Missing: strings with characters that addresses encode, "." and "..", members
   that C47 says are lost, the route of the empty name with members, and navigation by string; each is refuted below. *)
Theorem C69_history_partial : forall m pre r0 l, wf_map m -> names_are_bytes m -> plain_prefix pre -> all_bytes r0 -> Forall (good_action m) l ->
  exists v0 s0 s, from_string m r0 = Ok v0 /\
    start m pre {| entries := [pre ++ r0]; index := 0 |} = Done s0 /\ store s0 = v0 /\
    perform_all m l s0 = Done s /\
    let h := fold_left (fun h a => go_to a h) l {| visited := [v0]; shown := 0 |} in
    nth_error (visited h) (shown h) = Some (store s) /\
    index (page s) = shown h /\
    entries (page s) = (pre ++ r0) :: map (address m pre) (tl (visited h)).
Proof.
  intros m pre r0 l HW HB HP H0 HG. destruct (from_string_spec m r0 HW H0) as [NU _].
  destruct (from_string m r0) as [v0|] eqn:E0; [|congruence].
  set (h0 := {| visited := [v0]; shown := 0 |}). set (b0 := {| entries := [pre ++ r0]; index := 0 |}).
  destruct (receive_refines m pre h0 {| page := b0; prefix := pre; store := NotFound |}) as (s0 & ES & R0); cbn; auto.
  { intros k v p Ev Ep. destruct k as [|k]; [|destruct k; discriminate]. injection Ev as <-. injection Ep as <-. rewrite app_length. split; [lia|].
    now rewrite skipn_app, skipn_all, Nat.sub_diag. }
  { intros k v p Ev. destruct k; discriminate. }
  destruct (perform_all_refines m pre HW HB HP l h0 s0 HG R0) as (s & EP & R).
  exists v0, s0, s. split; [auto|]. split; [exact ES|]. split.
  { pose proof (ref_store _ _ _ _ R0) as X. cbn in X. congruence. }
  split; [exact EP|]. cbn zeta. fold h0. set (h := fold_left _ l h0) in *. destruct R as [RL RI RS RP RR RA RT]. split; [auto|]. split; [auto|].
  (* the entry that was there at first stays *)
  assert (F : nth_error (entries (page s)) 0 = Some (pre ++ r0)).
  { assert (K : forall l s s', perform_all m l s = Done s' -> nth_error (entries (page s)) 0 = Some (pre ++ r0) -> nth_error (entries (page s')) 0 = Some (pre ++ r0)).
    { assert (KR : forall s s', receive_event m s = Done s' -> page s' = page s).
      { intros t t'. unfold receive_event. destruct (Nat.ltb _ _); [discriminate|]. destruct (from_string m (skipn _ _)); [|discriminate]. intros E. injection E as <-. reflexivity. }
      assert (KW : forall x s s', web_route_update x s = Some s' -> nth_error (entries (page s)) 0 = Some (pre ++ r0) -> nth_error (entries (page s')) 0 = Some (pre ++ r0)).
      { intros x t t'. unfold web_route_update, push_state. destruct (resolve _ _); [|discriminate]. intros E H. injection E as <-. cbn [page entries].
        destruct (entries (page t)); [discriminate|]. cbn in *. exact H. }
      clear -KR KW. induction l as [|a l IH]; intros s s' E H; [injection E as <-; auto|]. cbn in E. destruct (perform m a s) as [s1| |] eqn:E1; try discriminate.
      apply (IH s1); auto. destruct a as [[|i ms]|x|i]; cbn [perform] in E1.
      - now rewrite (KR _ _ E1).
      - destruct (web_route_update _ s) as [t|] eqn:EW; [|discriminate]. rewrite (KR _ _ E1). eauto.
      - destruct (web_route_update x s) as [t|] eqn:EW; [|discriminate]. injection E1 as <-. eauto.
      - destruct (Nat.ltb _ _); [now rewrite (KR _ _ E1)|]. injection E1 as <-. auto. }
    apply (K l s0 s EP). unfold start in ES. unfold receive_event in ES. destruct (Nat.ltb _ _); [discriminate|]. destruct (from_string m (skipn _ _)); [|discriminate]. injection ES as <-. reflexivity. }
  destruct (entries (page s)) as [|p es]; [discriminate|]. cbn in F. injection F as ->. f_equal.
  destruct (visited h) as [|v vs]; [cbn in RS; lia|]. cbn in *. apply map_pointwise; [lia|]. intros k x y Ex Ey. eauto.
Qed.
Print Assumptions C69_history_partial.

(* the parts that are missing *)

Definition routed : route_map := [(bs "", []); (bs "user", [TString]); (bs "x", [TUnsigned 32])].

Lemma routed_wf : wf_map routed /\ names_are_bytes routed.
Proof.
  split; [split|].
  - repeat constructor; cbn; intuition discriminate.
  - intros name ts H. cbn in H. decompose [or] H; try contradiction; match goal with E : _ = (name, ts) |- _ => injection E as <- <- end; cbn; (split; [intuition discriminate|]);
      (split; [lia|]); repeat constructor; cbn; lia.
  - intros name ts H. cbn in H. decompose [or] H; try contradiction; match goal with E : _ = (name, ts) |- _ => injection E as <- <- end; unfold all_bytes; cbn; repeat constructor; reflexivity.
Qed.

(* navigating, back, forward, and navigating from the middle of the history *)
Example C69_example :
  let run l := match start routed (bs "/app") {| entries := [bs "/app/"]; index := 0 |} with Done s => perform_all routed l s | o => o end in
  let a := Route 1 [VStr (bs "ann")] in let x := Route 2 [VInt 42] in
  run [] = Done {| page := {| entries := [bs "/app/"]; index := 0 |}; prefix := bs "/app"; store := Route 0 [] |} /\
  run [Navigate a; Navigate x] = Done {| page := {| entries := [bs "/app/"; bs "/app/user/ann"; bs "/app/x/42"]; index := 2 |}; prefix := bs "/app"; store := x |} /\
  run [Navigate a; Navigate x; Go 1%nat] = Done {| page := {| entries := [bs "/app/"; bs "/app/user/ann"; bs "/app/x/42"]; index := 1 |}; prefix := bs "/app"; store := a |} /\
  run [Navigate a; Navigate x; Go 0%nat; Navigate x] = Done {| page := {| entries := [bs "/app/"; bs "/app/x/42"]; index := 1 |}; prefix := bs "/app"; store := x |} /\
  good_route routed a /\ good_route routed x /\ plain_prefix (bs "/app").
Proof.
  cbn zeta. do 4 (split; [vm_compute; reflexivity|]). split; [|split].
  - exists (bs "user"), [TString]. split; [reflexivity|]. split; [split; [|split; reflexivity]; repeat constructor|]. split; [left; discriminate|].
    split; [|split]; repeat constructor; cbn; try discriminate; try reflexivity. intuition discriminate.
  - exists (bs "x"), [TUnsigned 32]. split; [reflexivity|]. split; [split; [|split; reflexivity]; repeat constructor|]. split; [left; discriminate|].
    split; [|split]; repeat constructor; cbn; lia.
  - exists [bs "app"]. split; [reflexivity|]. constructor; [|constructor]. split; [|discriminate]. split; [|split; reflexivity]. repeat constructor.
Qed.

(* what a caller sees of one navigation to a route whose members survive the text form *)
Definition shows (m : route_map) (v : variant) : Prop :=
  exists s0 s, start m [] {| entries := [bs "/"]; index := 0 |} = Done s0 /\ perform m (Navigate v) s0 = Done s /\ store s = v.

Lemma survives_text s : s <> [] -> ~ In 47 s -> survives (VStr s).
Proof. cbn. auto. Qed.

(* Every value that from_string can read back (C47) should be shown.  A space is not: the address has "%20" and so has the store. *)
Theorem C69_space_refuted : ~ (forall i name ts ms, nth_error routed i = Some (name, ts) -> Forall2 has_type ts ms -> Forall survives ms -> shows routed (Route i ms)).
Proof.
  intros H. destruct (H 1%nat (bs "user") [TString] [VStr (bs "ann lee")]) as (s0 & s & E0 & E & ES).
  - reflexivity.
  - constructor; [|constructor]. unfold has_type, all_bytes. repeat constructor; reflexivity.
  - constructor; [|constructor]. apply survives_text; [discriminate|]. cbn. intuition discriminate.
  - vm_compute in E0. injection E0 as <-. vm_compute in E. injection E as <-. vm_compute in ES. discriminate.
Qed.
Print Assumptions C69_space_refuted.
Example C69_space_shown : match start routed [] {| entries := [bs "/"]; index := 0 |} with
  | Done s => perform routed (Navigate (Route 1 [VStr (bs "ann lee")])) s | o => o end =
  Done {| page := {| entries := [bs "/"; bs "/user/ann%20lee"]; index := 1 |}; prefix := []; store := Route 1 [VStr (bs "ann%20lee")] |}.
Proof. vm_compute. reflexivity. Qed.

(* In general: what is shown of a route with other characters has them encoded, in the address and in the store; so it is the route navigated to
   exactly if there are none *)
Theorem C69_shown m i ms s : wf_map m -> names_are_bytes m -> plain_prefix (prefix s) -> (index (page s) < length (entries (page s)))%nat -> fair_route m i ms ->
  exists s', perform m (Navigate (Route i ms)) s = Done s' /\ store s' = Route i (map as_addressed ms) /\
    page s' = {| entries := firstn (S (index (page s))) (entries (page s)) ++ [prefix s ++ to_string m i (map as_addressed ms)]; index := S (index (page s)) |}.
Proof.
  intros HW HB HP HI G. cbn [perform]. unfold web_route_update. rewrite (push_fair m (prefix s) i ms (page s) HP G). unfold receive_event, pathname. cbn [page prefix entries index].
  rewrite app_nth2 by (rewrite firstn_length; lia). rewrite firstn_length. replace (S (index (page s)) - Nat.min (S (index (page s))) (length (entries (page s))))%nat with 0%nat by lia. cbn [nth].
  rewrite app_length. destruct (Nat.ltb_spec (length (prefix s) + length (to_string m i (map as_addressed ms))) (length (prefix s))); [lia|].
  rewrite skipn_app, skipn_all, Nat.sub_diag. cbn [app skipn]. destruct G as (name & ts & E & Pn & Hne & HT & HS & HF & _).
  destruct (as_addressed_fits ts ms HT HS HF) as [HT' HS'].
  rewrite (proj2 (C47_round_trip_iff m i name ts (map as_addressed ms) HW (HB name ts (nth_error_In _ _ E)) E HT') (conj Hne HS')).
  eexists. split; [reflexivity|]. split; reflexivity.
Qed.
Print Assumptions C69_shown.

Theorem C69_shown_iff m i ms s : wf_map m -> names_are_bytes m -> plain_prefix (prefix s) -> (index (page s) < length (entries (page s)))%nat -> fair_route m i ms ->
  ((exists s', perform m (Navigate (Route i ms)) s = Done s' /\ store s' = Route i ms) <-> forall x, In (VStr x) ms -> forall c, In c x -> encoded c = false).
Proof.
  intros HW HB HP HI G. destruct (C69_shown m i ms s HW HB HP HI G) as (s' & E & ES & _). split.
  - intros (t & T & TS). rewrite E in T. injection T as <-. rewrite ES in TS. injection TS as TS. intros x Hx c Hc. destruct (encoded c) eqn:Ne; [exfalso|reflexivity].
    assert (X : as_addressed (VStr x) = VStr x).
    { clear -TS Hx. induction ms as [|v ms IH]; [destruct Hx|]. cbn [map] in TS. injection TS as T1 T2. destruct Hx as [->|Hx]; auto. }
    cbn in X. injection X as X. apply (f_equal (@length N)) in X. clear -X Hc Ne.
    assert (LE : forall y, (length y <= length (flat_map (fun c => if encoded c then percent c else [c]) y))%nat).
    { induction y as [|a y IH]; [cbn; lia|]. cbn [flat_map]. rewrite app_length. destruct (encoded a); cbn [length percent hex] in *; lia. }
    apply in_split in Hc as (a & b & ->). rewrite flat_map_app in X. cbn [flat_map] in X. rewrite Ne, !app_length in X. pose proof (LE a). pose proof (LE b). cbn [length percent hex] in X. lia.
  - intros H. exists s'. split; [exact E|]. rewrite ES. f_equal. rewrite <- (map_id ms) at 2. apply map_ext_in. intros v Hv. destruct v as [x|z]; [|reflexivity]. cbn. f_equal.
    specialize (H x Hv). clear -H. induction x as [|c x IH]; [reflexivity|]. cbn [flat_map]. rewrite (H c) by (now left). cbn [app]. f_equal. apply IH. intros d Hd. apply H. now right.
Qed.
Print Assumptions C69_shown_iff.
Example C69_shown_ex : fair_route routed 1 [VStr (bs "ann lee")] /\ map as_addressed [VStr (bs "ann lee")] = [VStr (bs "ann%20lee")].
Proof.
  split; [|vm_compute; reflexivity]. exists (bs "user"), [TString]. split; [reflexivity|]. split; [split; [|split; reflexivity]; repeat constructor|]. split; [left; discriminate|].
  split; [|split; [|split]]; try (vm_compute; reflexivity); repeat constructor; cbn; try discriminate; try reflexivity. intuition discriminate.
Qed.

(* nor is a question mark: what follows it is gone *)
Theorem C69_question_mark_refuted : ~ shows routed (Route 1 [VStr (bs "who?me")]).
Proof. intros (s0 & s & E0 & E & ES). vm_compute in E0. injection E0 as <-. vm_compute in E. injection E as <-. vm_compute in ES. discriminate. Qed.
Print Assumptions C69_question_mark_refuted.

(* In general: an address ends at the first "?" or "#", whatever follows *)
Theorem C69_query m s P a q r : prefix s = join P -> Forall plain_segment (P ++ a) -> (hd [] (P ++ a) <> [] \/ length (P ++ a) = 1%nat) -> In q (bs "?#") ->
  exists s', perform m (NavigateString (join a ++ q :: r)) s = Done s' /\
    page s' = {| entries := firstn (S (index (page s))) (entries (page s)) ++ [join (P ++ a)]; index := S (index (page s)) |}.
Proof.
  intros Hp Ha Hh Hq. cbn [perform]. unfold web_route_update, push_state.
  assert (C : c_string (join a ++ q :: r) = join a ++ q :: c_string r).
  { assert (Hj : Forall seen_char (join a)) by (apply Forall_app in Ha as [_ Ha]; now apply join_chars). destruct (query_chars q Hq) as [_ Q]. revert Hj. generalize (join a). intros j Hj.
    induction Hj as [|c j [Hc _] _ IH]; cbn; [destruct (N.eqb_spec q 0); [lia|reflexivity]|]. destruct (N.eqb_spec c 0); [lia|]. now rewrite IH. }
  rewrite C, Hp, app_assoc. replace (join P ++ join a) with (join (P ++ a)) by (unfold join; now rewrite flat_map_app).
  destruct (P ++ a) as [|x l]; [cbn in Hh; destruct Hh; [congruence|discriminate]|]. rewrite resolve_query; auto.
  - eexists. split; reflexivity.
  - cbn in Hh. destruct Hh as [Hh|Hh]; [now left|right]. destruct l; [reflexivity|discriminate].
Qed.
Print Assumptions C69_query.
Example C69_query_ex : match start routed [] {| entries := [bs "/"]; index := 0 |} with
  | Done s => perform routed (NavigateString (bs "/user/ann#a/b?c d")) s | o => o end =
  Done {| page := {| entries := [bs "/"; bs "/user/ann"]; index := 1 |}; prefix := []; store := Route 0 [] |}.
Proof. vm_compute. reflexivity. Qed.
(* the characters that an address has to encode, those between its segments and those that end it (URL standard, 1.3 and 4.4) *)
Theorem C69_characters : forall c, (encoded c = true <-> c <= 32 \/ 126 < c \/ In c [34; 35; 60; 62; 63; 94; 96; 123; 125]) /\
  (is_slash c = true <-> In c (bs "/\")) /\ (is_query c = true <-> In c (bs "?#")) /\ (blank c = true <-> c <= 32).
Proof.
  intros c. split; [|split; [|split]].
  - unfold encoded. rewrite !orb_true_iff, N.leb_le, N.ltb_lt, !N.eqb_eq. cbn [In]. intuition congruence.
  - unfold is_slash. rewrite orb_true_iff, !N.eqb_eq. change (bs "/\") with [47; 92]. cbn [In]. intuition congruence.
  - unfold is_query. rewrite orb_true_iff, !N.eqb_eq. change (bs "?#") with [63; 35]. cbn [In]. intuition congruence.
  - unfold blank. apply N.leb_le.
Qed.
Print Assumptions C69_characters.
Example C69_characters_ex : map encoded (bs "a b?c") = [false; true; false; true; false].
Proof. reflexivity. Qed.

(* nor "..": the address is the one above, which is another route *)
Theorem C69_dots_refuted : ~ shows routed (Route 1 [VStr (bs "..")]).
Proof. intros (s0 & s & E0 & E & ES). vm_compute in E0. injection E0 as <-. vm_compute in E. injection E as <-. vm_compute in ES. discriminate. Qed.
Print Assumptions C69_dots_refuted.
Example C69_dots_shown : match start routed [] {| entries := [bs "/"]; index := 0 |} with
  | Done s => perform routed (Navigate (Route 1 [VStr (bs "..")])) s | o => o end =
  Done {| page := {| entries := [bs "/"; bs "/"]; index := 1 |}; prefix := []; store := Route 0 [] |}.
Proof. vm_compute. reflexivity. Qed.

(* In general: an address with "." or ".." (or their encodings) in it is that of the segments around, without the one before "..", and ends in
   a slash if the dots are last *)
Theorem C69_dots m s P a d b : prefix s = join P -> Forall plain_segment (P ++ a) -> Forall plain_segment b -> hd [] (P ++ a ++ [d]) <> [] -> double_dot d = true \/ single_dot d = true ->
  exists s', perform m (NavigateString (join (a ++ d :: b))) s = Done s' /\
    page s' = {| entries := firstn (S (index (page s))) (entries (page s)) ++ [join ((if double_dot d then removelast (P ++ a) else P ++ a) ++ match b with [] => [[]] | _ => b end)]; index := S (index (page s)) |}.
Proof.
  intros Hp Ha Hb Hh Hd. cbn [perform]. unfold web_route_update, push_state. rewrite c_string_id, Hp.
  - replace (join P ++ join (a ++ d :: b)) with (join ((P ++ a) ++ d :: b)) by (unfold join; rewrite !flat_map_app, <- app_assoc; reflexivity).
    rewrite dots_resolved by (auto; now rewrite <- app_assoc). eexists. split; [reflexivity|]. reflexivity.
  - intros K. assert (C : Forall (Forall plain_char) (a ++ d :: b)).
    { apply Forall_app in Ha as [_ Ha]. apply Forall_app. split; [eapply Forall_impl; [|exact Ha]; intros x X; apply X|]. constructor; [destruct Hd as [Hd|Hd]; [now apply double_dot_plain|now apply single_dot_plain]|]. eapply Forall_impl; [|exact Hb]; intros x X; apply X. }
    apply join_chars' in C. rewrite Forall_forall in C. apply C in K. destruct K as [K _]. lia.
Qed.
Print Assumptions C69_dots.
(* which segments are these *)
Lemma lower_cases c d : lower c = d -> c = d \/ (65 <= c <= 90 /\ d = c + 32).
Proof. unfold lower. destruct (N.leb_spec 65 c), (N.leb_spec c 90); cbn; intros <-; auto. Qed.
Ltac each_char H := repeat match type of H with map lower ?x = _ :: _ => destruct x as [|? x]; [discriminate H|]; cbn [map] in H; let E := fresh "E" in injection H as E H; apply lower_cases in E end.
Theorem C69_dot_segments : forall x, (single_dot x = true <-> this_segment x) /\ (double_dot x = true <-> parent_segment x).
Proof.
  intros x. split; split.
  - unfold single_dot. intros H. apply orb_prop in H as [H|H]; apply bytes_eqb_true in H; each_char H; destruct x; try discriminate H.
    + destruct E as [->|[? ?]]; [constructor|lia].
    + destruct E as [->|[? ?]], E0 as [->|[? ?]], E1 as [->|[? ?]]; try lia; [constructor|]. assert (n1 = 69) as -> by lia. constructor.
  - intros []; reflexivity.
  - unfold double_dot. intros H. repeat (apply orb_prop in H as [H|H]); apply bytes_eqb_true in H; each_char H; destruct x; try discriminate H.
    + destruct E as [->|[? ?]], E0 as [->|[? ?]]; try lia. exists [46], [46]. repeat constructor.
    + destruct E as [->|[? ?]], E0 as [->|[? ?]], E1 as [->|[? ?]], E2 as [->|[? ?]]; try lia; [|assert (n2 = 69) as -> by lia]; eexists [46], _; repeat split; constructor.
    + destruct E as [->|[? ?]], E0 as [->|[? ?]], E1 as [->|[? ?]], E2 as [->|[? ?]]; try lia; [|assert (n1 = 69) as -> by lia]; eexists [37; 50; _], [46]; repeat split; constructor.
    + destruct E as [->|[? ?]], E0 as [->|[? ?]], E1 as [->|[? ?]], E2 as [->|[? ?]], E3 as [->|[? ?]], E4 as [->|[? ?]]; try lia; [|assert (n4 = 69) as -> by lia|assert (n1 = 69) as -> by lia|assert (n1 = 69) as -> by lia; assert (n4 = 69) as -> by lia];
        eexists [37; 50; _], [37; 50; _]; repeat split; constructor.
  - intros (a & b & [] & [] & ->); reflexivity.
Qed.
Print Assumptions C69_dot_segments.
Example C69_dots_ex : match start routed (bs "/app") {| entries := [bs "/app/"]; index := 0 |} with
  | Done s => perform_all routed [NavigateString (bs "/a/b/../c"); NavigateString (bs "/a/%2E"); NavigateString (bs "/%2e.")] s | o => o end =
  Done {| page := {| entries := [bs "/app/"; bs "/app/a/c"; bs "/app/a/"; bs "/"]; index := 3 |}; prefix := bs "/app"; store := Route 0 [] |}.
Proof. vm_compute. reflexivity. Qed.

(* A NUL in a string ends the address: the route shown is that of the text before it *)
Theorem C69_nul m i name ts ms a b s : nth_error m i = Some (name, ts) ->
  perform m (Navigate (Route i (ms ++ [VStr (a ++ 0 :: b)]))) s = perform m (Navigate (Route i (ms ++ [VStr a]))) s /\
  perform m (NavigateString (a ++ 0 :: b)) s = perform m (NavigateString a) s.
Proof.
  intros E. cbn [perform]. unfold web_route_update. split; [|now rewrite c_string_cut].
  assert (X : c_string (to_string m i (ms ++ [VStr (a ++ 0 :: b)])) = c_string (to_string m i (ms ++ [VStr a]))); [|now rewrite X].
  unfold to_string. rewrite !fold_left_app. cbn [fold_left]. unfold append_route_param at 1 3. rewrite app_assoc. apply c_string_cut.
Qed.
Print Assumptions C69_nul.
Theorem C69_nul_refuted : forall a b, plain_segment a -> a <> [] -> all_bytes a -> ~ shows routed (Route 1 [VStr (a ++ 0 :: b)]).
Proof.
  intros a b Pa Na Ba (s0 & s & E0 & E & ES). destruct (C69_nul routed 1 (bs "user") [TString] [] a b s0 eq_refl) as [X _]. cbn [app] in X. rewrite X in E.
  destruct routed_wf as [HW HB]. assert (G : good_action routed (Navigate (Route 1 [VStr a]))).
  { exists (bs "user"), [TString]. split; [reflexivity|]. split; [split; [|split; reflexivity]; repeat constructor|]. split; [left; discriminate|]. split; [|split]; constructor; auto; cbn; auto.
    split; [exact Na|]. intros K. destruct Pa as (Pa & _). rewrite Forall_forall in Pa. apply Pa in K. destruct K as (_ & K & _). discriminate. }
  destruct (C69_history_partial routed [] (bs "/") [Navigate (Route 1 [VStr a])] HW HB) as (v0 & t0 & t & _ & T0 & _ & T & H & _).
  - exists []. split; [reflexivity|constructor].
  - repeat constructor.
  - repeat constructor. exact G.
  - cbn [app] in T0. rewrite T0 in E0. injection E0 as <-. cbn [perform_all] in T. rewrite E in T. injection T as <-. cbn in H. rewrite ES in H. injection H as H.
    apply (f_equal (@length N)) in H. rewrite app_length in H. cbn in H. lia.
Qed.
Print Assumptions C69_nul_refuted.

(* a route of the empty name with a member: its address starts with two slashes, which names another site, and pushState throws *)
Theorem C69_empty_name_refuted : forall s, 
  perform [(bs "", [TString])] (Navigate (Route 0 [VStr (bs "x")])) {| page := {| entries := [bs "/"]; index := 0 |}; prefix := []; store := s |} = Throws.
Proof. intros s. vm_compute. reflexivity. Qed.
Print Assumptions C69_empty_name_refuted.

(* Navigating by string never changes the store, whatever the string: the address bar and what is shown disagree *)
Theorem C69_by_string_refuted : forall m t s s', perform m (NavigateString t) s = Done s' -> store s' = store s /\ length (entries (page s')) = S (length (firstn (S (index (page s))) (entries (page s)))).
Proof.
  intros m t s s' E. cbn in E. unfold web_route_update, push_state in E. destruct (resolve _ _) as [p|]; [|discriminate]. injection E as <-. split; [reflexivity|].
  cbn [page entries]. rewrite app_length. apply Nat.add_1_r.
Qed.
Print Assumptions C69_by_string_refuted.
Example C69_by_string : match start routed [] {| entries := [bs "/"]; index := 0 |} with
  | Done s => perform routed (NavigateString (bs "/user/ann")) s | o => o end =
  Done {| page := {| entries := [bs "/"; bs "/user/ann"]; index := 1 |}; prefix := []; store := Route 0 [] |} /\
  from_string routed (bs "/user/ann") = Ok (Route 1 [VStr (bs "ann")]).
Proof. vm_compute. auto. Qed.

(* Navigating by string throws exactly for addresses of other sites *)
Lemma lower_letter c : (97 <=? lower c) && (lower c <=? 122) = true <-> letter c.
Proof. unfold lower, letter. destruct (N.leb_spec 65 c), (N.leb_spec c 90); cbn [andb]; rewrite andb_true_iff, !N.leb_le; lia. Qed.
Lemma scheme_rest_iff s : scheme_rest s = true <-> exists x r, s = x ++ 58 :: r /\ Forall scheme_char x.
Proof.
  induction s as [|c s IH]; cbn [scheme_rest].
  - split; [discriminate|]. intros ([|? ?] & r & E & _); discriminate.
  - destruct (N.eqb_spec c 58) as [->|Ne].
    + split; [|reflexivity]. intros _. exists [], s. auto.
    + assert (X : ((97 <=? lower c) && (lower c <=? 122)) || ((48 <=? c) && (c <=? 57)) || (c =? 43) || (c =? 45) || (c =? 46) = true <-> scheme_char c).
      { unfold scheme_char. rewrite !orb_true_iff, lower_letter, andb_true_iff, !N.leb_le, !N.eqb_eq. cbn. intuition auto. }
      destruct (_ || _ || _ || _ || _).
      * rewrite IH. split.
        -- intros (x & r & -> & F). exists (c :: x), r. split; [reflexivity|]. constructor; [now apply X|exact F].
        -- intros ([|d x] & r & E & F); [cbn in E; congruence|]. injection E as -> ->. inversion F; subst. eauto.
      * split; [discriminate|]. intros ([|d x] & r & E & F); [cbn in E; congruence|]. injection E as -> ->. inversion F; subst. now apply X.
Qed.
Lemma skip_blank_spec s : exists a, s = a ++ skip_blank s /\ Forall (fun c => c <= 32) a /\ (skip_blank s = [] \/ 32 < hd 0 (skip_blank s)).
Proof.
  induction s as [|c s (a & E & F & H)]; [exists []; auto|]. cbn [skip_blank]. unfold blank. destruct (N.leb_spec c 32).
  - exists (c :: a). split; [cbn; congruence|]. split; [constructor; auto|exact H].
  - exists []. auto.
Qed.
Lemma last_rev {A} (d : A) l : last l d = hd d (rev l).
Proof. destruct l as [|x l] using rev_ind; [reflexivity|]. now rewrite last_last, rev_unit. Qed.
Lemma trim_cleaned s : cleaned s (no_newlines (trim s)).
Proof.
  unfold trim. destruct (skip_blank_spec s) as (a & E & F & H). destruct (skip_blank_spec (rev (skip_blank s))) as (b & E2 & F2 & H2).
  set (v := skip_blank (rev (skip_blank s))) in *. apply (f_equal (@rev N)) in E2. rewrite rev_involutive, rev_app_distr in E2.
  exists a, (rev v), (rev b). split; [rewrite E at 1; f_equal; exact E2|]. split; [apply Forall_app; split; [exact F|now apply Forall_rev]|]. split.
  - destruct H2 as [->|H2]; [left; reflexivity|]. right. rewrite last_rev, rev_involutive. split; [|exact H2].
    destruct H as [H|H]; [rewrite H in E2; destruct (rev v) eqn:Ev; [apply (f_equal (@rev N)) in Ev; rewrite rev_involutive in Ev; rewrite Ev in H2; cbn in H2; lia|discriminate E2]|].
    rewrite E2 in H. destruct (rev v) eqn:Ev; [apply (f_equal (@rev N)) in Ev; rewrite rev_involutive in Ev; rewrite Ev in H2; cbn in H2; lia|exact H].
  - unfold no_newlines. apply filter_ext. intros c. cbn. now rewrite orb_false_r, orb_assoc.
Qed.
Lemma blanks_unique a v b a' v' b' : a ++ v ++ b = a' ++ v' ++ b' -> Forall (fun c => c <= 32) (a ++ b) -> Forall (fun c => c <= 32) (a' ++ b') ->
  32 < hd 0 v -> (v' = [] \/ 32 < hd 0 v' /\ 32 < last v' 0) -> 32 < last v 0 -> v = v'.
Proof.
  intros E F F' H H' L. apply Forall_app in F as [Fa Fb]. apply Forall_app in F' as [Fa' Fb'].
  assert (V : v' <> []).
  { intros ->. cbn in E. destruct v as [|c v]; [cbn in H; lia|]. assert (I : In c (a' ++ b')) by (rewrite <- E; apply in_or_app; right; now left).
    apply in_app_or in I. rewrite !Forall_forall in *. cbn in H. destruct I as [I|I]; [apply Fa' in I|apply Fb' in I]; lia. }
  destruct H' as [H'|[H1 H2]]; [congruence|]. clear V.
  assert (G : forall a v w a' v' w' : list N, a ++ v ++ w = a' ++ v' ++ w' -> Forall (fun c => c <= 32) a -> Forall (fun c => c <= 32) a' -> 32 < hd 0 v -> 32 < hd 0 v' -> a = a').
  { clear. induction a as [|c a IH]; intros v w a' v' w' E F F' H H'.
    - destruct a' as [|d a']; [reflexivity|]. cbn in E. destruct v; [cbn in H; lia|]. injection E as -> E. inversion F'; subst. cbn in H. lia.
    - inversion F; subst. destruct a' as [|d a']; [destruct v'; [cbn in H'; lia|]; cbn in E; injection E as -> E; cbn in H'; lia|]. injection E as -> E. inversion F'; subst. f_equal. eapply IH; eauto. }
  assert (a = a') by (eapply G; eauto). subst a'. apply app_inv_head in E. apply (f_equal (@rev N)) in E. rewrite !rev_app_distr in E.
  assert (rev b = rev b') as K. { eapply (G (rev b) (rev v) [] (rev b') (rev v') []); rewrite ?app_nil_r; auto using Forall_rev; now rewrite <- last_rev. }
  rewrite K in E. apply app_inv_head in E. now apply (f_equal (@rev N)) in E; rewrite !rev_involutive in E.
Qed.
Lemma cleaned_unique s u u' : cleaned s u -> cleaned s u' -> u = u'.
Proof.
  intros (a & v & b & E & F & H & ->) (a' & v' & b' & E' & F' & H' & ->). f_equal. destruct H as [->|[H L]].
  - destruct H' as [->|[H' L']]; [reflexivity|]. symmetry. eapply (blanks_unique a' v' b' a [] b); auto. congruence.
  - eapply (blanks_unique a v b a' v' b'); auto. congruence.
Qed.
Theorem C69_other_site : forall m t s u, ~ In 0 t -> cleaned (prefix s ++ t) u -> (perform m (NavigateString t) s = Throws <-> other_site u).
Proof.
  intros m t s u N0 C. cbn [perform]. unfold web_route_update, push_state. rewrite c_string_id by exact N0.
  assert (R : resolve (pathname (page s)) (prefix s ++ t) = None <-> other_site u).
  { unfold resolve. rewrite (cleaned_unique _ _ _ (trim_cleaned _) C). unfold other_site. destruct u as [|c r].
    - cbn. split; [discriminate|]. intros [(? & ? & ? & ? & _)|(? & ? & ? & ? & _)]; discriminate.
    - cbn [has_scheme]. destruct ((97 <=? lower c) && (lower c <=? 122)) eqn:EL; cbn [andb].
      + apply lower_letter in EL. destruct (scheme_rest r) eqn:ES.
        * split; [|reflexivity]. intros _. left. apply scheme_rest_iff in ES as (x & q & -> & F). exists c, x, q. auto.
        * assert (is_query c = false) as -> by (unfold is_query, letter in *; destruct (N.eqb_spec c 63), (N.eqb_spec c 35); auto; lia).
          assert (is_slash c = false) as -> by (unfold is_slash, letter in *; destruct (N.eqb_spec c 47), (N.eqb_spec c 92); auto; lia).
          split; [discriminate|]. intros [(c' & x & q & E & _ & F)|(c' & d & q & E & I & _)].
          -- injection E as <- E. assert (scheme_rest r = true) by (apply scheme_rest_iff; exists x, q; auto). congruence.
          -- injection E as <- ->. cbn in I. unfold letter in EL. lia.
      + assert (NL : ~ letter c) by (intros L; apply lower_letter in L; congruence). destruct (is_query c) eqn:EQ.
        * split; [discriminate|]. intros [(c' & x & q & E & L & F)|(c' & d & q & E & I & _)]; injection E as <- ->; [tauto|]. cbn in I. unfold is_query in EQ. destruct (N.eqb_spec c 63), (N.eqb_spec c 35); try discriminate EQ; lia.
        * destruct (is_slash c) eqn:EC.
          -- destruct r as [|d r]; [split; [discriminate|]; intros [(c' & x & q & E & L & F)|(c' & d & q & E & I & _)]; [injection E as <- _; tauto|discriminate]|].
             destruct (is_slash d) eqn:ED.
             ++ split; [|reflexivity]. intros _. right. exists c, d, r. split; [reflexivity|]. unfold is_slash in *. cbn. rewrite orb_true_iff, !N.eqb_eq in *. intuition auto.
             ++ split; [discriminate|]. intros [(c' & x & q & E & L & F)|(c' & d' & q & E & I & J)]; [injection E as <- _; tauto|]. injection E as <- <- ->.
                cbn in J. unfold is_slash in ED. rewrite orb_false_iff, !N.eqb_neq in ED. lia.
          -- split; [discriminate|]. intros [(c' & x & q & E & L & F)|(c' & d' & q & E & I & J)]; injection E as <- ->; [tauto|]. cbn in I. unfold is_slash in EC. rewrite orb_false_iff, !N.eqb_neq in EC. lia. }
  destruct (resolve _ _); split; intros X; try discriminate; try reflexivity; try (apply R; auto); apply R in X; discriminate.
Qed.
Print Assumptions C69_other_site.
Example C69_other_site_ex : cleaned (bs " mailto:ann ") (bs "mailto:ann") /\ other_site (bs "mailto:ann") /\ cleaned (bs "/x:y") (bs "/x:y") /\ ~ other_site (bs "/x:y").
Proof.
  split; [|split; [|split]].
  - exists (bs " "), (bs "mailto:ann"), (bs " "). split; [reflexivity|]. split; [repeat constructor; cbn; lia|]. split; [right; cbn; lia|reflexivity].
  - left. exists 109, (bs "ailto"), (bs "ann"). split; [reflexivity|]. split; [unfold letter; lia|]. change (bs "ailto") with [97; 105; 108; 116; 111].
    repeat (apply Forall_cons; [left; unfold letter; lia|]). constructor.
  - exists [], (bs "/x:y"), []. split; [reflexivity|]. split; [constructor|]. split; [right; cbn; lia|reflexivity].
  - intros [(c & x & r & E & L & _)|(c & d & r & E & _ & I)]; cbn in E; injection E as <- E.
    + unfold letter in L. lia.
    + subst d. cbn in I. lia.
Qed.

(* The prefix is only counted, not compared: the same route is shown for any prefix of that length *)
Theorem C69_prefix_unchecked_refuted : forall m p q r, length p = length q ->
  match start m p {| entries := [q ++ r]; index := 0 |}, start m q {| entries := [q ++ r]; index := 0 |} with
  | Done s, Done s' => store s = store s' | Throws, Throws => True | Bad, Bad => True | _, _ => False end.
Proof.
  intros m p q r H. unfold start, receive_event, pathname. cbn [page prefix entries index nth]. rewrite H.
  destruct (Nat.ltb _ _); auto. destruct (from_string _ _); cbn; auto.
Qed.
Print Assumptions C69_prefix_unchecked_refuted.
Example C69_prefix_unchecked : match start routed (bs "/app") {| entries := [bs "/xyz/user/ann"]; index := 0 |} with Done s => Some (store s) | _ => None end = Some (Route 1 [VStr (bs "ann")]).
Proof. vm_compute. reflexivity. Qed.

(* ... and when the address is shorter than the prefix, nothing is shown: the length becomes huge and the string constructor throws *)
Theorem C69_short_address_refuted : forall m pre p, (length p < length pre)%nat -> start m pre {| entries := [p]; index := 0 |} = Throws.
Proof. intros m pre p H. unfold start, receive_event, pathname. cbn [page prefix entries index nth]. destruct (Nat.ltb_spec (length p) (length pre)); [reflexivity|lia]. Qed.
Print Assumptions C69_short_address_refuted.
Example C69_short_address : start routed (bs "/app") {| entries := [bs "/"]; index := 0 |} = Throws.
Proof. vm_compute. reflexivity. Qed.

(* whatever addresses the browser shows and whatever is done, nothing undefined happens if no route has more than nine members *)
Lemma make_defined m ps n : (forall r, In r m -> (length (snd r) <= 9)%nat) -> length ps = 10%nat -> make_from_params m ps n <> UB.
Proof.
  intros W L. unfold make_from_params. destruct (find_name _ m) as [i|]; [|discriminate].
  assert (K : (length (snd (nth i m ([], []))) <= 9)%nat).
  { destruct (Nat.lt_ge_cases i (length m)) as [H|H]; [apply W, nth_In; exact H|rewrite nth_overflow by exact H; cbn; lia]. }
  rewrite L. destruct (Nat.ltb_spec 10 (S (length (snd (nth i m ([], [])))))); [lia|]. destruct (negb _); [discriminate|]. destruct (bind_members _ _); discriminate.
Qed.
Lemma collect_length : forall n v, (length (fst (collect n v)) <= n)%nat.
Proof.
  induction n as [|n IH]; intros v; cbn [collect]; [cbn; lia|]. destruct (parse_route_param v) as [x v']. destruct (N.of_nat (length x) =? 0); [cbn; lia|].
  specialize (IH v'). destruct (collect n v') as [xs w]. cbn in *. lia.
Qed.
Lemma from_string_defined m s : (forall r, In r m -> (length (snd r) <= 9)%nat) -> from_string m s <> UB.
Proof.
  intros W. unfold from_string. destruct s as [|c r]; [discriminate|]. destruct (negb (c =? 47)); [discriminate|].
  destruct (N.of_nat (length (c :: r)) =? 1); [apply make_defined; auto|]. pose proof (collect_length 10 (c :: r)) as L. destruct (collect 10 (c :: r)) as [xs view]. cbn [fst] in L.
  destruct (negb _); [discriminate|]. apply make_defined; auto. rewrite app_length, repeat_length. lia.
Qed.
Theorem C69_defined : forall m pre b l, (forall r, In r m -> (length (snd r) <= 9)%nat) ->
  match start m pre b with Done s => perform_all m l s <> Bad | Bad => False | Throws => True end.
Proof.
  intros m pre b l W.
  assert (R : forall s, receive_event m s <> Bad).
  { intros s. unfold receive_event. destruct (Nat.ltb _ _); [discriminate|]. pose proof (from_string_defined m (skipn (length (prefix s)) (pathname (page s))) W). destruct (from_string m _); congruence. }
  assert (P : forall a s, perform m a s <> Bad).
  { intros [[|i ms]|t|i] s; cbn [perform]; auto.
    - destruct (web_route_update _ s); [auto|discriminate].
    - destruct (web_route_update t s); discriminate.
    - destruct (Nat.ltb _ _); [auto|discriminate]. }
  unfold start. pose proof (R {| page := b; prefix := pre; store := NotFound |}) as R0. destruct (receive_event m _) as [s| |]; auto.
  clear R0. revert s. induction l as [|a l IH]; intros s; cbn [perform_all]; [discriminate|]. pose proof (P a s). destruct (perform m a s); auto.
Qed.
Print Assumptions C69_defined.
(* a route with ten members is undefined behaviour as soon as its address is shown *)
Theorem C69_ten_members_refuted : exists m b, start m [] b = Bad.
Proof. exists [(bs "foo", repeat TString 10)], {| entries := [bs "/foo"]; index := 0 |}. vm_compute. reflexivity. Qed.
Print Assumptions C69_ten_members_refuted.
Example C69_defined_ex : match start routed [] {| entries := [bs "/user/ann/b/c/d/e/f/g/h/i/j/k/l"]; index := 0 |} with Done s => store s | _ => Route 7 [] end = NotFound.
Proof. vm_compute. reflexivity. Qed.
