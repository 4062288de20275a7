(* C92, C93: the generators of identifiers (include/nbdl/uid.hpp). *)
From Verif Require Import Base UidModel UidSpec UidProofs.
Open Scope N_scope.

(* ---- C92: outside the browser ---- *)

(* n identifiers, each 16 bytes *)
Theorem C92_uids : forall seed n, length (made_with seed n) = n /\ forall u, In u (made_with seed n) -> Uid u.
Proof.
  intros seed n. unfold made_with. split; [apply uids_length|]. pose proof (engine_words seed) as W. revert W. generalize (engine seed). induction n as [|n IH]; intros s W u H; [destruct H|].
  cbn [uids] in H. rewrite generate_eq in H. destruct H as [<-|H].
  - split; [apply uid_length; rewrite map_length; apply raws_length|]. intros b Hb. unfold pack in Hb. apply in_flat_map in Hb as (w & _ & Hb).
    destruct Hb as [<-|[<-|[<-|[<-|[]]]]]; apply N.mod_lt; discriminate.
  - apply (IH (after 4 s)); [apply after_words, W|exact H].
Qed.

(* an earlier identifier does not depend on how many are asked for *)
Theorem C92_prefix : forall seed n k, firstn n (made_with seed (n + k)%nat) = made_with seed n.
Proof.
  intros seed n k. unfold made_with. rewrite uids_app. rewrite firstn_app, uids_length, Nat.sub_diag, firstn_O, app_nil_r. apply firstn_all2. rewrite uids_length. lia.
Qed.

(* whoever has seen 156 identifiers in a row (2496 bytes) can compute the one after them, and so all to come *)
Theorem C92_foretold : Foretold made_with 156.
Proof.
  exists foretell. intros seed n. unfold made_with. rewrite <- Nat.add_assoc, (uids_app n 156), skipn_app, (uids_app n (156 + 1)).
  rewrite (skipn_all2 (uids n (engine seed))) by (rewrite uids_length; lia). rewrite uids_length, Nat.sub_diag. cbn [skipn app].
  pose proof (after_words (4 * n) _ (engine_words seed)) as W. assert (L : length (after (4 * n) (engine seed)) = 624%nat).
  { pose proof (engine_length seed) as E. rewrite after_length; [exact E|]. intros X. rewrite X in E. discriminate. }
  revert W L. generalize (after (4 * n) (engine seed)). intros s W L.
  rewrite firstn_all2 by (rewrite uids_length; lia). unfold foretell. rewrite foretell_state by assumption. rewrite (uids_app 156 1). change (4 * 156)%nat with 624%nat.
  cbn [uids]. destruct (generate (after 624 s)) as [s' u]. cbn [snd]. rewrite app_assoc, last_last. reflexivity.
Qed.

(* Full claim: an identifier cannot be computed from those made before it.  False: by the above. *)
Theorem C92_secret_refuted : ~ (forall guess : list (list N) -> list N, exists seed n,
  guess (firstn 156 (skipn n (made_with seed (n + 156)%nat))) <> last (made_with seed (n + 156 + 1)%nat) []).
Proof. intros H. destruct C92_foretold as [g G]. destruct (H g) as (seed & n & N). apply N, G. Qed.

(* two seeds which std::random_device can give lead to different identifiers, among the first 156 at the latest *)
Theorem C92_seeds : forall a b, a < 2 ^ 32 -> b < 2 ^ 32 -> a <> b ->
  exists i, (i < 156)%nat /\ nth i (made_with a 156) [] <> nth i (made_with b 156) [].
Proof.
  intros a b Ha Hb Nq. pose proof (seeds_differ a b Ha Hb) as D. pose proof (proj1 (C92_uids a 156)) as La. pose proof (proj1 (C92_uids b 156)) as Lb.
  revert D La Lb. generalize (made_with a 156) (made_with b 156). intros x y D La Lb.
  destruct (list_eq_dec (list_eq_dec N.eq_dec) x y) as [E|E]; [destruct (Nq (D E))|].
  assert (G : forall x y : list (list N), length x = length y -> x <> y -> exists i, (i < length x)%nat /\ nth i x [] <> nth i y []).
  { clear. induction x as [|u x IH]; intros [|v y] L Nq; try discriminate; [destruct (Nq eq_refl)|]. destruct (list_eq_dec N.eq_dec u v) as [->|E].
    - destruct (IH y) as (i & Hi & Ni); [injection L; auto|intros ->; apply Nq; reflexivity|]. exists (S i). split; [cbn; lia|exact Ni].
    - exists O. split; [cbn; lia|exact E]. }
  destruct (G x y) as (i & Hi & Ni); [congruence|exact E|]. exists i. split; [lia|exact Ni].
Qed.

(* but of more than 2^32 generators two are alike for ever *)
Theorem C92_twins : forall seeds, (forall s, In s seeds -> s < 2 ^ 32) -> 2 ^ 32 < N.of_nat (length seeds) ->
  exists i j, (i < j < length seeds)%nat /\ Twins made_with (nth i seeds 0) (nth j seeds 0).
Proof. intros seeds H L. destruct (pigeonhole seeds _ H L) as (i & j & B & E). exists i, j. split; [exact B|]. intros n. rewrite E. reflexivity. Qed.

(* Full claim: generators made apart never make the same identifier.  False: the engine has no more than the 32 bits of
   one call of rd(), so two of them may get the same ones (for 77163 generators it is more likely than not). *)
Theorem C92_apart_refuted : ~ (forall seeds, (forall s, In s seeds -> s < 2 ^ 32) ->
  forall i j, (i < j < length seeds)%nat -> ~ Twins made_with (nth i seeds 0) (nth j seeds 0)).
Proof. intros H. apply (H [7; 7] ltac:(cbn; intros s [<-|[<-|[]]]; reflexivity) 0%nat 1%nat ltac:(cbn; lia)). intros n. reflexivity. Qed.

(* ---- C93: in the browser ---- *)

(* Math.random() gives k / 2^53 *)
Definition Random (ks : list N) : Prop := forall k, In k ks -> k < 2 ^ 53.
Lemma firstn_in {A} n (l : list A) x : In x (firstn n l) -> In x l.
Proof. intros H. rewrite <- (firstn_skipn n l). apply in_or_app. auto. Qed.

(* what is made is an identifier; each byte is the expected one or the one above it *)
Theorem C93_uid : forall ks u, Random ks -> (16 <= length ks)%nat -> generate_in_browser ks = Some u -> Uid u.
Proof.
  intros ks u R L E. unfold generate_in_browser in E. split.
  - rewrite (bytes_length _ _ E), firstn_length. lia.
  - intros b. apply (bytes_lt (firstn 16 ks)); [|exact E]. intros k Hk. apply R, (firstn_in 16), Hk.
Qed.
Theorem C93_byte : forall ks u i, Random ks -> generate_in_browser ks = Some u -> (i < length u)%nat ->
  nth i u 0 = nth i ks 0 * 256 / 2 ^ 53 \/ nth i u 0 = nth i ks 0 * 256 / 2 ^ 53 + 1.
Proof.
  intros ks u i R E. unfold generate_in_browser in E. revert ks u i R E. generalize 16%nat. intros n. induction n as [|n IH]; intros ks u i R E H; [injection E as <-; cbn in H; lia|].
  destruct ks as [|k ks]; [injection E as <-; cbn in H; lia|]. cbn [firstn bytes_from] in E. destruct (byte_of k) as [b|] eqn:Eb; [|discriminate]. destruct (bytes_from (firstn n ks)) as [r|] eqn:Er; [|discriminate].
  injection E as <-. destruct i as [|i].
  - cbn [nth]. assert (Hk : k < 2 ^ 53) by (apply R; left; reflexivity). pose proof (byte_value k Hk) as V. unfold byte_of in Eb. cbv zeta in Eb. destruct (_ <? 256); [|discriminate]. injection Eb as <-.
    replace (k * 256 / 2 ^ 53) with (k / 2 ^ 45); [exact V|]. change (2 ^ 53) with (2 ^ 45 * 256). rewrite N.div_mul_cancel_r by discriminate. reflexivity.
  - cbn [nth]. apply IH; [intros x Hx; apply R; right; exact Hx|exact Er|]. cbn in H. lia.
Qed.
(* every identifier can come out *)
Theorem C93_every : forall u, Uid u -> exists ks, Random ks /\ length ks = 16%nat /\ generate_in_browser ks = Some u.
Proof.
  intros u [L B]. exists (map (fun b => b * 2 ^ 45) u). split; [|split].
  - intros k Hk. apply in_map_iff in Hk as (b & <- & Hb). specialize (B b Hb). change (2 ^ 53) with (256 * 2 ^ 45). apply N.mul_lt_mono_pos_r; [reflexivity|exact B].
  - rewrite map_length. exact L.
  - unfold generate_in_browser. rewrite firstn_all2 by (rewrite map_length; lia). apply bytes_every, B.
Qed.
(* exactly when the behaviour is undefined: one of the 16 random numbers is at least 1 - 2^-25 *)
Theorem C93_undefined : forall ks, Random ks ->
  (generate_in_browser ks = None <-> exists i, (i < 16)%nat /\ (i < length ks)%nat /\ 2 ^ 53 - 2 ^ 28 <= nth i ks 0).
Proof.
  intros ks R. unfold generate_in_browser. rewrite bytes_none by (intros k Hk; apply R, (firstn_in 16), Hk). split.
  - intros (k & Hk & L). apply (In_nth _ _ 0) in Hk as (i & Hi & <-). rewrite firstn_length in Hi. exists i. split; [lia|]. split; [lia|].
    rewrite <- (firstn_skipn 16 ks), app_nth1; [exact L|]. rewrite firstn_length. lia.
  - intros (i & Hi & Hl & L). exists (nth i ks 0). split; [|exact L]. rewrite <- (firstn_skipn 16 ks) at 1. rewrite app_nth1 by (rewrite firstn_length; lia). apply nth_In. rewrite firstn_length. lia.
Qed.
(* Full claim: whatever the random numbers are, an identifier is made.  Missing are the numbers next to 1. *)
Theorem C93_made_partial : forall ks, (16 <= length ks)%nat -> (forall k, In k ks -> k < 2 ^ 53 - 2 ^ 28) -> exists u, generate_in_browser ks = Some u /\ Uid u.
Proof.
  intros ks L H. assert (R : Random ks) by (intros k Hk; specialize (H k Hk); change (2 ^ 53 - 2 ^ 28) with 9007198986305536 in H; change (2 ^ 53) with 9007199254740992; lia).
  destruct (generate_in_browser ks) as [u|] eqn:E.
  - exists u. split; [reflexivity|]. apply (C93_uid ks u R L E).
  - apply C93_undefined in E as (i & _ & Hl & G); [|exact R]. specialize (H _ (nth_In ks 0 Hl)). apply N.lt_nge in H. destruct (H G).
Qed.
Theorem C93_made_refuted : ~ (forall ks, Random ks -> (16 <= length ks)%nat -> exists u, generate_in_browser ks = Some u).
Proof.
  intros H. destruct (H (repeat (2 ^ 53 - 1) 16)) as (u & E).
  - intros k Hk. apply repeat_spec in Hk as ->. reflexivity.
  - rewrite repeat_length. lia.
  - vm_compute in E. discriminate E.
Qed.

Print Assumptions C92_uids.
Print Assumptions C92_prefix.
Print Assumptions C92_foretold.
Print Assumptions C92_secret_refuted.
Print Assumptions C92_seeds.
Print Assumptions C92_twins.
Print Assumptions C92_apart_refuted.
Print Assumptions C93_uid.
Print Assumptions C93_byte.
Print Assumptions C93_every.
Print Assumptions C93_undefined.
Print Assumptions C93_made_partial.
Print Assumptions C93_made_refuted.

(* [rand.predef]: the 10000th call of a default-constructed mt19937 gives 4123659995 (the default seed is 5489).  It is the
   last word of the 2500th identifier, lowest byte first. *)
Theorem C92_standard : skipn 12 (last (made_with 5489 (N.to_nat 2500)) []) = bytes_of 4123659995.
Proof. vm_compute. reflexivity. Qed.
Print Assumptions C92_standard.
(* the 157th identifier of a generator from the 156 before it, and the 166th from the 10th to the 165th *)
Example C92_foretold_ex : foretell (made_with 42 156) = last (made_with 42 157) [] /\ foretell (skipn 9 (made_with 42 165)) = last (made_with 42 166) [].
Proof. vm_compute. auto. Qed.
Example C92_seeds_ex : nth 0 (made_with 1 1) [] <> nth 0 (made_with 2 1) [].
Proof. vm_compute. discriminate. Qed.
(* one half is 128; a random number just below a boundary may give the byte above *)
Example C93_half : generate_in_browser (repeat (2 ^ 52) 16) = Some (repeat 128 16) /\ generate_in_browser (repeat (2 ^ 52 - 1) 16) = Some (repeat 128 16)
  /\ generate_in_browser (repeat (2 ^ 52 - 2 ^ 28) 16) = Some (repeat 127 16).
Proof. vm_compute. auto. Qed.
(* the largest number for which a byte is defined, and the next one *)
Example C93_edge : byte_of (2 ^ 53 - 2 ^ 28 - 1) = Some 255 /\ byte_of (2 ^ 53 - 2 ^ 28) = None.
Proof. vm_compute. auto. Qed.
