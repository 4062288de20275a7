(* C55: client addresses.  C57, C64: the serialiser and the deserialiser.  C60: connection attempts. *)
From Coq Require Import String.
From Verif Require Import Base Base64Model JsonModel JsonSpec JsonProofs JsonProps AppModel AppSpec AppProofs.
Open Scope N_scope.

(* ---- C55 ---- *)

(* every address has one reading, and it is the one meant by whoever put it together *)
Theorem C55_one_reading : forall a, exists p h q, Address a p h q /\ forall p' h' q', Address a p' h' q' -> p' = p /\ h' = h /\ q' = q.
Proof.
  intros a. destruct (split_address_ok a) as (p & h & q & A & _). exists p, h, q. split; [exact A|]. intros p' h' q' A'. eapply address_unique; eauto.
Qed.
Theorem C55_put_together : forall proto host port, ~ In colon proto -> ~ In colon host ->
  Address (proto ++ bs "://" ++ host ++ bs ":" ++ port) proto host port.
Proof.
  intros proto host port Np Nh. left. exists (host ++ bs ":" ++ port). split; [apply proto_cut; exact Np|]. split; [exact Nh|]. left. reflexivity.
Qed.

(* the connection is made to the host and the port of the address *)
Theorem C55_host_port_partial : forall a p h q, Address a p h q -> connect_to a = (h, q).
Proof.
  intros a p h q A. destruct (split_address_ok a) as (p' & h' & q' & A' & E & _). destruct (address_unique _ _ _ _ _ _ _ A A') as (_ & -> & ->). exact E.
Qed.

(* the protocol is never the one in the address, if there is one: substr(pos) where substr(0, pos) was meant *)
Theorem C55_protocol_refuted : forall a p h q, Address a p h q -> Occurs (bs "://") a -> fst (fst (split_address a)) <> p.
Proof.
  intros a p h q A O. destruct (split_address_ok a) as (p' & h' & q' & A' & _ & [(_ & _ & N)|(r & C & ->)]); [contradiction|].
  destruct (address_unique _ _ _ _ _ _ _ A A') as (-> & _). intros E. destruct C as [X M].
  specialize (M [] (r ++ bs "://" ++ r)). rewrite <- E in X. rewrite <- app_assoc in X. apply M in X. rewrite <- E in X. cbn in X. lia.
Qed.
(* nor is it used for the service when there is no port *)
Theorem C55_service_refuted : exists a p h, Address a p h [] /\ p <> [] /\ connect_to a = (h, []).
Proof.
  exists (bs "ws" ++ bs "://" ++ bs "example.org"), (bs "ws"), (bs "example.org"). split; [|split; [discriminate|vm_compute; reflexivity]].
  left. eexists. split; [apply proto_cut; vm_compute; intuition discriminate|]. split; [vm_compute; intuition discriminate|right; auto].
Qed.
Print Assumptions C55_one_reading.
Print Assumptions C55_put_together.
Print Assumptions C55_host_port_partial.
Print Assumptions C55_protocol_refuted.
Print Assumptions C55_service_refuted.

Example address_1 : split_address (bs "ws://localhost:8080") = (bs "://localhost:8080", bs "localhost", bs "8080").
Proof. vm_compute. reflexivity. Qed.
Example address_2 : connect_to (bs "localhost:8080") = (bs "localhost", bs "8080").
Proof. vm_compute. reflexivity. Qed.
(* addresses of other forms: a path belongs to the port, a numeric IPv6 host is cut at its first colon *)
Example address_path : connect_to (bs "ws://localhost:8080/x") = (bs "localhost", bs "8080/x").
Proof. vm_compute. reflexivity. Qed.
Example address_ipv6 : connect_to (bs "ws://[::1]:8080") = (bs "[", bs ":1]:8080").
Proof. vm_compute. reflexivity. Qed.

(* ---- C57, C64 ---- *)
Section Deserialize.
Variable integral_of : N -> option Z.
Variable double_of : Z -> N.
Variable parse : bytes -> option json.
Variable sys : shape.
Variable msgs : list shape.
Notation M := (message_variant sys msgs).

(* A text that is a document which stands for a message: the continuation is called once, with that message; a system
   message and a variant that was not set are errors. *)
Theorem C57_readable_partial : forall text j, proper M -> parse text = Some j -> doc_ok j ->
  (exists v, Reads integral_of double_of buffer_any M j (default M) v) ->
  exists i v, Reads integral_of double_of buffer_any M j (default M) (VVar i v) /\
  deserialize integral_of double_of parse sys msgs text =
    Ok [match i with O => UnknownError | 1%nat => SystemError v | S (S k) => Message k v end].
Proof.
  intros text j HP E D [v0 H0].
  assert (HS : has_shape M (default M)) by (split; [reflexivity|exact I] || (cbn; exact I)).
  pose proof (C44_read_partial integral_of double_of M j (default M) HP D HS) as T.
  unfold deserialize, from_string. rewrite E. destruct (read integral_of double_of M j (default M)) as [[v|]|].
  - destruct T as [R S]. destruct v as [| | | | | | |i v]; try contradiction. exists i, v. split; [exact R|]. cbn [bind match_message].
    destruct i as [|[|i]]; reflexivity.
  - exfalso. eapply T; eauto.
  - contradiction.
Qed.

(* Any other text: the continuation is called twice, both times with an error. *)
Theorem C57_twice_refuted : forall text,
  (match parse text with None => True | Some j => read integral_of double_of M j (default M) = Ok None end) ->
  deserialize integral_of double_of parse sys msgs text = Ok [ParseError; UnknownError].
Proof.
  intros text H. unfold deserialize, from_string. destruct (parse text) as [j|]; [rewrite H|]; reflexivity.
Qed.

(* there is nothing else: the continuation is always called, at most twice, and nothing is read that is not there *)
Theorem C57_cases : forall text, proper M -> (forall j, parse text = Some j -> doc_ok j) ->
  exists l, deserialize integral_of double_of parse sys msgs text = Ok l /\
  (length l = 1%nat \/ l = [ParseError; UnknownError]) /\
  (length l = 1%nat <-> exists j v, parse text = Some j /\ Reads integral_of double_of buffer_any M j (default M) v).
Proof.
  intros text HP HD. destruct (parse text) as [j|] eqn:E.
  - assert (HS : has_shape M (default M)) by (cbn; exact I).
    pose proof (C44_read_partial integral_of double_of M j (default M) HP (HD j eq_refl) HS) as T.
    destruct (read integral_of double_of M j (default M)) as [[v|]|] eqn:R.
    + destruct (C57_readable_partial text j HP E (HD j eq_refl) (ex_intro _ v (proj1 T))) as (i & w & H & ->). eexists. split; [reflexivity|].
      split; [left; reflexivity|]. split; [intros _; exists j, v; split; [reflexivity|apply T]|reflexivity].
    + rewrite C57_twice_refuted by (rewrite E; exact R). eexists. split; [reflexivity|]. split; [right; reflexivity|].
      split; [discriminate|]. intros (j' & v & X & Y). injection X as <-. exfalso. eapply T; eauto.
    + contradiction.
  - rewrite C57_twice_refuted by (rewrite E; exact I). eexists. split; [reflexivity|]. split; [right; reflexivity|].
    split; [discriminate|]. intros (j' & v & X & Y). discriminate.
Qed.

(* A message that was serialised arrives as itself, and once, if the text is parsed to the document it was printed from. *)
Theorem C64_message : forall i v, writable M (VVar (S (S i)) v) ->
  exists j, serialize sys msgs i v = Ok j /\
  forall text, parse text = Some j -> deserialize integral_of double_of parse sys msgs text = Ok [Message i v].
Proof.
  intros i v W. destruct (C43_round_trip_partial integral_of double_of M _ W) as (j & E & R). exists j. split; [exact E|].
  intros text P. unfold deserialize, from_string. rewrite P, R. reflexivity.
Qed.
Theorem C64_system : forall v, writable M (VVar 1 v) ->
  exists j, serialize_system sys msgs v = Ok j /\
  forall text, parse text = Some j -> deserialize integral_of double_of parse sys msgs text = Ok [SystemError v].
Proof.
  intros v W. destruct (C43_round_trip_partial integral_of double_of M _ W) as (j & E & R). exists j. split; [exact E|].
  intros text P. unfold deserialize, from_string. rewrite P, R. reflexivity.
Qed.
(* The values for which that holds are exactly those: every other message of its type is lost or changed on the way. *)
Theorem C64_exact : forall i v j text, sensible M -> has_shape M (VVar (S (S i)) v) -> bytes_in v -> serialize sys msgs i v = Ok j -> parse text = Some j ->
  (deserialize integral_of double_of parse sys msgs text = Ok [Message i v] <-> writable M (VVar (S (S i)) v)).
Proof.
  intros i v j text Sn Sh B E P. split.
  - intros D. apply (C43_exact integral_of double_of M _ Sn Sh B). exists j. split; [exact E|]. unfold deserialize, from_string in D. rewrite P in D.
    destruct (read integral_of double_of M j (default M)) as [[w|]|]; [|discriminate|discriminate]. cbn [bind match_message] in D.
    destruct w as [| | | | | | |[|[|k]] w]; cbn in D; congruence.
  - intros W. destruct (C64_message i v W) as (j' & E' & D). apply D. congruence.
Qed.
(* messages of one type never arrive as another, nor do different messages look alike *)
Theorem C64_distinct : forall i v i' v' j, sensible M -> has_shape M (VVar (S (S i)) v) -> has_shape M (VVar (S (S i')) v') -> bytes_in v -> bytes_in v' ->
  serialize sys msgs i v = Ok j -> serialize sys msgs i' v' = Ok j -> i = i' /\ v = v'.
Proof.
  intros i v i' v' j Sn W W' B B' E E'. pose proof (C43_injective M _ _ j Sn W W' B B' E E') as X. injection X. auto.
Qed.
End Deserialize.
Print Assumptions C57_readable_partial.
Print Assumptions C57_twice_refuted.
Print Assumptions C57_cases.
Print Assumptions C64_message.
Print Assumptions C64_system.
Print Assumptions C64_distinct.
Print Assumptions C64_exact.

(* Without the condition of C64 a message is rejected, and the continuation called twice, or arrives as another one. *)
Theorem C64_empty_refuted : exists msgs v j, has_shape (message_variant SEmpty msgs) (VVar 2 v) /\ serialize SEmpty msgs 0 v = Ok j /\
  forall io d parse text, parse text = Some j -> deserialize io d parse SEmpty msgs text = Ok [ParseError; UnknownError].
Proof.
  exists [SCont SInt], (VCont []). eexists. split; [exact I|]. split; [reflexivity|]. intros io d parse text P. unfold deserialize, from_string. rewrite P. reflexivity.
Qed.
Theorem C64_nul_refuted : exists msgs v w j, has_shape (message_variant SEmpty msgs) (VVar 2 v) /\ serialize SEmpty msgs 0 v = Ok j /\ v <> w /\
  forall io d parse text, parse text = Some j -> deserialize io d parse SEmpty msgs text = Ok [Message 0 w].
Proof.
  exists [SString], (VString [97; 0; 98]), (VString [97]). eexists. split; [exact I|]. split; [reflexivity|]. split; [discriminate|].
  intros io d parse text P. unfold deserialize, from_string. rewrite P. reflexivity.
Qed.
Print Assumptions C64_empty_refuted.
Print Assumptions C64_nul_refuted.

(* example: the text is the document; a message of a string and a number, a system message, and rubbish *)
Definition ex_sys := SMap [(bs "level", SEnum); (bs "value", SString)].
Definition ex_msgs := [SSeq [SInt; SString]; SUInt].
Definition ex_deserialize j := deserialize (fun _ => None) (fun _ => 0) (fun t => match t with [] => None | _ => Some j end) ex_sys ex_msgs [0].
Example receive_message : ex_deserialize (JArray [JInt 2; JArray [JInt 5; JString (bs "x")]]) = Ok [Message 0 (VSeq [VInt 5; VString (bs "x")])].
Proof. vm_compute. reflexivity. Qed.
Example receive_system : ex_deserialize (JArray [JInt 1; JObject [(bs "level", JInt 0); (bs "value", JString (bs "no"))]]) = Ok [SystemError (VSeq [VInt 0; VString (bs "no")])].
Proof. vm_compute. reflexivity. Qed.
Example receive_unknown : ex_deserialize (JArray [JInt 9; JNull]) = Ok [UnknownError].
Proof. vm_compute. reflexivity. Qed.
Example receive_rubbish : ex_deserialize (JArray [JInt 3; JString (bs "no number")]) = Ok [ParseError; UnknownError].
Proof. vm_compute. reflexivity. Qed.
Example send_message : serialize ex_sys ex_msgs 1 (VInt 7) = Ok (JArray [JInt 3; JInt 7]).
Proof. vm_compute. reflexivity. Qed.

(* ---- C60 ---- *)

(* The first use of the promise: n retries, then it rejects. *)
Theorem C60_bounded_partial : forall n results, (Z.of_nat n < 2147483647)%Z ->
  (exists k r, (k <= n)%nat /\ results = fails k ++ true :: r /\ connect (Z.of_nat n) 0 results 0 = (Resolved, S k, Z.of_nat k, r)) \/
  (exists r, results = fails (S n) ++ r /\ connect (Z.of_nat n) 0 results 0 = (Rejected (Z.of_nat n), S n, Z.of_nat (S n), r)) \/
  (exists k, (k <= n)%nat /\ results = fails k /\ connect (Z.of_nat n) 0 results 0 = (Waiting, S k, Z.of_nat k, [])).
Proof.
  intros n results H.
  assert (J : forall r, connect (Z.of_nat n) 0 (fails (S n) ++ r) 0 = (Rejected (Z.of_nat n), S n, Z.of_nat (S n), r)).
  { intros r. replace (fails (S n) ++ r) with (fails n ++ false :: r).
    - rewrite connect_fail by lia. cbn [connect]. rewrite Z.add_0_l, Nat.add_0_r. destruct (Z.eqb_spec (Z.of_nat n) 2147483647); [lia|].
      destruct (Z.leb_spec (Z.of_nat n) (Z.of_nat n)); [|lia]. repeat f_equal. lia.
    - unfold fails. replace (S n) with (n + 1)%nat by lia. rewrite repeat_app, <- app_assoc. reflexivity. }
  assert (K : forall k (r : list bool), (n < k)%nat -> fails k ++ r = fails (S n) ++ fails (k - S n) ++ r).
  { intros k r L. rewrite app_assoc. f_equal. unfold fails. rewrite <- repeat_app. f_equal. lia. }
  destruct (results_split results) as [(k & r & ->)|E].
  - destruct (Nat.le_gt_cases k n) as [L|L].
    + left. exists k, r. repeat split; try assumption. rewrite connect_fail by lia. cbn [connect]. rewrite Z.add_0_l, Nat.add_0_r. reflexivity.
    + right. left. rewrite (K k _ L). eexists. split; [reflexivity|]. apply J.
  - assert (exists m, results = fails m) as [m ->] by eauto. clear E. destruct (Nat.le_gt_cases m n) as [L|L].
    + right. right. exists m. repeat split; try assumption. rewrite <- (app_nil_r (fails _)), connect_fail by lia. cbn [connect].
      rewrite Z.add_0_l, Nat.add_0_r. reflexivity.
    + right. left. rewrite <- (app_nil_r (fails m)), (K _ _ L). eexists. split; [reflexivity|]. apply J.
Qed.

(* a limit below zero is one of zero *)
Theorem C60_negative : forall limit r, (limit < 0)%Z -> connect limit 0 (false :: r) 0 = (Rejected limit, 1%nat, 1%Z, r).
Proof. intros limit r H. cbn. destruct (Z.leb_spec limit 0); [reflexivity|lia]. Qed.

(* a use never makes more attempts than that *)
Theorem C60_never_more : forall results limit f made o k f' r, connect limit f results made = (o, k, f', r) -> (0 <= f)%Z ->
  (Z.of_nat k <= Z.of_nat made + 1 + Z.max 0 (limit - f))%Z.
Proof.
  induction results as [|[] results IH]; intros limit f made o k f' r E H; cbn in E.
  - injection E as <- <- <- <-. lia.
  - injection E as <- <- <- <-. lia.
  - destruct (Z.eqb f 2147483647). { injection E as <- <- <- <-. lia. } destruct (Z.leb_spec limit f). { injection E as <- <- <- <-. lia. }
    apply IH in E; lia.
Qed.

(* any use, when F attempts failed in the uses before: as many retries as are left of n *)
Theorem C60_any_use : forall n F results, (Z.of_nat n < 2147483647)%Z -> (Z.of_nat F < 2147483647)%Z -> let b := (n - F)%nat in
  (exists k r, (k <= b)%nat /\ results = fails k ++ true :: r /\ connect (Z.of_nat n) (Z.of_nat F) results 0 = (Resolved, S k, Z.of_nat (F + k), r)) \/
  (exists r, results = fails (S b) ++ r /\ connect (Z.of_nat n) (Z.of_nat F) results 0 = (Rejected (Z.of_nat n), S b, Z.of_nat (F + S b), r)) \/
  (exists k, (k <= b)%nat /\ results = fails k /\ connect (Z.of_nat n) (Z.of_nat F) results 0 = (Waiting, S k, Z.of_nat (F + k), [])).
Proof.
  intros n F results Hn HF b.
  assert (J : forall r, connect (Z.of_nat n) (Z.of_nat F) (fails (S b) ++ r) 0 = (Rejected (Z.of_nat n), S b, Z.of_nat (F + S b), r)).
  { intros r. replace (fails (S b) ++ r) with (fails b ++ false :: r).
    - destruct (Nat.le_gt_cases F n) as [L|L].
      + rewrite connect_fail by lia. cbn [connect]. rewrite Nat.add_0_r. destruct (Z.eqb_spec (Z.of_nat F + Z.of_nat b) 2147483647); [lia|].
        destruct (Z.leb_spec (Z.of_nat n) (Z.of_nat F + Z.of_nat b)); [|lia]. repeat f_equal. lia.
      + assert (b = 0)%nat as -> by lia. cbn [fails repeat app connect]. destruct (Z.eqb_spec (Z.of_nat F) 2147483647); [lia|]. destruct (Z.leb_spec (Z.of_nat n) (Z.of_nat F)); [|lia]. repeat f_equal. lia.
    - unfold fails. replace (S b) with (b + 1)%nat by lia. rewrite repeat_app, <- app_assoc. reflexivity. }
  assert (K : forall k (r : list bool), (b < k)%nat -> fails k ++ r = fails (S b) ++ fails (k - S b) ++ r).
  { intros k r L. rewrite app_assoc. f_equal. unfold fails. rewrite <- repeat_app. f_equal. lia. }
  assert (C : forall k r, (k <= b)%nat -> connect (Z.of_nat n) (Z.of_nat F) (fails k ++ r) 0 = connect (Z.of_nat n) (Z.of_nat (F + k)) r k).
  { intros k r L. destruct k as [|k]; [cbn; now rewrite Nat.add_0_r|]. rewrite connect_fail by lia. now rewrite Nat.add_0_r, Nat2Z.inj_add. }
  destruct (results_split results) as [(k & r & ->)|E].
  - destruct (Nat.le_gt_cases k b) as [L|L].
    + left. exists k, r. repeat split; try assumption. now rewrite C.
    + right. left. rewrite (K k _ L). eexists. split; [reflexivity|]. apply J.
  - assert (exists m, results = fails m) as [m ->] by eauto. clear E. destruct (Nat.le_gt_cases m b) as [L|L].
    + right. right. exists m. repeat split; try assumption. rewrite <- (app_nil_r (fails _)), C by exact L. reflexivity.
    + right. left. rewrite <- (app_nil_r (fails m)), (K _ _ L). eexists. split; [reflexivity|]. apply J.
Qed.
(* so in all its uses together it makes n retries *)
Theorem C60_together : forall uses n results, (Z.of_nat n + Z.of_nat uses < 2147483647)%Z ->
  (fold_right Nat.add 0 (map snd (connects (Z.of_nat n) 0 results uses)) <= uses + n)%nat.
Proof.
  assert (G : forall uses n F results, (Z.of_nat (F + uses) < 2147483647)%Z -> (Z.of_nat (n + uses) < 2147483647)%Z ->
    (fold_right Nat.add 0 (map snd (connects (Z.of_nat n) (Z.of_nat F) results uses)) <= uses + (n - F))%nat).
  { induction uses as [|uses IH]; intros n F results H H2; [cbn; lia|]. cbn [connects].
    destruct (C60_any_use n F results ltac:(lia) ltac:(lia)) as [(k & r & L & _ & E)|[(r & _ & E)|(k & L & _ & E)]]; rewrite E; cbn [map snd fold_right].
    - destruct (Nat.eq_dec k 0) as [->|Nk].
      + specialize (IH n (F + 0)%nat r ltac:(lia) ltac:(lia)). lia.
      + specialize (IH n (F + k)%nat r ltac:(lia) ltac:(lia)). lia.
    - destruct (Nat.le_gt_cases F n).
      + specialize (IH n (F + S (n - F))%nat r ltac:(lia) ltac:(lia)). lia.
      + specialize (IH n (F + S (n - F))%nat r ltac:(lia) ltac:(lia)). lia.
    - lia. }
  intros uses n results H. specialize (G uses n 0%nat results ltac:(lia) ltac:(lia)). cbn in G. rewrite Nat.sub_0_r in G. exact G.
Qed.

(* used again after it rejected, it does not retry any more: the counter is never set back *)
Theorem C60_reuse_refuted : forall n r, (Z.of_nat n + 1 < 2147483647)%Z ->
  connects (Z.of_nat n) 0 (fails (S n) ++ false :: r) 2 = [(Rejected (Z.of_nat n), S n); (Rejected (Z.of_nat n), 1%nat)].
Proof.
  intros n r H. cbn [connects]. destruct (C60_bounded_partial n (fails (S n) ++ false :: r) ltac:(lia)) as [(k & r' & L & E & _)|[(r' & E & ->)|(k & L & E & _)]].
  - exfalso. assert (X : nth k (fails (S n) ++ false :: r) false = true).
    { rewrite E. unfold fails. rewrite app_nth2; rewrite repeat_length; [|lia]. rewrite Nat.sub_diag. reflexivity. }
    unfold fails in X. rewrite app_nth1 in X by (rewrite repeat_length; lia). rewrite nth_repeat in X. discriminate.
  - apply app_inv_head in E. subst r'. cbn [connect]. destruct (Z.eqb_spec (Z.of_nat (S n)) 2147483647); [lia|]. destruct (Z.leb_spec (Z.of_nat n) (Z.of_nat (S n))); [reflexivity|lia].
  - exfalso. apply (f_equal (@length bool)) in E. unfold fails in E. rewrite app_length, !repeat_length in E. cbn in E. lia.
Qed.

(* with the largest limit the counter overflows *)
Theorem C60_overflow_refuted : exists results k f r, connect 2147483647 0 results 0 = (Overflow, k, f, r).
Proof.
  exists (fails (Z.to_nat 2147483647) ++ [false]). rewrite connect_fail by lia. cbn [connect]. rewrite Z2Nat.id by lia. rewrite Z.add_0_l.
  destruct (Z.eqb_spec 2147483647 2147483647) as [_|N]; [|contradiction N; reflexivity]. do 3 eexists. reflexivity.
Qed.
Print Assumptions C60_bounded_partial.
Print Assumptions C60_negative.
Print Assumptions C60_never_more.
Print Assumptions C60_any_use.
Print Assumptions C60_together.
Print Assumptions C60_reuse_refuted.
Print Assumptions C60_overflow_refuted.

Example third_time : connect 10 0 [false; false; true; false] 0 = (Resolved, 3%nat, 2%Z, [false]).
Proof. vm_compute. reflexivity. Qed.
Example gives_up : connect 2 0 [false; false; false; true] 0 = (Rejected 2, 3%nat, 3%Z, [true]).
Proof. vm_compute. reflexivity. Qed.
Example uses : connects 3 0 [false; true; false; false; true; false; true; false] 4 = [(Resolved, 2%nat); (Resolved, 3%nat); (Rejected 3, 1%nat); (Resolved, 1%nat)].
Proof. vm_compute. reflexivity. Qed.
