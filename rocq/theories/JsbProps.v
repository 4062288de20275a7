(* What holds for the binder to JavaScript values (C74), and between a browser with it and a program with the JSON binder (C75). *)
From Coq Require Import String.
From Verif Require Import Base Base64Model Base64Spec JsonModel JsonSpec JsonProofs JsbModel JsbSpec JsbProofs.
Open Scope N_scope.

(* shapes for the examples *)
Definition card : shape := SMap [(bs "name", SString); (bs "tags", SCont SUInt); (bs "key", SBuffer (Some 3%nat)); (bs "rest", SSeq [SInt; SEmpty; SVar [SEmpty; SString]])].
Definition a_card : value := VSeq [VString (bs "Ann"); VCont [VInt 7; VInt 4294967295]; VBuffer [1; 2; 255]; VSeq [VInt (-5); VEmpty; VVar 1 (VString (bs "x"))]].
Definition small_card : value := VSeq [VString (bs "Ann"); VCont [VInt 7]; VBuffer [1; 2; 255]; VSeq [VInt (-5); VEmpty; VVar 1 (VString (bs "x"))]].
Definition junk (s : list N) : list N := map (fun _ => 65533) s.
Definition nan (_ : jsv) : Z := 0%Z.
Definition no_array (_ : list (list N * jsv)) : option (list N) := None.

(* C74: a value that is written and read again is the same, whatever the object read into held, provided its text is ASCII without
   NUL, its numbers are of 32 bits, its member names are distinct and ASCII.  Partial: not for other text (C74_text). *)
Theorem C74_round_trip_partial lenient other_number like_bytes s v old :
  js_writable s v -> proper s -> has_shape s old ->
  exists j, bind_to lenient s v = Ok j /\ bind_from lenient other_number like_bytes s j old = Ok (Some v).
Proof.
  intros W P H. destruct (all_written lenient other_number like_bytes s v (ascii_writable s v W)) as (j & E & D). rewrite (garbled_ascii s v W) in D.
  exists j. split; [exact E|]. eapply (proj1 (read_doc lenient other_number like_bytes)); eauto.
Qed.
Print Assumptions C74_round_trip_partial.

Example C74_round_trip_ex :
  bind_to junk card a_card = Ok (Obj [(bs "name", Str (bs "Ann")); (bs "tags", Arr [Num 7; Num (-1)]); (bs "key", Str (bs "AQL/")); (bs "rest", Arr [Num (-5); Arr [Num 1; Str (bs "x")]])]) /\
  js_writable card a_card /\ proper card /\ has_shape card (default card).
Proof.
  split; [vm_compute; reflexivity|]. split; [|cbn; repeat split; auto; discriminate]. cbn. repeat split; try lia; try (repeat constructor; lia).
  - repeat constructor; cbn; intuition discriminate.
Qed.

(* C74: what is written stands for the value, and everything that stands for the value is read as it: no document stands for two *)
Theorem C74_documents lenient other_number like_bytes s v :
  (js_writable s v -> exists j, bind_to lenient s v = Ok j /\ Doc s v j) /\
  (forall j old, Doc s v j -> proper s -> has_shape s old -> bind_from lenient other_number like_bytes s j old = Ok (Some v)).
Proof.
  split; [intros W; destruct (all_written lenient other_number like_bytes s v (ascii_writable s v W)) as (j & E & D); rewrite (garbled_ascii s v W) in D; eauto|]. intros. eapply (proj1 (read_doc lenient other_number like_bytes)); eauto. Qed.
Print Assumptions C74_documents.

Theorem C74_unambiguous s v v' j : Doc s v j -> Doc s v' j -> proper s -> v = v'.
Proof.
  intros D D' P. pose proof (proj1 (read_doc (fun x => x) nan no_array) s v j D P (default s) (default_shape s P)) as E.
  rewrite (proj1 (read_doc (fun x => x) nan no_array) s v' j D' P (default s) (default_shape s P)) in E. congruence.
Qed.
Print Assumptions C74_unambiguous.

(* C74: well-formed text of any characters survives exactly if all are ASCII *)
Theorem C74_text lenient other_number like_bytes l old : Forall scalar l ->
  (exists j, bind_to lenient SString (VString (utf8 l)) = Ok j /\ bind_from lenient other_number like_bytes SString j old = Ok (Some (VString (utf8 l)))) <->
  Forall (fun c => c < 128) l.
Proof. apply text_back. Qed.
Print Assumptions C74_text.

(* C74: a value with text of any characters is read again with another text, the low bytes of its units in UTF-16; nothing else is changed,
   and nothing at all exactly if all text is ASCII *)
Theorem C74_exact lenient other_number like_bytes s v old :
  js_writable_as well_formed s v -> proper s -> has_shape s old ->
  exists v', Seen v v' /\ (forall w, Seen v w -> w = v') /\ (v' = v <-> js_writable s v) /\
    exists j, bind_to lenient s v = Ok j /\ bind_from lenient other_number like_bytes s j old = Ok (Some v').
Proof.
  intros W P H. exists (garbled v). split; [now apply (garbled_seen s)|]. split; [now apply (seen_garbled s)|]. split; [split; [now apply garbled_same|apply garbled_ascii]|].
  destruct (all_written lenient other_number like_bytes s v W) as (j & E & D). exists j. split; [exact E|]. eapply (proj1 (read_doc lenient other_number like_bytes)); eauto.
Qed.
Print Assumptions C74_exact.
(* C74: the text that is written is the same text in UTF-16, and on its way it is the same in UTF-8 *)
Theorem C74_characters lenient l x u : Forall scalar l -> Utf8 l x -> Utf16 l u ->
  bind_to lenient SString (VString x) = Ok (Str u) /\ to_document (Str u) = JString x /\ from_document lenient (JString x) = Str u.
Proof.
  intros Hl U V. apply utf8_unique in U as ->; [|exact Hl]. apply utf16_unique in V as ->; [|exact Hl]. cbn [bind_to to_document from_document]. unfold utf8_to_string.
  rewrite c_str_same by now apply no_nul_utf8. unfold text_of. rewrite decode_utf8, encode_utf16 by exact Hl. auto.
Qed.
Print Assumptions C74_characters.
(* C74: and for no other text: what malformed text becomes is not looked at exactly if the text is well-formed *)
Lemma decoded_well_formed n : forall x u, (length x <= n)%nat -> utf8_decode x = Some u -> ~ In 0 x -> well_formed x.
Proof.
  assert (C : forall b, continues b = true -> exists c, b = 128 + c /\ c < 64) by (intros b H; unfold continues in H; exists (b - 128); lia).
  induction n as [|n IH]; intros [|a r] u L E Z; cbn [length] in L; try lia; try (exists []; split; [constructor|constructor]).
  assert (Ha : 0 < a) by (assert (a <> 0) by (intros ->; apply Z; now left); lia). assert (Zr : ~ In 0 r) by (intros H; apply Z; now right).
  cbn [utf8_decode] in E. destruct (N.ltb_spec a 128).
  { destruct (utf8_decode r) as [w|] eqn:Er; [|discriminate]. destruct (IH r w ltac:(lia) Er Zr) as (l & A & B). exists (a :: l). split; constructor; auto. split; lia. }
  destruct r as [|b r2]; [discriminate|]. assert (Z2 : ~ In 0 r2) by (intros X; apply Zr; now right). cbn [length] in L.
  destruct ((194 <=? a) && (a <? 224) && continues b) eqn:E2.
  { apply andb_prop in E2 as [E2 Cb]. apply andb_prop in E2 as [E2 E2']. destruct (C b Cb) as (b' & -> & Hb).
    destruct (utf8_decode r2) as [w|] eqn:Er; [|discriminate]. destruct (IH r2 w ltac:(lia) Er Z2) as (l & A & B). exists ((a - 192) * 64 + b' :: l). split.
    - constructor; [split; lia|exact A].
    - replace a with (192 + (a - 192)) at 2 by lia. apply U8_2; auto; lia. }
  destruct r2 as [|c r3]; [discriminate|]. assert (Z3 : ~ In 0 r3) by (intros X; apply Z2; now right). cbn [length] in L. cbv zeta in E.
  match type of E with (if ?t then _ else _) = _ => destruct t eqn:E3 end.
  { repeat (apply andb_prop in E3 as [E3 ?]). destruct (C b) as (b' & -> & Hb); [assumption|]. destruct (C c) as (c' & -> & Hc); [assumption|].
    destruct (utf8_decode r3) as [w|] eqn:Er; [|discriminate]. destruct (IH r3 w ltac:(lia) Er Z3) as (l & A & B). exists (((a - 224) * 64 + b') * 64 + c' :: l). split.
    - constructor; [split; lia|exact A].
    - replace a with (224 + (a - 224)) at 2 by lia. apply U8_3; auto; lia. }
  destruct r3 as [|d r4]; [discriminate|]. assert (Z4 : ~ In 0 r4) by (intros X; apply Z3; now right). cbn [length] in L.
  match type of E with (if ?t then _ else _) = _ => destruct t eqn:E4 end; [|discriminate].
  repeat (apply andb_prop in E4 as [E4 ?]). destruct (C b) as (b' & -> & Hb); [assumption|]. destruct (C c) as (c' & -> & Hc); [assumption|]. destruct (C d) as (d' & -> & Hd); [assumption|].
  destruct (utf8_decode r4) as [w|] eqn:Er; [|discriminate]. destruct (IH r4 w ltac:(lia) Er Z4) as (l & A & B). exists ((((a - 240) * 64 + b') * 64 + c') * 64 + d' :: l). split.
  - constructor; [split; lia|exact A].
  - replace a with (240 + (a - 240)) at 2 by lia. apply U8_4; auto; lia.
Qed.
Theorem C74_well_formed x : ~ In 0 x -> (well_formed x <-> forall f g, bind_to f SString (VString x) = bind_to g SString (VString x)).
Proof.
  intros Z. cbn [bind_to]. unfold utf8_to_string. rewrite c_str_same by exact Z. unfold text_of. split.
  - intros W f g. destruct (well_formed_text x W) as (u & -> & _). reflexivity.
  - intros H. destruct (utf8_decode x) as [u|] eqn:D; [eapply decoded_well_formed; eauto|]. specialize (H (fun _ => []) (fun _ => [1])). discriminate H.
Qed.
Print Assumptions C74_well_formed.
(* too long a form for a letter, half of a pair, and what is beyond the last code point *)
Example C74_malformed_ex : ~ well_formed [193; 161] /\ ~ well_formed [237; 160; 128] /\ ~ well_formed [244; 144; 128; 128] /\ well_formed [244; 143; 191; 191].
Proof.
  assert (B : forall x, ~ In 0 x -> utf8_decode x = None -> ~ well_formed x).
  { intros x Z D W. destruct (well_formed_text x W) as (u & E & _). congruence. }
  repeat split; try (apply B; [cbn; lia|reflexivity]). exists [1114111]. split; [repeat constructor; lia|]. apply (U8_4 4 15 63 63); try lia. constructor.
Qed.
(* a letter, an accent, the euro sign and a face *)
Example C74_characters_ex : let l := [97; 233; 8364; 128512] in let x := [97; 195; 169; 226; 130; 172; 240; 159; 152; 128] in let u := [97; 233; 8364; 55357; 56832] in
  Forall scalar l /\ Utf8 l x /\ Utf16 l u /\ Seen (VSeq [VString x; VInt 5]) (VSeq [VString [97; 233; 172; 61; 0]; VInt 5]).
Proof.
  cbv zeta. assert (L : Forall scalar [97; 233; 8364; 128512]) by (repeat constructor; unfold scalar; lia).
  assert (U : Utf8 [97; 233; 8364; 128512] [97; 195; 169; 226; 130; 172; 240; 159; 152; 128]).
  { apply U8_1; [lia|]. apply (U8_2 3 41); try lia. apply (U8_3 2 2 44); try lia. apply (U8_4 0 31 24 0); try lia. constructor. }
  assert (V : Utf16 [97; 233; 8364; 128512] [97; 233; 8364; 55357; 56832]).
  { do 3 (apply U16_1; [lia|]). apply (U16_2 61 512); try lia. constructor. }
  repeat split; auto. constructor. constructor; [exact (Seen_string _ _ _ L U V)|]. repeat constructor.
Qed.

(* C74 does not hold for text in general: U+00E9, C3 A9 in UTF-8, is read back as E9; U+0100 as NUL; U+1F600 as two bytes; a NUL ends the text *)
Theorem C74_text_refuted : ~ forall lenient other_number like_bytes x, exists j,
  bind_to lenient SString (VString x) = Ok j /\ bind_from lenient other_number like_bytes SString j (VString []) = Ok (Some (VString x)).
Proof.
  intros H. destruct (H junk nan no_array [195; 169]) as (j & E & F). vm_compute in E. injection E as <-. vm_compute in F. discriminate.
Qed.
Print Assumptions C74_text_refuted.

Definition there_and_back (x : list N) : throws value := let! j := bind_to junk SString (VString x) in bind_from junk nan no_array SString j (VString []).
Example C74_text_ex :
  there_and_back [195; 169] = Ok (Some (VString [233])) /\ there_and_back [196; 128] = Ok (Some (VString [0])) /\
  there_and_back [240; 159; 152; 128] = Ok (Some (VString [61; 0])) /\ there_and_back [97; 0; 98] = Ok (Some (VString [97])) /\ there_and_back (bs "plain") = Ok (Some (VString (bs "plain"))).
Proof. vm_compute. repeat split. Qed.

(* C74: reading never has undefined behaviour: it throws, or there is a value of the type.  The text in the document has less than 2^31 / 3
   characters *)
Theorem C74_any_document lenient other_number like_bytes s j old :
  bindable s -> js_doc_ok j -> has_shape s old ->
  (forall l x, like_bytes l = Some x -> all_bytes x /\ 3 * N.of_nat (length x) < 2 ^ 31) ->
  bind_from lenient other_number like_bytes s j old = Ok None \/ exists v, bind_from lenient other_number like_bytes s j old = Ok (Some v) /\ has_shape s v.
Proof.
  intros B D H L. pose proof (all_robust lenient other_number like_bytes (fun _ => None) (fun _ => 0) L s B j old D H) as R. unfold ends in R.
  destruct (bind_from lenient other_number like_bytes s j old) as [[v|]|]; [right; eauto|now left|contradiction].
Qed.
Print Assumptions C74_any_document.

(* a document that stands for no value of the type is not always refused: C74 has no converse.  A number is read as an empty string, an empty
   container, a number from a string's first "element"; missing members are 0; a variant of no known alternative keeps what it was; text that is no
   base64 leaves a buffer *)
Theorem C74_accepts_refuted : ~ forall lenient other_number like_bytes s j old v, proper s -> has_shape s old ->
  bind_from lenient other_number like_bytes s j old = Ok (Some v) -> Doc s v j.
Proof.
  intros H. specialize (H junk nan no_array SString (Num 5) (VString []) (VString []) I I eq_refl). inversion H.
Qed.
Print Assumptions C74_accepts_refuted.

Example C74_accepts_ex : let rd := bind_from junk nan no_array in
  rd SString (Num 5) (VString (bs "old")) = Ok (Some (VString [])) /\ rd (SCont SInt) (Bool true) (VCont []) = Ok (Some (VCont [])) /\
  rd (SSeq [SInt; SInt]) (Arr [Num 3]) (VSeq [VInt 8; VInt 9]) = Ok (Some (VSeq [VInt 3; VInt 0])) /\
  rd (SMap [(bs "id", SInt)]) (Obj []) (VSeq [VInt 8]) = Ok (Some (VSeq [VInt 0])) /\
  rd (SVar [SEmpty; SInt]) (Num 9) (VVar 1 (VInt 4)) = Ok (Some (VVar 1 (VInt 4))) /\
  rd (SBuffer (Some 3%nat)) (Str (bs "????")) (VBuffer [1; 2; 3]) = Ok (Some (VBuffer [1; 2; 3])) /\
  rd SUInt (Num (-1)) (VInt 0) = Ok (Some (VInt 4294967295)) /\ rd SInt (Num 4294967297) (VInt 0) = Ok (Some (VInt 1)) /\
  rd SString Null (VString []) = Ok None /\ rd (SSeq [SInt; SInt]) Undef (VSeq [VInt 8; VInt 9]) = Ok None.
Proof. vm_compute. repeat split. Qed.

(* C74: what an integer is read from other values: null and undefined are 0, true is 1; of a number 32 bits are taken, with a sign or without *)
Theorem C74_integers lenient other_number like_bytes s j old : In s [SInt; SEnum; SUInt] ->
  exists z, bind_from lenient other_number like_bytes s j old = Ok (Some (VInt z)) /\
    (if match s with SUInt => true | _ => false end then 0 <= z < 2 ^ 32 else -2 ^ 31 <= z < 2 ^ 31)%Z /\
    exists k, z = (2 ^ 32 * k + match j with Undef | Null | Bool false => 0 | Bool true => 1 | Num n => n | _ => other_number j end)%Z.
Proof.
  intros I. assert (W : forall n, (-2 ^ 31 <= wrap32 n < 2 ^ 31)%Z /\ exists k, wrap32 n = (2 ^ 32 * k + n)%Z).
  { intros n. unfold wrap32. change (2 ^ 31)%Z with 2147483648%Z. change (2 ^ 32)%Z with 4294967296%Z. pose proof (Z.mod_pos_bound n 4294967296). pose proof (Z.div_mod n 4294967296).
    destruct (Z.ltb_spec (n mod 4294967296) 2147483648); split; try lia; [exists (- (n / 4294967296))%Z|exists (- (n / 4294967296) - 1)%Z]; lia. }
  assert (T : (-2 ^ 31 <= to_int32 other_number j < 2 ^ 31)%Z /\ exists k, to_int32 other_number j = (2 ^ 32 * k + match j with Undef | Null | Bool false => 0 | Bool true => 1 | Num n => n | _ => other_number j end)%Z).
  { destruct j as [| |[]| | | | |]; cbn [to_int32]; try apply W; (split; [lia|exists 0%Z; lia]). }
  destruct T as [R (k & E)]. cbn in I. destruct I as [<-|[<-|[<-|[]]]]; cbn [bind_from]; eexists; (split; [reflexivity|]); cbv iota; [split; [exact R|now exists k]..|].
  split; [apply Z.mod_pos_bound; lia|]. exists (k - to_int32 other_number j / 4294967296)%Z. pose proof (Z.div_mod (to_int32 other_number j) 4294967296). change (2 ^ 32)%Z with 4294967296%Z in *. lia.
Qed.
Print Assumptions C74_integers.

(* an object is also read from a string or an array, which have one property that is no element: their length; the others are 0 *)
Theorem C74_length lenient other_number like_bytes names olds j n : length names = length olds -> Forall (fun x => Forall (fun c => 0 < c < 128) x) names ->
  (exists u, j = Str u /\ n = Z.of_nat (length u)) \/ (exists l, j = Arr l /\ n = Z.of_nat (length l)) -> (n < 2 ^ 31)%Z ->
  exists vs, bind_from lenient other_number like_bytes (SMap (map (fun x => (x, SInt)) names)) j (VSeq olds) = Ok (Some (VSeq vs)) /\
    Forall2 (fun x v => (x = bs "length" -> v = VInt n) /\ (x <> bs "length" -> v = VInt 0)) names vs.
Proof.
  intros L A J Hn.
  assert (G : forall names olds, length names = length olds -> Forall (fun x => Forall (fun c => 0 < c < 128) x) names ->
    exists vs, from_fields lenient (bind_from lenient other_number like_bytes) j (map (fun x => (x, SInt)) names) olds = Ok (Some vs) /\
      Forall2 (fun x v => (x = bs "length" -> v = VInt n) /\ (x <> bs "length" -> v = VInt 0)) names vs).
  { clear names olds L A. induction names as [|x names IH]; intros [|o olds] L A; try discriminate L; [exists []; auto|]. inversion A as [|? ? A1 A2]; subst.
    injection L as L. destruct (IH olds L A2) as (vs & E & F). cbn [map from_fields]. rewrite to_string_ascii by exact A1.
    assert (M : js_member x j = Some (if bytes_eqb x (bs "length") then Num n else Undef)) by (destruct J as [(u & -> & ->)|(l & -> & ->)]; reflexivity).
    rewrite M. fold (from_fields lenient (bind_from lenient other_number like_bytes) j). cbn [bind_from thenr]. rewrite E. cbn [thenr]. eexists. split; [reflexivity|]. constructor; [|exact F].
    destruct (bytes_eqb_spec x (bs "length")) as [B|B].
    - split; [intros _|congruence]. cbn [to_int32]. rewrite wrap32_id; [reflexivity|]. destruct J as [(u & _ & ->)|(l & _ & ->)]; lia.
    - split; [congruence|reflexivity]. }
  destruct (G names olds L A) as (vs & E & F). exists vs. split; [|exact F]. cbn [bind_from]. rewrite E. reflexivity.
Qed.
Print Assumptions C74_length.
Example C74_length_ex : bind_from junk nan no_array (SMap [(bs "id", SInt); (bs "length", SInt)]) (Str (bs "abc")) (VSeq [VInt 8; VInt 9]) = Ok (Some (VSeq [VInt 0; VInt 3])).
Proof. vm_compute. reflexivity. Qed.

(* a container is also read from an object that has a length: as many elements, each from the property that has its number for a name, 0 where there is none *)
Theorem C74_like_array lenient other_number like_bytes l n old : (0 <= n < 2 ^ 31)%Z -> NoDup (map fst l) -> In (bs "length", Num n) l ->
  exists vs, bind_from lenient other_number like_bytes (SCont SInt) (Obj l) old = Ok (Some (VCont vs)) /\ Z.of_nat (length vs) = n /\
    forall i v, nth_error vs i = Some v ->
      (forall z, (-2 ^ 31 <= z < 2 ^ 31)%Z -> In (RouteModel.dec (N.of_nat i), Num z) l -> v = VInt z) /\ (~ In (RouteModel.dec (N.of_nat i)) (map fst l) -> v = VInt 0).
Proof.
  intros Hn D I.
  assert (G : forall l k j, NoDup (map fst l) -> In (k, j) l -> prop k l = j).
  { clear. induction l as [|[k' j'] l IH]; intros k j D I; [contradiction|]. cbn in *. inversion D as [|? ? N1 N2]; subst. destruct (bytes_eqb_spec k k') as [->|NE].
    - destruct I as [I|I]; [congruence|]. exfalso. apply N1. now apply (in_map fst) in I.
    - destruct I as [I|I]; [congruence|]. now apply IH. }
  assert (G0 : forall l k, ~ In k (map fst l) -> prop k l = Undef).
  { clear. induction l as [|[k' j'] l IH]; intros k NI; [reflexivity|]. cbn in *. destruct (bytes_eqb_spec k k') as [->|NE]; [tauto|]. apply IH. tauto. }
  assert (W : forall z, (-2 ^ 31 <= z < 2 ^ 31)%Z -> wrap32 z = z) by (intros z Hz; apply wrap32_id; lia).
  cbn [bind_from js_length]. rewrite (G l _ _ D I). cbn [to_int32]. rewrite W by lia. destruct (Z.ltb_spec n 0); [lia|].
  set (f := fun i => VInt (to_int32 other_number (prop (RouteModel.dec (N.of_nat i)) l))).
  assert (E : forall js, from_elements (fun x => Ok (Some (VInt (to_int32 other_number x)))) (map (fun i => js_index i (Obj l)) js) = Ok (Some (map f js))).
  { induction js as [|i js IH]; [reflexivity|]. cbn [map]. change (js_index i (Obj l)) with (Some (prop (RouteModel.dec (N.of_nat i)) l)). cbn [from_elements thenr].
    fold (from_elements (fun x => Ok (Some (VInt (to_int32 other_number x))))). rewrite IH. reflexivity. }
  rewrite E. cbn [thenr]. eexists. split; [reflexivity|]. rewrite map_length, seq_length. split; [lia|]. intros i v Hv.
  rewrite nth_error_map in Hv. destruct (nth_error (seq 0 (Z.to_nat n)) i) as [i'|] eqn:Ei; [|discriminate Hv]. cbn in Hv. injection Hv as <-.
  assert (i' = i).
  { assert (Hi : (i < Z.to_nat n)%nat) by (rewrite <- (seq_length (Z.to_nat n) 0); apply nth_error_Some; congruence). apply (nth_error_nth _ _ O) in Ei. rewrite seq_nth in Ei by exact Hi. lia. }
  subst i'. unfold f. split.
  - intros z Hz Iz. rewrite (G l _ _ D Iz). cbn [to_int32]. now rewrite W.
  - intros N0. rewrite (G0 l _ N0). reflexivity.
Qed.
Print Assumptions C74_like_array.
Example C74_like_array_ex : bind_from junk nan no_array (SCont SInt) (Obj [(bs "2", Num 7); (bs "length", Num 3); (bs "0", Num 5)]) (VCont []) = Ok (Some (VCont [VInt 5; VInt 0; VInt 7])).
Proof. vm_compute. reflexivity. Qed.

(* a container is read as empty from whatever has no length: a number, true, false, an object without that member; only null and undefined throw *)
Theorem C74_no_length lenient other_number like_bytes s j old :
  (match j with Obj l => ~ In (bs "length") (map fst l) | Str _ | Arr _ => False | _ => True end) ->
  bind_from lenient other_number like_bytes (SCont s) j old = match j with Null | Undef => Ok None | _ => Ok (Some (VCont [])) end.
Proof.
  assert (G0 : forall l k, ~ In k (map fst l) -> prop k l = Undef).
  { clear. induction l as [|[k' j'] l IH]; intros k NI; [reflexivity|]. cbn in *. destruct (bytes_eqb_spec k k') as [->|NE]; [tauto|]. apply IH. tauto. }
  intros H. destruct j as [| | | | | | |l]; try contradiction; try reflexivity. cbn [bind_from js_length]. now rewrite (G0 l _ H).
Qed.
Print Assumptions C74_no_length.
Example C74_no_length_ex : map (fun j => bind_from junk nan no_array (SCont SInt) j (VCont [VInt 4])) [Num 9; Obj [(bs "0", Num 5)]; Null] = [Ok (Some (VCont [])); Ok (Some (VCont [])); Ok None].
Proof. vm_compute. reflexivity. Qed.

(* "a value that is written and read again is the same": false when two members have one name: both are read as what was written last *)
Theorem C74_names_refuted lenient other_number like_bytes n x y a b : (-2 ^ 31 <= y < 2 ^ 31)%Z ->
  exists j, bind_to lenient (SMap [(n, SInt); (n, SInt)]) (VSeq [VInt x; VInt y]) = Ok j /\
    bind_from lenient other_number like_bytes (SMap [(n, SInt); (n, SInt)]) j (VSeq [VInt a; VInt b]) = Ok (Some (VSeq [VInt y; VInt y])).
Proof.
  intros H. pose proof bytes_eqb_refl as R.
  eexists. cbn. rewrite R. split; [reflexivity|]. cbn. rewrite R. cbn. rewrite !wrap32_id by (rewrite ?wrap32_id; lia). reflexivity.
Qed.
Print Assumptions C74_names_refuted.

(* a sequence of empty members is an empty array, whatever their number *)
Theorem C74_nothing lenient l vs : length l = length vs -> Forall (fun s => s = SEmpty) l -> bind_to lenient (SSeq l) (VSeq vs) = Ok (Arr []).
Proof.
  intros L H. cbn. assert (E : to_members (bind_to lenient) l vs = Ok []) by (revert vs L; induction H as [|s l -> H IH]; intros [|v vs] L; try discriminate; [reflexivity|]; cbn in *; apply IH; lia).
  rewrite E. reflexivity.
Qed.
Print Assumptions C74_nothing.
Example C74_loose_ex : bind_from junk nan no_array SInt (Bool true) (VInt 5) = Ok (Some (VInt 1)) /\ bind_from junk nan no_array SUInt (Num (-3)) (VInt 5) = Ok (Some (VInt 4294967293)) /\
  bind_to junk (SSeq [SEmpty; SEmpty]) (VSeq [VEmpty; VEmpty]) = Ok (Arr []) /\ bind_to junk (SMap [(bs "a", SInt); (bs "a", SInt)]) (VSeq [VInt 1; VInt 2]) = Ok (Obj [(bs "a", Num 2)]).
Proof. vm_compute. repeat split. Qed.

(* C75: what a program with the JSON binder writes is read in a browser as the same value, as long as no container is empty.
   Partial: not for empty containers, text other than ASCII. *)
Theorem C75_to_browser_partial lenient other_number like_bytes s v old :
  js_writable s v -> filled s v -> proper s -> has_shape s old ->
  exists j, write s v = Ok j /\ bind_from lenient other_number like_bytes s (from_document lenient j) old = Ok (Some v).
Proof.
  intros W F P H. destruct (all_arrive lenient s v (ascii_writable s v W) F) as (j & E & D). rewrite (garbled_ascii s v W) in D. exists j. split; [exact E|]. eapply (proj1 (read_doc lenient other_number like_bytes)); eauto.
Qed.
Print Assumptions C75_to_browser_partial.

(* C75: what a browser writes is read by a program with the JSON binder as the same value, with text of any characters, as long as no unsigned
   number is 2^31 or more and no enumerator negative, into an object that has no elements yet *)
Theorem C75_from_browser_partial lenient integral_of double_of s v :
  js_writable_as well_formed s v -> small s v ->
  exists j, bind_to lenient s v = Ok j /\ read integral_of double_of s (to_document j) (default s) = Ok (Some v).
Proof. apply (all_understood lenient nan no_array). Qed.
Print Assumptions C75_from_browser_partial.

(* C75: these conditions are exact: every other value makes the reader throw, and text that is not ASCII is another one for the reader *)
Theorem C75_to_browser_exact lenient other_number like_bytes s v old : js_writable_as well_formed s v -> proper s -> has_shape s old ->
  exists j v', write s v = Ok j /\ Seen v v' /\ (v' = v <-> js_writable s v) /\
    (filled s v -> bind_from lenient other_number like_bytes s (from_document lenient j) old = Ok (Some v')) /\
    (~ filled s v -> bind_from lenient other_number like_bytes s (from_document lenient j) old = Ok None).
Proof.
  intros W P H. destruct (all_judged lenient other_number like_bytes s v W) as (j & E & D). exists j, (garbled v). split; [exact E|].
  split; [now apply (garbled_seen s)|]. split; [split; [now apply garbled_same|apply garbled_ascii]|].
  destruct (D old P H) as [(-> & F)|(-> & F)]; split; intros; auto; contradiction.
Qed.
Print Assumptions C75_to_browser_exact.
Theorem C75_from_browser_exact lenient integral_of double_of s v : js_writable_as well_formed s v ->
  exists j, bind_to lenient s v = Ok j /\
    (small s v -> read integral_of double_of s (to_document j) (default s) = Ok (Some v)) /\
    (~ small s v -> read integral_of double_of s (to_document j) (default s) = Ok None).
Proof.
  intros W. destruct (all_heard lenient nan no_array integral_of double_of s v W) as (j & E & D). exists j. split; [exact E|].
  destruct D as [(-> & F)|(-> & F)]; split; intros; auto; contradiction.
Qed.
Print Assumptions C75_from_browser_exact.
(* one empty container among others, one large number deep inside *)
Example C75_exact_ex : let s := SSeq [SString; SCont SInt; SVar [SEmpty; SUInt]] in
  let v := VSeq [VString (bs "a"); VCont [] ; VVar 1 (VInt 4294967295)] in
  js_writable s v /\ ~ filled s v /\ ~ small s v /\
  (let! j := write s v in bind_from junk nan no_array s (from_document junk j) (default s)) = Ok None /\
  (let! j := bind_to junk s v in read (fun _ => None) (fun _ => 0) s (to_document j) (default s)) = Ok None /\
  (let! j := bind_to junk s v in bind_from junk nan no_array s j (default s)) = Ok (Some v).
Proof.
  split; [|split; [|split; [|vm_compute; auto]]].
  - cbn. repeat split; try lia. repeat constructor; cbn; lia.
  - cbn. intros (_ & (N & _) & _). now apply N.
  - cbn. intros (_ & _ & N & _). lia.
Qed.

Example C75_ex : let doc := JObject [(bs "name", JString (bs "Ann")); (bs "tags", JArray [JInt 7]); (bs "key", JString (bs "AQL/")); (bs "rest", JArray [JInt (-5); JArray [JInt 1; JString (bs "x")]])] in
  write card small_card = Ok doc /\ (let! j := bind_to junk card small_card in Ok (to_document j)) = Ok doc /\
  js_writable card small_card /\ small card small_card /\ filled card small_card.
Proof.
  split; [vm_compute; reflexivity|]. split; [vm_compute; reflexivity|]. split; [|split].
  - cbn. repeat split; try lia; try (repeat constructor; lia). repeat constructor; cbn; intuition discriminate.
  - cbn. repeat split; lia.
  - cbn. repeat split; discriminate.
Qed.

(* C75 does not hold in general: an empty container is null for the JSON binder and null has no length.  What the browser
   writes for it both read *)
Theorem C75_empty_container_refuted lenient other_number like_bytes integral_of double_of s old : 
  exists j, write (SCont s) (VCont []) = Ok j /\ bind_from lenient other_number like_bytes (SCont s) (from_document lenient j) old = Ok None /\
  exists j', bind_to lenient (SCont s) (VCont []) = Ok j' /\ bind_from lenient other_number like_bytes (SCont s) j' old = Ok (Some (VCont [])) /\
  read integral_of double_of (SCont s) (to_document j') (VCont []) = Ok (Some (VCont [])).
Proof. eexists. repeat split. eexists. repeat split; reflexivity. Qed.
Print Assumptions C75_empty_container_refuted.

(* large unsigned numbers of a browser are refused: they are written with a sign *)
Theorem C75_unsigned_refuted lenient integral_of double_of z : (2 ^ 31 <= z < 2 ^ 32)%Z ->
  exists j, bind_to lenient SUInt (VInt z) = Ok j /\ read integral_of double_of SUInt (to_document j) (VInt 0) = Ok None.
Proof.
  intros H. eexists. split; [reflexivity|]. cbn [to_document read].
  destruct (as_uint integral_of (JInt (wrap32 z))) as [y|] eqn:E; [|reflexivity]. apply as_uint_iff in E as [N1 R]. unfold wrap32 in N1.
  destruct (Z.ltb_spec (z mod 4294967296) 2147483648); destruct N1 as [N1|(d & N1 & _)]; try discriminate; injection N1 as N1; lia.
Qed.
Print Assumptions C75_unsigned_refuted.

(* text other than ASCII is right in the document and wrong in the browser: the same text in both programs has different bytes *)
Theorem C75_text_refuted : exists x j, write SString (VString x) = Ok j /\
  from_document junk j = Str [233] /\ bind_from junk nan no_array SString (from_document junk j) (VString []) = Ok (Some (VString [233])) /\ x = utf8 [233] /\ x <> [233].
Proof. exists [195; 169], (JString [195; 169]). vm_compute. repeat split. discriminate. Qed.
Print Assumptions C75_text_refuted.

(* two negative enumerators, one refused on the way *)
Example C75_enum_ex : bind_to junk SEnum (VInt (-1)) = Ok (Num (-1)) /\ read (fun _ => None) (fun _ => 0) SEnum (to_document (Num (-1))) (VInt 0) = Ok None /\
  write SEnum (VInt (-1)) = Ok (JInt (-1)) /\ bind_from junk nan no_array SEnum (from_document junk (JInt (-1))) (VInt 0) = Ok (Some (VInt (-1))).
Proof. vm_compute. repeat split. Qed.
