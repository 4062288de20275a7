(* C24, C25: the hash and the handshake response. *)
From Coq Require Import String.
From Verif Require Import Base Base64Model Base64Spec Base64Props HandshakeModel HandshakeSpec HandshakeProofs HandshakeProps ShaModel ShaSpec ShaProofs.
Open Scope N_scope.

(* C24.  However the message is fed, the digest is SHA-1 of the whole; what the buffer held before does not matter. *)
Theorem C24_sha1 : forall chunks b, length b = 64%nat -> all_bytes (concat chunks) -> N.of_nat (length (concat chunks)) < 2 ^ 61 ->
  finish (fold_left update chunks (init b)) = sha1 (concat chunks).
Proof. intros chunks b Hb HB HL. apply finish_fed; auto. apply (updates_fed chunks (init b) []); auto. now apply init_fed. Qed.
Print Assumptions C24_sha1.

Theorem C24_split_independent : forall chunks chunks' b b', length b = 64%nat -> length b' = 64%nat -> all_bytes (concat chunks) -> N.of_nat (length (concat chunks)) < 2 ^ 61 ->
  concat chunks = concat chunks' -> finish (fold_left update chunks (init b)) = finish (fold_left update chunks' (init b')).
Proof. intros c c' b b' Hb Hb' HB HL E. rewrite !C24_sha1; rewrite <- ?E; auto. Qed.
Print Assumptions C24_split_independent.

(* the padding of the specification: whole blocks, and no fewer zeros would do *)
Theorem C24_padding : forall m, exists k,
  pad m = m ++ [128] ++ repeat 0 k ++ be64 (8 * N.of_nat (length m)) /\ N.of_nat (length (pad m)) mod 64 = 0 /\
  (forall j, (j < k)%nat -> N.of_nat (length (m ++ [128] ++ repeat 0 j ++ be64 (8 * N.of_nat (length m)))) mod 64 <> 0).
Proof.
  intros m. exists (N.to_nat ((119 - N.of_nat (length m) mod 64) mod 64)). split; [reflexivity|]. unfold pad. split.
  - rewrite !app_length, repeat_length. change (length (be64 (8 * N.of_nat (length m)))) with 8%nat. cbn [length]. lia.
  - intros j Hj. rewrite !app_length, repeat_length. change (length (be64 (8 * N.of_nat (length m)))) with 8%nat. cbn [length]. lia.
Qed.
Print Assumptions C24_padding.

(* "abc"; two blocks of input in three pieces (FIPS 180-2, appendices A.1 and A.2) *)
Example C24_ex : finish (update (update (init (repeat 7 64)) (bs "ab")) (bs "c"))
  = [0xa9; 0x99; 0x3e; 0x36; 0x47; 0x06; 0x81; 0x6a; 0xba; 0x3e; 0x25; 0x71; 0x78; 0x50; 0xc2; 0x6c; 0x9c; 0xd0; 0xd8; 0x9d].
Proof. vm_compute. reflexivity. Qed.
Example C24_ex2 : sha1 (bs "abcdbcdecdefdefgefghfghighijhijkijkljklmklmnlmnomnopnopq")
  = [0x84; 0x98; 0x3e; 0x44; 0x1c; 0x3b; 0xd2; 0x6e; 0xba; 0xae; 0x4a; 0xa1; 0xf9; 0x51; 0x29; 0xe5; 0xe5; 0x46; 0x70; 0xf1].
Proof. vm_compute. reflexivity. Qed.
Example C24_ex3 : sha1 [] = [0xda; 0x39; 0xa3; 0xee; 0x5e; 0x6b; 0x4b; 0x0d; 0x32; 0x55; 0xbf; 0xef; 0x95; 0x60; 0x18; 0x90; 0xaf; 0xd8; 0x07; 0x09].
Proof. vm_compute. reflexivity. Qed.

Lemma sha1_bytes m : all_bytes (sha1 m) /\ length (sha1 m) = 20%nat.
Proof.
  unfold sha1. set (H := fold_left compress _ H0). generalize H. clear H. intros H. split; [|reflexivity].
  assert (B : forall x, all_bytes (be32 x)).
  { intros x. apply Forall_forall. intros c Hc. unfold be32 in Hc. apply in_map_iff in Hc as (k & <- & _). unfold is_byte.
    change 255 with (N.ones 8). rewrite N.land_ones. apply N.mod_lt. discriminate. }
  repeat (apply Forall_app; split); apply B.
Qed.

(* C25.  The token for any key is the base64 text of SHA-1 of key and GUID (RFC 6455, 4.2.2). *)
Theorem C25_accept_token : forall key, all_bytes key -> N.of_nat (length key) < 2 ^ 60 ->
  exists s, generate_accept_token key = Ok s /\ IsEncoding (sha1 (key ++ bs "258EAFA5-E914-47DA-95CA-C5AB0DC85B11")) s /\ length s = 28%nat.
Proof.
  intros key HB HL. unfold generate_accept_token.
  assert (E : finish (update (update (init (repeat 0 64)) key) guid) = sha1 (key ++ guid)).
  { change (update (update (init (repeat 0 64)) key) guid) with (fold_left update [key; guid] (init (repeat 0 64))).
    rewrite C24_sha1; cbn [concat]; rewrite ?app_nil_r; auto.
    - apply Forall_app. split; [auto|]. unfold guid, is_byte. apply Forall_forall. intros c Hc. cbn in Hc. repeat (destruct Hc as [<-|Hc]; [vm_compute; reflexivity|]). contradiction.
    - rewrite app_length. change (length guid) with 36%nat. change (2 ^ 60) with 1152921504606846976 in HL. change (2 ^ 61) with 2305843009213693952. lia. }
  rewrite E. destruct (sha1_bytes (key ++ guid)) as [B L].
  destruct (C02_base64_encode_is_rfc4648 (sha1 (key ++ guid)) B) as (s & E1 & E2 & _ & E4); [rewrite L; vm_compute; reflexivity|].
  exists s. split; [exact E1|]. split; [exact E2|]. rewrite L in E4. change (4 * ((N.of_nat 20 + 2) / 3)) with 28 in E4. lia.
Qed.
Print Assumptions C25_accept_token.

(* The response to the client's key is what the client expects, and nothing of what follows it is consumed. *)
Theorem C25_client_accepts : forall cookies after, exists response,
  handshake_response (mk_info (bs "dGhlIHNhbXBsZSBub25jZQ==") cookies) = Ok response /\ parse_handshake_response (response ++ after) = inl after.
Proof.
  intros c after. eexists. split; [vm_compute; reflexivity|]. unfold parse_handshake_response. apply expect_app.
Qed.
Print Assumptions C25_client_accepts.

(* the whole handshake: the server understands the request, and the client its response *)
Theorem C25_handshake : forall origin token reads after,
  ~ In 10 origin -> (length origin <= 247)%nat -> ~ In 10 token -> ~ In 59 token -> (length token <= 234)%nat ->
  (length (handshake_request origin token) <= length reads)%nat ->
  exists info response,
    parse_handshake_request reads (handshake_request origin token) = Resolved info crlf []
    /\ get_auth_token (cookies info) = Some (token, false)
    /\ handshake_response info = Ok response /\ parse_handshake_response (response ++ after) = inl after.
Proof.
  intros o t reads after H1 H2 H3 H4 H5 H6. destruct (C22_request_understood_partial o t reads H1 H2 H3 H4 H5 H6) as (info & E & K & T).
  destruct info as [k c]. cbn [websocket_key] in K. subst k. destruct (C25_client_accepts c after) as (r & R1 & R2). eauto 7.
Qed.
Print Assumptions C25_handshake.

(* a peer that answers anything else is refused *)
Theorem C25_client_refuses : forall input rest, parse_handshake_response input = inl rest ->
  exists response, handshake_response (mk_info (bs "dGhlIHNhbXBsZSBub25jZQ==") []) = Ok response /\ input = response ++ rest.
Proof.
  intros input rest H. eexists. split; [vm_compute; reflexivity|]. unfold parse_handshake_response, expect_equal in H.
  set (e := bs "HTTP/1.1 101 Switching Protocols" ++ _) in H. destruct (Nat.ltb (length input) (length e)); [discriminate|].
  destruct (bytes_eqb_spec e (firstn (length e) input)) as [E|]; [|discriminate]. injection H as <-.
  rewrite <- (firstn_skipn (length e) input) at 1. rewrite <- E. reflexivity.
Qed.
Print Assumptions C25_client_refuses.

Example C25_ex : generate_accept_token (bs "dGhlIHNhbXBsZSBub25jZQ==") = Ok (bs "s3pPLMBiTxaQ9kYGzzhZRbK+xOo=").
Proof. vm_compute. reflexivity. Qed.
Example C25_other_key : exists r, handshake_response (mk_info (bs "x3JJHMbDL1EzLkh9GBhXDw==") []) = Ok r /\ parse_handshake_response r = inr RejectBadRequest.
Proof. eexists. split; vm_compute; reflexivity. Qed.
