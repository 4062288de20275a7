(* Properties C05-C11 (WebSocket framing). *)
From Coq Require Import String.
From Verif Require Import Base WsModel WsSpec WsProofs.
Open Scope N_scope.

(* ---- C05. Full statement: for every n < 2^63 the header written for n is the minimal RFC 6455 header
   and the reader computes n from it.  The second half is false for n >= 65536. *)
Theorem C05_length_header_partial :
  forall n, n < 2 ^ 63 ->
  exists c ext, encoded_length_buffer n = c :: ext /\ LenHeader n c ext /\
    (forall maskbit, maskbit = 0 \/ maskbit = 128 ->
       n < 65536 -> get_payload_length (c + maskbit) ext = Ok n).
Proof.
  intros n Hn. destruct (encoded_length_spec n Hn) as (c & ext & E & H). exists c, ext.
  split; [exact E|]. split; [exact H|]. intros m Hm Hl. apply (payload_length_ok n c); [exact H|exact Hl|lia].
Qed.
Print Assumptions C05_length_header_partial.

Theorem C05_length_header_refuted :
  forall n, 65536 <= n -> n < 2 ^ 63 ->
  exists c ext, encoded_length_buffer n = c :: ext /\ get_payload_length c ext = UB.
Proof.
  intros n Hl Hn. destruct (encoded_length_spec n Hn) as (c & ext & E & H). exists c, ext.
  split; [exact E|]. apply (payload_length_64_undefined n c); auto.
Qed.
Print Assumptions C05_length_header_refuted.

Example C05_ex : encoded_length_buffer 300 = [126; 1; 44] /\ get_payload_length 126 [1; 44] = Ok 300.
Proof. split; vm_compute; reflexivity. Qed.
Example C05_ex_64 : encoded_length_buffer 65536 = [127; 0; 0; 0; 0; 0; 1; 0; 0].
Proof. vm_compute; reflexivity. Qed.

(* ---- C06. Full statement: for every frame size, opcode and payload,
     exists ws fs, send_message maxf op p = Some ws /\ Forall2 FrameBytes fs ws /\ Fragmentation op p fs.
   It fails exactly when the length is a positive multiple of the frame size. *)
Theorem C06_fragmentation_partial :
  forall maxf op p, (0 < maxf)%nat -> op < 16 -> N.of_nat (length p) < 2 ^ 63 ->
    (length p mod maxf <> 0 \/ length p = 0)%nat ->
    exists ws fs, send_message maxf op p = Some ws /\ Forall2 FrameBytes fs ws /\
      Fragmentation op p fs /\
      Forall (fun f => mask f = None /\ (length (body f) <= maxf)%nat) fs.
Proof.
  intros maxf op p Hm Ho Hl Hmod. destruct (send_message_spec maxf op p Hm Ho Hl) as (ws & fs & E & HF & HO).
  exists ws, fs. split; [exact E|]. split; [exact HF|].
  split; [exact (frags_fragmentation _ _ _ _ HO Hmod)|exact (proj1 (proj2 HO))].
Qed.
Print Assumptions C06_fragmentation_partial.

(* For positive multiples the same frames are written, but none of them carries FIN. *)
Theorem C06_fragmentation_refuted :
  forall maxf op p, (0 < maxf)%nat -> op < 16 -> N.of_nat (length p) < 2 ^ 63 ->
    (length p mod maxf = 0 /\ length p <> 0)%nat ->
    exists ws fs, send_message maxf op p = Some ws /\ Forall2 FrameBytes fs ws /\
      concat (map body fs) = p /\ Forall (fun f => fin f = false) fs.
Proof.
  intros maxf op p Hm Ho Hl [Hz Hn]. destruct (send_message_spec maxf op p Hm Ho Hl) as (ws & fs & E & HF & H1 & _ & _ & H4).
  exists ws, fs. split; [exact E|]. split; [exact HF|]. split; [exact H1|].
  rewrite Hz, Nat.eqb_refl in H4. destruct (Nat.eqb_spec (length p) 0); [contradiction|]. exact H4.
Qed.
Print Assumptions C06_fragmentation_refuted.

Example C06_ex : send_message 3 1 (bs "abcd") = Some [[1; 3; 97; 98; 99]; [128; 1; 100]].
Proof. vm_compute; reflexivity. Qed.
Example C06_ex_empty : send_message default_max_frame 2 [] = Some [[130; 0]].
Proof. vm_compute; reflexivity. Qed.
Example C06_ex_multiple : send_message default_max_frame 1 (repeat 97 125) = Some [1 :: 125 :: repeat 97 125].
Proof. vm_compute; reflexivity. Qed.

(* ---- C07. Full statement: for every list of messages the reader delivers exactly that list.
   Missing: messages whose length is a positive multiple of the frame size (see the refutation). *)
(* a short text, binary or closing message is one final frame of RFC 6455's opcode 1, 2 or 8 without a mask; there is nothing else
   on the wire *)
Theorem C06_short : forall p, (length p < 125)%nat ->
  send_message default_max_frame op_text p = Some [129 :: N.of_nat (length p) :: p] /\
  send_message default_max_frame op_binary p = Some [130 :: N.of_nat (length p) :: p] /\
  send_message default_max_frame op_close p = Some [136 :: N.of_nat (length p) :: p].
Proof.
  intros p H. unfold send_message, default_max_frame. cbn [send_message_impl]. apply Nat.ltb_lt in H as H'. rewrite H'. unfold send_frame.
  assert (E : encoded_length_buffer (N.of_nat (length p)) = [N.of_nat (length p)]).
  { unfold encoded_length_buffer. destruct (N.ltb_spec (N.of_nat (length p)) 126) as [L|L]; [|lia]. unfold to_u8. rewrite N.mod_small by lia. reflexivity. }
  rewrite E. repeat split.
Qed.
Print Assumptions C06_short.

Theorem C07_sender_to_reader_partial :
  forall maxf ms, 0 < N.of_nat maxf < 65536 ->
    Forall (fun m => fst m <= 2 /\ N.of_nat (length (snd m)) < 2 ^ 63 /\
                     (length (snd m) mod maxf <> 0 \/ length (snd m) = 0)%nat) ms ->
    exists w, send_all maxf ms = Some w /\
              messages (fst (run w)) = map snd ms /\ snd (run w) = Waiting.
Proof. exact sender_reader. Qed.
Print Assumptions C07_sender_to_reader_partial.

Theorem C07_sender_to_reader_refuted :
  forall maxf op1 p1 op2 p2,
    0 < N.of_nat maxf < 65536 -> op1 <= 2 -> op2 <= 2 ->
    N.of_nat (length p1) < 2 ^ 63 -> N.of_nat (length p2) < 2 ^ 63 ->
    (length p1 mod maxf = 0 /\ length p1 <> 0)%nat -> (length p2 mod maxf <> 0 \/ length p2 = 0)%nat ->
    exists w1 w, send_all maxf [(op1, p1)] = Some w1 /\ messages (fst (run w1)) = [] /\
      send_all maxf [(op1, p1); (op2, p2)] = Some w /\ messages (fst (run w)) = [p1 ++ p2].
Proof. exact sender_reader_merge. Qed.
Print Assumptions C07_sender_to_reader_refuted.

Example C07_ex :
  match send_all default_max_frame [(1, repeat 97 300); (2, bs "hi"); (1, [])] with
  | Some w => messages (fst (run w)) = [repeat 97 300; bs "hi"; []]
  | None => False
  end.
Proof. vm_compute; reflexivity. Qed.
Example C07_ex_merge :
  match send_all default_max_frame [(1, repeat 97 250); (1, bs "b")] with
  | Some w => messages (fst (run w)) = [repeat 97 250 ++ bs "b"]
  | None => False
  end.
Proof. vm_compute; reflexivity. Qed.

(* In general: what is read is what was sent, but for such messages, which are put before the next one; so all of them arrive exactly if there are none *)
Theorem C07_exact : forall maxf ms, 0 < N.of_nat maxf < 65536 -> Forall (fun m => fst m <= 2 /\ N.of_nat (length (snd m)) < 2 ^ 63) ms ->
  exists w, send_all maxf ms = Some w /\ messages (fst (run w)) = merged maxf [] (map snd ms) /\ snd (run w) = Waiting.
Proof. exact sender_reader_exact. Qed.
Print Assumptions C07_exact.
Theorem C07_iff : forall maxf ms, 0 < N.of_nat maxf < 65536 -> Forall (fun m => fst m <= 2 /\ N.of_nat (length (snd m)) < 2 ^ 63) ms ->
  exists w, send_all maxf ms = Some w /\
    (messages (fst (run w)) = map snd ms <-> Forall (fun m => (length (snd m) mod maxf <> 0 \/ length (snd m) = 0)%nat) ms).
Proof.
  intros maxf ms H F. destruct (sender_reader_exact maxf ms H F) as (w & E & M & _). exists w. split; [exact E|]. rewrite M, merged_same. apply Forall_map.
Qed.
Print Assumptions C07_iff.
Example C07_exact_ex : merged 3 [] [bs "abc"; bs "defghi"; bs "j"; []; bs "klm"] = [bs "abcdefghij"; []] /\
  match send_all 3 [(1, bs "abc"); (1, bs "defghi"); (2, bs "j"); (1, []); (1, bs "klm")] with
  | Some w => messages (fst (run w)) = [bs "abcdefghij"; []]
  | None => False
  end.
Proof. split; vm_compute; reflexivity. Qed.

(* ---- C08. Full statement: as below without the restriction on the masks of continuation frames. *)
Theorem C08_masked_frames_partial :
  forall (ms : list (N * list N * list frame)) w,
  Forall (fun m => let '(op, p, fs) := m in
            op <= 2 /\ Fragmentation op p fs /\
            Forall (fun f => N.of_nat (length (body f)) < 65536) fs /\
            Forall (fun f => mask f = None) (tl fs)) ms ->
  WireBytes (concat (map snd ms)) w ->
  messages (fst (run w)) = map (fun m => snd (fst m)) ms /\ snd (run w) = Waiting.
Proof. exact reader_messages. Qed.
Print Assumptions C08_masked_frames_partial.

Definition frag (b : bool) (op : N) (k : option (list N)) (p : list N) : frame :=
  {| fin := b; opcode := op; mask := k; body := p |}.

Theorem C08_masked_frames_refuted :
  exists fs w, Fragmentation 1 (bs "abcd") fs /\ WireBytes fs w /\
    Forall (fun f => mask f = Some [1; 2; 3; 4]) fs /\
    fst (run w) = [EvMessage [96; 96; 98; 102]].
Proof.
  pose (k := Some [1; 2; 3; 4]).
  exists [frag false 1 k (bs "ab"); frag true 0 k (bs "cd")],
         ([1; 130; 1; 2; 3; 4; 96; 96] ++ [128; 130; 1; 2; 3; 4; 98; 102] ++ []).
  split.
  { exists [frag false 1 k (bs "ab")], (frag true 0 k (bs "cd")). repeat split; repeat constructor. }
  split.
  { constructor; [|constructor; [|constructor]].
    - split; [reflexivity|]. exists 2, []. split; [split; [constructor|left; cbn; repeat split; lia]|].
      cbn. repeat split; repeat constructor.
    - split; [reflexivity|]. exists 2, []. split; [split; [constructor|left; cbn; repeat split; lia]|].
      cbn. repeat split; repeat constructor. }
  split; [repeat constructor|vm_compute; reflexivity].
Qed.
Print Assumptions C08_masked_frames_refuted.

Example C08_ex : fst (run ([129; 130; 1; 2; 3; 4; 96; 96] ++ [1; 129; 9; 9; 9; 9; 104] ++ [128; 1; 98]))
  = [EvMessage (bs "ab"); EvMessage (bs "ab")].
Proof. vm_compute; reflexivity. Qed.

(* In general: the mask of a frame is taken off the first bytes of the message so far, and the frame's own bytes stay masked if they are not there *)
Theorem C08_exact : forall fs w, WireBytes fs w -> Forall readable fs -> messages (fst (run w)) = garbled [] fs /\ snd (run w) = Waiting.
Proof.
  intros fs w HW HR. destruct (reader_exact fs w HW HR [] []) as (evs & E & M & _). rewrite app_nil_r in E. unfold run. rewrite E, run_from_nil. cbn [fst snd]. rewrite app_nil_r. auto.
Qed.
Print Assumptions C08_exact.
(* so of a message in two frames, the second one masked, the first byte arrives with the first byte of the key on it *)
Theorem C08_first_byte_refuted : forall op a p b q key fs w, op <= 2 -> N.of_nat (length (a :: p)) < 65536 -> N.of_nat (length (b :: q)) < 65536 ->
  fs = [{| fin := false; opcode := op; mask := None; body := a :: p |}; {| fin := true; opcode := 0; mask := Some key; body := b :: q |}] -> WireBytes fs w ->
  Fragmentation op ((a :: p) ++ b :: q) fs /\ exists r, messages (fst (run w)) = [N.lxor a (nth 0 key 0) :: r].
Proof.
  intros op a p b q key fs w Ho Ha Hb -> HW. split.
  - eexists [_], _. split; [reflexivity|]. split; [cbn; now rewrite app_nil_r|]. repeat split; repeat constructor.
  - destruct (C08_exact _ _ HW) as [E _].
    + constructor; [split; [exact Ha|left; apply N.leb_le; exact Ho]|]. constructor; [|constructor]. split; [exact Hb|left; reflexivity].
    + rewrite E. cbn [garbled is_data opcode fin]. unfold is_data. cbn [opcode]. destruct (N.leb_spec op 2); [|lia]. change (0 <=? 2) with true. cbv iota. unfold grown. cbn [mask body]. unfold masked at 1. cbn [firstn length app seq combine map fst snd]. eexists. reflexivity.
Qed.
Print Assumptions C08_first_byte_refuted.
Example C08_exact_ex : garbled [] [frag false 1 (Some [1; 2; 3; 4]) (bs "ab"); frag true 0 (Some [1; 2; 3; 4]) (bs "cd")] = [[96; 96; 98; 102]].
Proof. vm_compute. reflexivity. Qed.

(* ---- C09. Full statement: the same with arbitrary payloads in the ping and pong frames. *)
Theorem C09_control_frames_partial :
  forall fs w wd, WireBytes fs w -> safe [] fs -> WireBytes (filter is_data fs) wd ->
    messages (fst (run w)) = messages (fst (run wd)) /\
    messages (fst (run w)) = delivered [] fs /\ snd (run w) = Waiting.
Proof.
  intros fs w wd HW HS HD. destruct (reader_delivers fs w HW HS) as [E1 E2].
  destruct (reader_delivers _ wd HD (filter_safe fs [] HS)) as [E3 _].
  rewrite E1, E3, filter_delivered. auto.
Qed.
Print Assumptions C09_control_frames_partial.

(* A ping with payload "hi" is left in the stream: 'h' is then taken for a close frame header. *)
Theorem C09_control_frames_refuted :
  exists ping wping text wtext,
    FrameBytes ping wping /\ opcode ping = 9 /\ FrameBytes text wtext /\
    messages (fst (run wtext)) = [body text] /\ messages (fst (run (wping ++ wtext))) = [].
Proof.
  exists (frag true 9 None (bs "hi")), [137; 2; 104; 105], (frag true 1 None (bs "x")), [129; 1; 120].
  split; [split; [reflexivity|]; exists 2, []; split; [split; [constructor|left; cbn; repeat split; lia]|reflexivity]|].
  split; [reflexivity|].
  split; [split; [reflexivity|]; exists 1, []; split; [split; [constructor|left; cbn; repeat split; lia]|reflexivity]|].
  split; vm_compute; reflexivity.
Qed.
Print Assumptions C09_control_frames_refuted.

Example C09_ex : safe [] [frag false 1 None (bs "a"); frag true 9 (Some [1;2;3;4]) []; frag true 0 None (bs "b")] /\
  fst (run ([1; 1; 97] ++ [137; 128; 1; 2; 3; 4] ++ [128; 1; 98])) = [EvPing (bs "a"); EvMessage (bs "ab")].
Proof. split; [|vm_compute; reflexivity]. cbn. unfold frame_safe. cbn. repeat split; try lia; try congruence; auto. Qed.

(* In general: a ping or pong is told, and its payload is read as if it were frames, by the reader that has what it had before *)
Theorem C09_exact : forall fs w f wf rest, WireBytes fs w -> Forall readable fs -> FrameBytes f wf -> opcode f = 9 \/ opcode f = 10 ->
  exists evs, messages evs = garbled [] fs /\
    run (w ++ wf ++ rest) = (evs ++ (if opcode f =? 9 then EvPing (unfinished [] fs) else EvPong) :: fst (run_from (unfinished [] fs) (sent_body f ++ rest)),
                             snd (run_from (unfinished [] fs) (sent_body f ++ rest))).
Proof.
  intros fs w f wf rest HW HR HF Ho. destruct (reader_exact fs w HW HR [] (wf ++ rest)) as (evs & E & M & _). exists evs. split; [exact M|]. unfold run. rewrite E.
  rewrite (run_from_next _ _ _ _ _ (turn_control (unfinished [] fs) f wf rest HF Ho)). reflexivity.
Qed.
Print Assumptions C09_exact.
(* so what a peer puts into a ping is taken for what it sends: a text frame in it is delivered as a message *)
Theorem C09_ping_message_refuted : forall op m wm key wf rest, op <= 2 -> N.of_nat (length m) < 65536 -> FrameBytes {| fin := true; opcode := op; mask := key; body := m |} wm ->
  FrameBytes {| fin := true; opcode := 9; mask := None; body := wm |} wf ->
  run (wf ++ rest) = (EvPing [] :: EvMessage m :: fst (run rest), snd (run rest)).
Proof.
  intros op m wm key wf rest Ho Hl HM HF. unfold run. rewrite (run_from_next _ _ _ _ _ (turn_control [] _ wf rest HF (or_introl eq_refl))). unfold sent_body. cbn [mask body opcode].
  pose proof (turn_data [] _ wm rest HM Hl) as T. unfold is_data in T. cbn [opcode fin] in T. specialize (T (proj2 (N.leb_le _ _) Ho)). rewrite (run_from_next _ _ _ _ _ T). cbn [fst snd app].
  change (9 =? 9) with true. cbv iota. now rewrite grown_nil.
Qed.
Print Assumptions C09_ping_message_refuted.
Example C09_ping_message_ex : fst (run ([137; 3] ++ [129; 1; 120] ++ [129; 1; 121])) = [EvPing []; EvMessage (bs "x"); EvMessage (bs "y")].
Proof. vm_compute. reflexivity. Qed.

(* ---- C10: nothing happens after a terminal event. *)
Theorem C10_stops_at_terminal_event :
  (* once stopped, further input (or a further transport error) has no effect *)
  (forall s x, snd (run s) = Stopped -> run (s ++ x) = run s /\ run_then_error (s ++ x) = run s) /\
  (* a terminal event is always the last one, and is there exactly if the reader stopped *)
  (forall s, match snd (run s) with
             | Stopped => exists evs e, fst (run s) = evs ++ [e] /\ terminal e = true /\
                            forallb (fun e => negb (terminal e)) evs = true
             | _ => forallb (fun e => negb (terminal e)) (fst (run s)) = true
             end) /\
  (* close frames and reserved opcodes stop it, after delivering everything complete before *)
  (forall fs w g wg x, WireBytes fs w -> safe [] fs -> FrameBytes g wg ->
     (opcode g = 8 -> N.of_nat (length (body g)) < 65536 ->
        exists evs, run (w ++ wg ++ x) = (evs ++ [EvClose (body g)], Stopped) /\ messages evs = delivered [] fs) /\
     (3 <= opcode g <= 7 \/ 11 <= opcode g ->
        exists evs, run (w ++ wg ++ x) = (evs ++ [EvBadInput], Stopped) /\ messages evs = delivered [] fs)) /\
  (* a read that fails while the reader waits is told, once and as the last *)
  (forall s, snd (run s) = WsModel.Waiting -> run_then_error s = (fst (run s) ++ [EvError], Stopped)).
Proof.
  split; [|split; [exact run_terminal_last|split; [exact terminal_frame|]]].
  2: { intros s H. unfold run_then_error. destruct (run s) as [evs st]. cbn in *. now subst st. }
  intros s x Hs. destruct (run_prefix s x) as [[Hw _]|[_ E]]; [congruence|].
  split; [exact E|]. unfold run_then_error. rewrite E. destruct (run s) as [evs st]. cbn in Hs. subst st. reflexivity.
Qed.
Print Assumptions C10_stops_at_terminal_event.

Example C10_ex : run ([129; 1; 120] ++ [136; 2; 3; 232] ++ [129; 1; 121]) = ([EvMessage (bs "x"); EvClose [3; 232]], Stopped).
Proof. vm_compute; reflexivity. Qed.

(* ---- C11: received bytes determine a prefix of all later events. *)
Theorem C11_causal :
  forall s x, exists more, fst (run (s ++ x)) = fst (run s) ++ more.
Proof.
  intros s x. destruct (run_prefix s x) as [[_ H]|[_ E]]; [exact H|].
  exists []. rewrite E, app_nil_r. reflexivity.
Qed.
Print Assumptions C11_causal.

Example C11_ex : fst (run [129; 1; 120; 129]) = [EvMessage [120]] /\
                 fst (run ([129; 1; 120; 129] ++ [1; 121])) = [EvMessage [120]; EvMessage [121]].
Proof. split; vm_compute; reflexivity. Qed.
