(* C20 - C23: cookies and the handshake request. *)
From Coq Require Import String.
From Verif Require Import Base HandshakeModel HandshakeSpec HandshakeProofs.
Open Scope N_scope.

(* C20.  The token is the value of the first nbdl_auth cookie that is not empty; the end of the header is dereferenced exactly
   when there is none. *)
Theorem C20_auth_token : forall l, Forall cookie_ok l ->
  get_auth_token (cookie_header l) =
    match find (fun c => bytes_eqb (fst c) (bs "nbdl_auth") && negb (bytes_eqb (snd c) [])) l with
    | Some c => Some (snd c, false)
    | None => Some ([], match l with [] => false | _ => true end)
    end.
Proof. intros l H. apply auth_loop_spec; auto. Qed.
Print Assumptions C20_auth_token.

Theorem C20_auth_token_partial : forall l, Forall cookie_ok l -> (forall c, In c l -> fst c = bs "nbdl_auth" -> snd c <> []) ->
  exists past_end, get_auth_token (cookie_header l) = Some (cookie_value (bs "nbdl_auth") l, past_end).
Proof.
  intros l H Hne. rewrite C20_auth_token by auto. unfold cookie_value.
  assert (E : find (fun c => bytes_eqb (fst c) (bs "nbdl_auth") && negb (bytes_eqb (snd c) [])) l = find (fun c => bytes_eqb (fst c) (bs "nbdl_auth")) l).
  { clear H. induction l as [|c l IH]; auto. cbn [find]. destruct (bytes_eqb_spec (fst c) (bs "nbdl_auth")) as [E|E].
    - destruct (bytes_eqb_spec (snd c) []) as [E'|E']; [exfalso; apply (Hne c); cbn; auto|reflexivity].
    - apply IH. intros c' Hc. apply Hne. now right. }
  rewrite E. destruct (find (fun c => bytes_eqb (fst c) (bs "nbdl_auth")) l); eauto.
Qed.
Print Assumptions C20_auth_token_partial.

(* the same without the side condition is false *)
Theorem C20_auth_token_refuted : ~ (forall l, Forall cookie_ok l -> exists past_end, get_auth_token (cookie_header l) = Some (cookie_value (bs "nbdl_auth") l, past_end)).
Proof.
  intros H. destruct (H [(bs "nbdl_auth", []); (bs "nbdl_auth", bs "evil")]) as [p E].
  - repeat constructor; cbn; try (intuition discriminate); intros []; lia.
  - vm_compute in E. discriminate.
Qed.
Print Assumptions C20_auth_token_refuted.

(* no position outside the header is read: false for a header with only another cookie *)
Theorem C20_in_bounds_refuted : ~ (forall l, Forall cookie_ok l -> exists v, get_auth_token (cookie_header l) = Some (v, false)).
Proof.
  intros H. destruct (H [(bs "a", bs "b")]) as [v E].
  - repeat constructor; cbn; try (intuition discriminate); intros []; lia.
  - vm_compute in E. discriminate.
Qed.
Print Assumptions C20_in_bounds_refuted.

(* it returns for every header string *)
Theorem C20_returns : forall s, exists v past_end, get_auth_token s = Some (v, past_end).
Proof. intros s. apply auth_loop_total. auto. Qed.
Print Assumptions C20_returns.

(* any header, well formed or not *)
Theorem C20_exact : forall s v past_end, get_auth_token s = Some (v, past_end) <-> auth_says s v past_end.
Proof.
  intros s v b. split; [|intros H; apply (auth_sound s v b H); lia]. intros E. destruct (auth_complete (S (length s)) s) as (v' & b' & H); [lia|].
  assert (X : get_auth_token s = Some (v', b')) by (apply (auth_sound s v' b' H); lia). rewrite E in X. injection X as -> ->. exact H.
Qed.
Print Assumptions C20_exact.
(* without the space after the semicolon the n is skipped; an empty one is passed over *)
Example C20_exact_ex : auth_says (bs "a=1;nbdl_auth=x; nbdl_auth=; nbdl_auth=y") (bs "y") false /\ forall v b, auth_says (bs "a=1;nbdl_auth=x") v b -> v = [].
Proof. split; [apply C20_exact; vm_compute; reflexivity|]. intros v b H. apply C20_exact in H. vm_compute in H. congruence. Qed.

Example C20_ex : get_auth_token (bs "theme=dark; nbdl_auth=abc123; x=y") = Some (bs "abc123", false).
Proof. vm_compute. reflexivity. Qed.
Example C20_ex2 : get_auth_token (bs "theme=dark; nbdl_auth=") = Some ([], true).
Proof. vm_compute. reflexivity. Qed.
(* the name has to start a cookie after exactly "; " *)
Example C20_ex3 : get_auth_token (bs "theme=dark;nbdl_auth=abc123") = Some ([], true).
Proof. vm_compute. reflexivity. Qed.
(* "=" is not needed to hide a name in another cookie's value *)
Example C20_ex4 : get_auth_token (bs "xnbdl_auth=1; nbdl_authx=2; a=nbdl_auth=3; nbdl_auth=4") = Some (bs "4", false).
Proof. vm_compute. reflexivity. Qed.

(* C21.  The raw value of the first NBDL_SESS cookie. *)
Theorem C21_session_cookie_partial : forall l, Forall cookie_ok l -> get_session_cookie (cookie_header l) = Some (cookie_value (bs "NBDL_SESS") l).
Proof.
  intros l H. destruct (spaced_plain l) as (ws & -> & <- & F). apply session_loop_spec; [|lia]. clear -H F. rewrite Forall_map in H.
  rewrite Forall_forall in *. split; auto.
Qed.
Print Assumptions C21_session_cookie_partial.
(* with any white space in front of the cookies *)
Theorem C21_white_space : forall l, Forall (fun p => Forall white (fst p) /\ cookie_ok (snd p)) l ->
  get_session_cookie (spaced_header l) = Some (cookie_value (bs "NBDL_SESS") (map snd l)).
Proof. intros l H. apply session_loop_spec; auto. Qed.
Print Assumptions C21_white_space.
Example C21_white_space_ex : get_session_cookie (9 :: bs "a=1;" ++ [13; 10; 11] ++ bs "NBDL_SESS=xyz") = Some (bs "xyz").
Proof. vm_compute. reflexivity. Qed.

(* Double quotes are part of the value: nothing calls trim_double_quotes (cookie_parser.hpp:31-38). *)
Definition unquoted (v : list N) : list N :=
  match v with 34 :: r => if (2 <=? N.of_nat (length v)) && (last r 0 =? 34) then removelast r else v | _ => v end.
Theorem C21_session_cookie_refuted : ~ (forall l, Forall cookie_ok l -> get_session_cookie (cookie_header l) = Some (unquoted (cookie_value (bs "NBDL_SESS") l))).
Proof.
  intros H. specialize (H [(bs "NBDL_SESS", [34; 97; 34])]).
  enough (X : get_session_cookie (cookie_header [(bs "NBDL_SESS", [34; 97; 34])]) = Some [97]) by (vm_compute in X; discriminate).
  apply H. repeat constructor; cbn; try (intuition discriminate). intros []; lia.
Qed.
Print Assumptions C21_session_cookie_refuted.

Theorem C21_returns : forall s, exists v, get_session_cookie s = Some v.
Proof. intros s. apply session_loop_total. auto. Qed.
Print Assumptions C21_returns.

(* any header, well formed or not *)
Theorem C21_exact : forall s v, get_session_cookie s = Some v <-> session_says s v.
Proof.
  intros s v. split; [|intros H; apply (session_sound s v H); lia]. intros E. destruct (session_complete (S (length s)) s) as (v' & H); [lia|].
  assert (X : get_session_cookie s = Some v') by (apply (session_sound s v' H); lia). rewrite E in X. injection X as ->. exact H.
Qed.
Print Assumptions C21_exact.
(* a flag without a value takes the cookie behind it along *)
Example C21_exact_ex : session_says (bs "flag; NBDL_SESS=xyz; NBDL_SESS=abc") (bs "abc") /\ forall v, session_says (bs "a=1;NBDL_SESS") v -> v = [].
Proof. split; [apply C21_exact; vm_compute; reflexivity|]. intros v H. apply C21_exact in H. vm_compute in H. congruence. Qed.

Example C21_ex : get_session_cookie (bs "a=1; NBDL_SESS=xyz; b=NBDL_SESS=2") = Some (bs "xyz").
Proof. vm_compute. reflexivity. Qed.
Example C21_ex2 : get_session_cookie (bs "a=1; XNBDL_SESS=xyz") = Some [].
Proof. vm_compute. reflexivity. Qed.
(* a pair without '=' hides the cookie after it *)
Example C21_ex3 : get_session_cookie (bs "flag; NBDL_SESS=xyz") = Some [].
Proof. vm_compute. reflexivity. Qed.

(* C23.  However the bytes arrive, key and cookies are those of the last header of the name in any letter case; what was read
   beyond the last line is in the buffer. *)
Theorem C23_headers_partial : forall H extra reads, Forall header_ok H ->
  let request := (bs "GET / HTTP/1.1" ++ crlf) ++ header_lines (map header_text H) ++ extra in
  (length request <= length reads)%nat ->
  exists over rest,
    parse_handshake_request reads request = Resolved (mk_info (last_value (bs "sec-websocket-key") H) (last_value (bs "cookies") H)) (crlf ++ over) rest
    /\ over ++ rest = extra /\ (length over <= 254)%nat.
Proof.
  intros H extra reads HF request HL. subst request. unfold parse_handshake_request. rewrite expect_app.
  assert (LH : (length H < S (length (header_lines (map header_text H) ++ extra)))%nat).
  { rewrite app_length. pose proof (lines_len (map header_text H)). rewrite map_length in *. lia. }
  destruct (read_headers_spec H _ reads (mk_info [] []) [] _ extra HF LH ltac:(cbn; lia) eq_refl) as [[_ X]|(over & rest & E & Eo & L)].
  - rewrite !app_length in HL. cbn [length] in X. lia.
  - exists over, rest. split; [|auto]. rewrite E. f_equal. destruct (fold_put H (mk_info [] [])) as [F1 F2].
    destruct (fold_left put H (mk_info [] [])) as [k c]. cbn in F1, F2. unfold last_value. now rewrite F1, F2.
Qed.
Print Assumptions C23_headers_partial.

(* with fewer reads the promise is still waiting, or done with the same result; it never rejects *)
Theorem C23_any_reads : forall H extra reads, Forall header_ok H ->
  let o := parse_handshake_request reads ((bs "GET / HTTP/1.1" ++ crlf) ++ header_lines (map header_text H) ++ extra) in
  o = Waiting \/ exists buffer rest, o = Resolved (mk_info (last_value (bs "sec-websocket-key") H) (last_value (bs "cookies") H)) buffer rest.
Proof.
  intros H extra reads HF. unfold parse_handshake_request. rewrite expect_app.
  assert (LH : (length H < S (length (header_lines (map header_text H) ++ extra)))%nat).
  { rewrite app_length. pose proof (lines_len (map header_text H)). rewrite map_length in *. lia. }
  destruct (read_headers_spec H _ reads (mk_info [] []) [] _ extra HF LH ltac:(cbn; lia) eq_refl) as [[X _]|(over & rest & E & Eo & L)]; [now left|].
  right. exists (crlf ++ over), rest. rewrite E. f_equal. destruct (fold_put H (mk_info [] [])) as [F1 F2].
  destruct (fold_left put H (mk_info [] [])) as [k c]. cbn in F1, F2. unfold last_value. now rewrite F1, F2.
Qed.
Print Assumptions C23_any_reads.

(* a line without a colon is read past its end; a line of more than 254 bytes fails the handshake *)
Theorem C23_in_bounds_refuted : exists lines reads,
  Forall (fun l => ~ In 10 l /\ (length l <= 254)%nat) lines /\
  parse_handshake_request reads ((bs "GET / HTTP/1.1" ++ crlf) ++ header_lines lines) = Undefined.
Proof.
  exists [bs "Host: x"; bs "Cookies"], (repeat 100%nat 3). split; [|vm_compute; reflexivity].
  repeat constructor; cbn; try lia; intuition discriminate.
Qed.
Print Assumptions C23_in_bounds_refuted.
Theorem C23_long_line_refuted : forall H line extra reads, Forall header_ok H -> no_crlf line -> (254 < length line)%nat ->
  let request := (bs "GET / HTTP/1.1" ++ crlf) ++ header_lines (map header_text H ++ line :: extra) in
  (length request <= length reads)%nat -> parse_handshake_request reads request = RejectError.
Proof.
  intros H line extra reads HF HN HW request HL. subst request. unfold parse_handshake_request. rewrite expect_app.
  set (t1 := flat_map (fun h => h ++ crlf) (map header_text H)).
  set (rest := header_lines (map header_text H ++ line :: extra)) in *.
  assert (E : rest = t1 ++ (line ++ [13]) ++ (10 :: header_lines extra)).
  { unfold rest, t1, header_lines. rewrite flat_map_app. cbn [flat_map]. rewrite <- !app_assoc. reflexivity. }
  assert (LT : (length H <= length t1)%nat).
  { unfold t1. clear. induction H as [|h H IH]; cbn [map flat_map length]; [lia|]. rewrite !app_length. cbn [crlf length]. lia. }
  assert (LR : (length rest = length t1 + (length line + 1) + S (length (header_lines extra)))%nat) by (rewrite E, !app_length; cbn [length]; lia).
  destruct (read_headers_long H (S (length rest)) reads (mk_info [] []) [] rest (line ++ [13]) (10 :: header_lines extra) HF) as [[_ X]|X]; auto.
  - lia.
  - cbn. lia.
  - apply no_crlf_cr, HN.
  - rewrite app_length. cbn [length]. lia.
  - rewrite !app_length in HL. fold t1 in X. cbn [length] in X. lia.
Qed.
Print Assumptions C23_long_line_refuted.
Example C23_long_ex : parse_handshake_request (repeat 100%nat 10) ((bs "GET / HTTP/1.1" ++ crlf) ++ header_lines [bs "Host: x"; bs "Cookie: " ++ repeat 97 247]) = RejectError.
Proof. vm_compute. reflexivity. Qed.

(* so for any lines at all: the first line that is too long or harmful decides, and if there is none the request is understood *)
Theorem C23_exact : forall lines extra reads, Forall (fun l => l <> [] /\ no_crlf l) lines ->
  let request := (bs "GET / HTTP/1.1" ++ crlf) ++ header_lines lines ++ extra in
  (length request <= length reads)%nat ->
  match judge_all lines with
  | Fine => exists over rest, over ++ rest = extra /\ (length over <= 254)%nat /\ parse_handshake_request reads request =
              Resolved (mk_info (last_called (bs "sec-websocket-key") lines) (last_called (bs "cookies") lines)) (crlf ++ over) rest
  | Long => parse_handshake_request reads request = RejectError
  | Harmful => parse_handshake_request reads request = Undefined
  end.
Proof.
  intros lines extra reads HF request HL. subst request. unfold parse_handshake_request. rewrite expect_app.
  assert (LH : (length lines < S (length (header_lines lines ++ extra)))%nat) by (rewrite app_length; pose proof (lines_len lines); lia).
  destruct (read_lines_spec lines _ reads (mk_info [] []) [] _ extra HF LH ltac:(cbn; lia) eq_refl) as [[_ X]|X].
  - rewrite !app_length in HL. cbn [length] in X. lia.
  - destruct (judge_all lines) eqn:J; auto. destruct X as (over & rest & X & Y & Z). exists over, rest. rewrite X, fold_put_line by now apply judge_fine. auto.
Qed.
Print Assumptions C23_exact.
(* a line without a colon is skipped if its name is another one; one line in, a name outside ASCII decides although the last line is too long *)
Example C23_exact_ex : judge_all [bs "no colon"; bs "Cookies: a"] = Fine /\ last_called (bs "cookies") [bs "no colon"; bs "Cookies: a"] = bs "a"
  /\ judge_all [bs "Host: x"; [195; 164; 58]; repeat 97 300] = Harmful /\ judge_all [bs "COOKIES"] = Harmful.
Proof. vm_compute. auto. Qed.

Definition sample := bs "GET / HTTP/1.1" ++ crlf ++ bs "COOKIES: old" ++ crlf ++ bs "sec-websocket-KEY:   k1" ++ crlf
  ++ bs "X: y" ++ crlf ++ bs "Cookies: nbdl_auth=t" ++ crlf ++ crlf ++ bs "frame".
Example C23_ex : parse_handshake_request (repeat 7%nat 20) sample = Resolved (mk_info (bs "k1") (bs "nbdl_auth=t")) (crlf ++ bs "f") (bs "rame").
Proof. vm_compute. reflexivity. Qed.
(* RFC 6265 calls the header "Cookie": that one is ignored *)
Example C23_cookie_header : exists b r, parse_handshake_request (repeat 7%nat 20) (bs "GET / HTTP/1.1" ++ crlf ++ bs "Cookie: nbdl_auth=t" ++ crlf ++ crlf)
  = Resolved (mk_info [] []) b r.
Proof. eexists _, _. vm_compute. reflexivity. Qed.

(* C22.  The server gets the client's key and token. *)
Theorem C22_request_understood_partial : forall origin token reads,
  ~ In 10 origin -> (length origin <= 247)%nat -> ~ In 10 token -> ~ In 59 token -> (length token <= 234)%nat ->
  (length (handshake_request origin token) <= length reads)%nat ->
  exists info,
    parse_handshake_request reads (handshake_request origin token) = Resolved info crlf []
    /\ websocket_key info = bs "dGhlIHNhbXBsZSBub25jZQ==" /\ get_auth_token (cookies info) = Some (token, false).
Proof.
  intros o t reads Ho Lo Ht1 Ht2 Lt HL.
  assert (HF : Forall header_ok (request_headers o t)).
  { unfold request_headers. apply Forall_cons; [|apply Forall_cons; [|apply Forall_cons; [|apply Forall_cons; [|apply Forall_cons; [|apply Forall_cons; [|apply Forall_cons; [|apply Forall_nil]]]]]]].
    1,3-6: (split; [|split; [|split; [|split]]]; cbn [fst snd]; try (cbn; intuition discriminate); try (apply Forall_forall; intros c Hc; cbn in Hc; repeat (destruct Hc as [<-|Hc]; [vm_compute; reflexivity|]); contradiction); apply Nat.leb_le; vm_compute; reflexivity).
    - split; [cbn; intuition discriminate|]. split; [exact Ho|]. split; [cbn; intuition discriminate|]. split.
      + apply Forall_forall. intros c Hc. cbn in Hc. repeat (destruct Hc as [<-|Hc]; [vm_compute; reflexivity|]). contradiction.
      + unfold header_text. rewrite app_length. cbn [fst snd length bs]. lia.
    - split; [cbn; intuition discriminate|]. split.
      + intros X. cbn [snd] in X. apply in_app_iff in X as [X|X]; [cbn in X; intuition discriminate|]. apply in_app_iff in X as [X|X]; [auto|cbn in X; intuition discriminate].
      + split; [cbn; intuition discriminate|]. split.
        * apply Forall_forall. intros c Hc. cbn in Hc. repeat (destruct Hc as [<-|Hc]; [vm_compute; reflexivity|]). contradiction.
        * unfold header_text. rewrite app_length. cbn [fst snd bs]. cbn [length]. rewrite !app_length. cbn [length bs]. lia. }
  assert (ER : handshake_request o t = (bs "GET / HTTP/1.1" ++ crlf) ++ header_lines (map header_text (request_headers o t)) ++ []) by (rewrite app_nil_r; apply request_eq).
  rewrite ER in HL |- *.
  destruct (C23_headers_partial _ [] reads HF HL) as (over & rest & E & Eo & _). apply app_eq_nil in Eo as [-> ->]. change (crlf ++ []) with crlf in E.
  eexists. split; [exact E|]. cbn [websocket_key cookies]. split; [vm_compute; reflexivity|].
  assert (LV : last_value (bs "cookies") (request_headers o t) = bs "nbdl_auth=" ++ t ++ bs ";") by reflexivity. rewrite LV.
  unfold get_auth_token. cbn [auth_loop].
  assert (EC : check_auth_cookie (bs "nbdl_auth=" ++ t ++ bs ";") = t ++ [59]).
  { unfold check_auth_cookie. change (starts_with (bs "nbdl_auth=") (bs "nbdl_auth=" ++ t ++ bs ";")) with true. reflexivity. }
  cbn [bs app] in EC |- *. rewrite EC.
  destruct t as [|x t]; [reflexivity|]. cbn [app]. destruct (N.eqb_spec x 59) as [->|_]; [exfalso; apply Ht2; now left|].
  f_equal. f_equal. change (take_cookie_value ((x :: t) ++ [59]) = x :: t). apply take_value; eauto.
Qed.
Print Assumptions C22_request_understood_partial.

(* one more byte and the server rejects the request, however it arrives *)
Theorem C22_request_understood_refuted : forall origin token reads,
  ~ In 10 origin -> (length origin <= 247)%nat -> ~ In 10 token -> (234 < length token)%nat ->
  (length (handshake_request origin token) <= length reads)%nat ->
  parse_handshake_request reads (handshake_request origin token) = RejectError.
Proof.
  intros o t reads Ho Lo Ht Lt HL. rewrite request_eq in *.
  set (H := [(bs "Host", bs " nbdl"); (bs "Origin", o); (bs "Upgrade", bs " websocket"); (bs "Connection", bs " Upgrade");
   (bs "Sec-WebSocket-Key", bs " dGhlIHNhbXBsZSBub25jZQ=="); (bs "Sec-WebSocket-Version", bs " 13")] : list header).
  change (map header_text (request_headers o t)) with (map header_text H ++ (bs "Cookies" ++ 58 :: (bs " nbdl_auth=" ++ t ++ bs ";")) :: []) in *.
  apply C23_long_line_refuted; auto.
  - unfold H. apply Forall_cons; [|apply Forall_cons; [|apply Forall_cons; [|apply Forall_cons; [|apply Forall_cons; [|apply Forall_cons; [|apply Forall_nil]]]]]].
    1,3-6: (split; [|split; [|split; [|split]]]; cbn [fst snd]; try (cbn; intuition discriminate); try (apply Forall_forall; intros c Hc; cbn in Hc; repeat (destruct Hc as [<-|Hc]; [vm_compute; reflexivity|]); contradiction); apply Nat.leb_le; vm_compute; reflexivity).
    split; [cbn; intuition discriminate|]. split; [exact Ho|]. split; [cbn; intuition discriminate|]. split.
    + apply Forall_forall. intros c Hc. cbn in Hc. repeat (destruct Hc as [<-|Hc]; [vm_compute; reflexivity|]). contradiction.
    + unfold header_text. rewrite app_length. cbn [fst snd length bs]. lia.
  - apply no_lf. intros X. apply in_app_iff in X as [X|[X|X]]; [cbn in X; intuition discriminate|discriminate|].
    apply in_app_iff in X as [X|X]; [cbn in X; intuition discriminate|]. apply in_app_iff in X as [X|X]; [auto|cbn in X; intuition discriminate].
  - rewrite app_length. cbn [bs length]. rewrite !app_length. cbn [bs length]. lia.
Qed.
Print Assumptions C22_request_understood_refuted.

(* so a request is understood exactly when the origin has at most 247 bytes and the token at most 234 and no semicolon.  A token with
   a semicolon is cut there. *)
Theorem C22_exact : forall origin token reads, ~ In 10 origin -> ~ In 10 token -> (length (handshake_request origin token) <= length reads)%nat ->
  (exists info buffer rest, parse_handshake_request reads (handshake_request origin token) = Resolved info buffer rest
     /\ get_auth_token (cookies info) = Some (token, false))
  <-> (length origin <= 247)%nat /\ (length token <= 234)%nat /\ ~ In 59 token.
Proof.
  intros o t reads Ho Ht HL. split.
  - intros (info & b & r & E & G). split; [|split].
    + destruct (Nat.le_gt_cases (length o) 247) as [X|X]; [exact X|]. exfalso. rewrite request_eq in *.
      set (H := [(bs "Host", bs " nbdl")] : list header).
      change (map header_text (request_headers o t)) with (map header_text H ++ (bs "Origin" ++ 58 :: o) :: map header_text (tl (tl (request_headers o t)))) in *.
      rewrite (C23_long_line_refuted H) in E; [discriminate| | | |exact HL].
      * unfold H. apply Forall_cons; [|apply Forall_nil].
        split; [|split; [|split; [|split]]]; cbn [fst snd]; try (cbn; intuition discriminate); try (apply Forall_forall; intros c Hc; cbn in Hc; repeat (destruct Hc as [<-|Hc]; [vm_compute; reflexivity|]); contradiction); apply Nat.leb_le; vm_compute; reflexivity.
      * apply no_lf. intros Y. apply in_app_iff in Y as [Y|[Y|Y]]; [cbn in Y; intuition discriminate|discriminate|auto].
      * rewrite app_length. cbn [bs length]. lia.
    + destruct (Nat.le_gt_cases (length o) 247) as [Lo|Lo].
      * destruct (Nat.le_gt_cases (length t) 234) as [X|X]; [exact X|]. rewrite (C22_request_understood_refuted o t) in E; auto. discriminate.
      * exfalso. rewrite request_eq in *.
        set (H := [(bs "Host", bs " nbdl")] : list header).
        change (map header_text (request_headers o t)) with (map header_text H ++ (bs "Origin" ++ 58 :: o) :: map header_text (tl (tl (request_headers o t)))) in *.
        rewrite (C23_long_line_refuted H) in E; [discriminate| | | |exact HL].
        -- unfold H. apply Forall_cons; [|apply Forall_nil].
           split; [|split; [|split; [|split]]]; cbn [fst snd]; try (cbn; intuition discriminate); try (apply Forall_forall; intros c Hc; cbn in Hc; repeat (destruct Hc as [<-|Hc]; [vm_compute; reflexivity|]); contradiction); apply Nat.leb_le; vm_compute; reflexivity.
        -- apply no_lf. intros Y. apply in_app_iff in Y as [Y|[Y|Y]]; [cbn in Y; intuition discriminate|discriminate|auto].
        -- rewrite app_length. cbn [bs length]. lia.
    + exact (auth_no_semicolon _ _ _ _ G).
  - intros (A & B & C). destruct (C22_request_understood_partial o t reads Ho A Ht C B HL) as (info & E & _ & G). exists info, crlf, []. auto.
Qed.
Print Assumptions C22_exact.
Example C22_exact_ex : exists info b r, parse_handshake_request (repeat 31%nat 20) (handshake_request (bs "http://localhost") (bs "a;b")) = Resolved info b r
  /\ get_auth_token (cookies info) = Some (bs "a", false).
Proof. eexists _, _, _. split; [vm_compute; reflexivity|]. vm_compute. reflexivity. Qed.

Example C22_ex : parse_handshake_request (repeat 31%nat 20) (handshake_request (bs "http://localhost") (bs "tok"))
  = Resolved (mk_info (bs "dGhlIHNhbXBsZSBub25jZQ==") (bs "nbdl_auth=tok;")) crlf [].
Proof. vm_compute. reflexivity. Qed.
