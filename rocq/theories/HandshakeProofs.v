(* Proofs about cookies and the handshake. *)
From Coq Require Import String.
From Verif Require Import Base HandshakeModel HandshakeSpec.
Open Scope N_scope.

Lemma find_char_app c : forall x y, ~ In c x -> find_char c (x ++ c :: y) = length x.
Proof.
  induction x as [|a x IH]; intros y H; cbn; [now rewrite N.eqb_refl|]. destruct (N.eqb_spec a c) as [->|]; [exfalso; apply H; now left|].
  rewrite IH; auto. intros X. apply H. now right.
Qed.
Lemma find_char_none c : forall x, ~ In c x -> find_char c x = length x.
Proof.
  induction x as [|a x IH]; intros H; cbn; auto. destruct (N.eqb_spec a c) as [->|]; [exfalso; apply H; now left|].
  rewrite IH; auto. intros X. apply H. now right.
Qed.
Lemma skip_len {A} (x y : list A) : skipn (length x) (x ++ y) = y.
Proof. now rewrite skipn_app, Nat.sub_diag, skipn_all. Qed.
Lemma first_len {A} (x y : list A) : firstn (length x) (x ++ y) = x.
Proof. now rewrite firstn_app, Nat.sub_diag, firstn_all, app_nil_r. Qed.

(* a key up to and with its separator *)
Lemma starts_with_key sep : forall k n v, ~ In sep k -> ~ In sep n -> starts_with (k ++ [sep]) (n ++ sep :: v) = bytes_eqb n k.
Proof.
  induction k as [|a k IH]; intros n v Hk Hn; destruct n as [|b n]; cbn.
  - now rewrite N.eqb_refl.
  - destruct (N.eqb_spec sep b) as [->|]; auto. exfalso. apply Hn. now left.
  - destruct (N.eqb_spec a sep) as [->|]; auto. exfalso. apply Hk. now left.
  - rewrite N.eqb_sym. destruct (N.eqb_spec b a) as [->|]; cbn; auto. apply IH; intros X; [apply Hk|apply Hn]; now right.
Qed.

Definition is_auth (c : cookie) : bool := bytes_eqb (fst c) (bs "nbdl_auth").
Definition full_auth (c : cookie) : bool := is_auth c && negb (bytes_eqb (snd c) []).

Lemma cookie_text_ne c : cookie_text c <> [].
Proof. unfold cookie_text. destruct (fst c); discriminate. Qed.
Lemma header_ne c r : cookie_header (c :: r) <> [].
Proof.
  destruct r; [apply cookie_text_ne|]. change (cookie_text c ++ 59 :: 32 :: cookie_header (c0 :: r) <> []). intros X. apply app_eq_nil in X as [_ X]. discriminate.
Qed.

(* past the name of a cookie *)
Lemma check_cookie c rest : cookie_ok c -> (rest = [] \/ exists t, rest = 59 :: t) ->
  check_auth_cookie (cookie_text c ++ rest) = (if is_auth c then snd c else []) ++ rest.
Proof.
  intros (H1 & H2 & H3 & _) Hr. unfold check_auth_cookie, cookie_text. rewrite <- app_assoc. cbn [app].
  assert (E : starts_with (bs "nbdl_auth=") (fst c ++ 61 :: snd c ++ rest) = is_auth c).
  { apply (starts_with_key 61 (bs "nbdl_auth")); auto. cbn. intuition discriminate. }
  rewrite E. unfold is_auth. destruct (bytes_eqb_spec (fst c) (bs "nbdl_auth")) as [->|Hn].
  - change 10%nat with (length (bs "nbdl_auth" ++ [61])). change (bs "nbdl_auth" ++ 61 :: snd c ++ rest) with ((bs "nbdl_auth" ++ [61]) ++ (snd c ++ rest)). now rewrite skip_len.
  - assert (N1 : ~ In 59 (fst c ++ 61 :: snd c)). { intros X. apply in_app_iff in X as [X|[X|X]]; [auto|discriminate|auto]. }
    replace (fst c ++ 61 :: snd c ++ rest) with ((fst c ++ 61 :: snd c) ++ rest) by (now rewrite <- app_assoc).
    destruct Hr as [-> | [t ->]].
    + rewrite app_nil_r, find_char_none by auto. now rewrite skipn_all.
    + rewrite find_char_app by auto. now rewrite skip_len.
Qed.

Lemma take_value v rest : ~ In 59 v -> (rest = [] \/ exists t, rest = 59 :: t) -> take_cookie_value (v ++ rest) = v.
Proof.
  intros Hv Hr. unfold take_cookie_value. destruct Hr as [-> | [t ->]]; [rewrite app_nil_r, find_char_none by auto; apply firstn_all|].
  rewrite find_char_app by auto. apply first_len.
Qed.

Lemma auth_loop_spec : forall l fuel, Forall cookie_ok l -> (length (cookie_header l) < fuel)%nat ->
  auth_loop fuel (cookie_header l) =
    match find full_auth l with Some c => Some (snd c, false) | None => Some ([], match l with [] => false | _ => true end) end.
Proof.
  induction l as [|c l IH]; intros [|fuel] HF HL; try lia.
  - reflexivity.
  - inversion HF as [|? ? Hc HF' e]; subst. pose proof Hc as (_ & _ & Hv & _).
    assert (STEP : auth_loop (S fuel) (cookie_header (c :: l)) =
      match check_auth_cookie (cookie_header (c :: l)) with
      | [] => Some ([], true)
      | x :: t => if x =? 59 then if 2 <? N.of_nat (length (x :: t)) then auth_loop fuel (skipn 2 (x :: t)) else Some ([], false)
                  else Some (take_cookie_value (x :: t), false) end).
    { cbn [auth_loop]. destruct (cookie_header (c :: l)) eqn:E; [exfalso; now apply (header_ne c l)|]. destruct (check_auth_cookie (n :: l0)); reflexivity. }
    rewrite STEP. clear STEP. cbn [find]. unfold full_auth at 1.
    set (rest := match l with [] => [] | _ => 59 :: 32 :: cookie_header l end).
    assert (EH : cookie_header (c :: l) = cookie_text c ++ rest) by (unfold rest; destruct l; [cbn; now rewrite app_nil_r|reflexivity]).
    assert (HR : rest = [] \/ exists t, rest = 59 :: t) by (unfold rest; destruct l; eauto).
    rewrite EH, check_cookie by auto.
    assert (SKIP : match rest with [] => Some ([], true) | x :: t => if x =? 59 then if 2 <? N.of_nat (length (x :: t)) then auth_loop fuel (skipn 2 (x :: t)) else Some ([], false)
                  else Some (take_cookie_value (x :: t), false) end = match find full_auth l with Some c => Some (snd c, false) | None => Some ([], true) end).
    { unfold rest. destruct l as [|c' l]; [reflexivity|]. change (59 =? 59) with true. cbv iota.
      assert (P : (0 < length (cookie_header (c' :: l)))%nat) by (pose proof (header_ne c' l) as X; destruct (cookie_header (c' :: l)); [congruence|cbn; lia]).
      destruct (N.ltb_spec 2 (N.of_nat (length (59 :: 32 :: cookie_header (c' :: l))))) as [_|X]; [|cbn [length] in X; lia].
      cbn [skipn]. rewrite IH; auto.
      rewrite EH in HL. unfold rest in HL. rewrite app_length in HL. cbn [length] in HL. lia. }
    destruct (is_auth c) eqn:Ea; cbn [andb app].
    + destruct (snd c) as [|x v] eqn:Ev; cbn [bytes_eqb negb app].
      * exact SKIP.
      * destruct (N.eqb_spec x 59) as [->|_]; [exfalso; apply Hv; now left|]. rewrite Ev. f_equal. f_equal.
        change (take_cookie_value ((x :: v) ++ rest) = x :: v). now apply take_value.
    + exact SKIP.
Qed.

(* ---- session cookie ---- *)
Lemma skip_past_at x y c : ~ In c x -> skip_past (x ++ c :: y) c = y.
Proof.
  intros H. unfold skip_past. rewrite find_char_app by auto. destruct (Nat.eqb_spec (length x) (length (x ++ c :: y))) as [E|_].
  - rewrite app_length in E. cbn in E. lia.
  - replace (S (length x)) with (length (x ++ [c])) by (rewrite app_length; cbn; lia).
    replace (x ++ c :: y) with ((x ++ [c]) ++ y) by (now rewrite <- app_assoc). apply skip_len.
Qed.
Lemma skip_past_none x c : ~ In c x -> skip_past x c = [].
Proof. intros H. unfold skip_past. rewrite find_char_none by auto. now rewrite Nat.eqb_refl. Qed.

Lemma no_lead c rest : cookie_ok c -> remove_leading_whitespace (cookie_text c ++ rest) = cookie_text c ++ rest.
Proof.
  intros (_ & _ & _ & H). unfold cookie_text. destruct (fst c) as [|x n]; [contradiction|]. cbn.
  assert (iswspace x = false) as -> by (unfold iswspace; lia). reflexivity.
Qed.

Lemma session_step c rest fuel lead : cookie_ok c -> (rest = [] \/ exists t, rest = 59 :: t) -> Forall white lead ->
  session_loop (S fuel) (lead ++ cookie_text c ++ rest) =
    if bytes_eqb (fst c) (bs "NBDL_SESS") then Some (snd c) else session_loop fuel (tl rest).
Proof.
  intros Hc HR HL. pose proof Hc as (H1 & H2 & H3 & _).
  assert (NE : lead ++ cookie_text c ++ rest <> []). { intros X. apply app_eq_nil in X as [_ X]. apply app_eq_nil in X as [X _]. now apply cookie_text_ne in X. }
  assert (RW : remove_leading_whitespace (lead ++ cookie_text c ++ rest) = cookie_text c ++ rest).
  { clear NE. induction HL as [|w lead Hw HL IH]; cbn [app]; [now apply no_lead|]. cbn [remove_leading_whitespace].
    assert (iswspace w = true) as -> by (unfold white in Hw; unfold iswspace; lia). exact IH. }
  cbn [session_loop]. destruct (lead ++ cookie_text c ++ rest) eqn:E; [congruence|]. rewrite RW. clear E NE RW.
  assert (ET : cookie_text c ++ rest = fst c ++ 61 :: (snd c ++ rest)) by (unfold cookie_text; now rewrite <- app_assoc).
  rewrite ET. assert (SW : starts_with (bs "NBDL_SESS=") (fst c ++ 61 :: (snd c ++ rest)) = bytes_eqb (fst c) (bs "NBDL_SESS")).
  { apply (starts_with_key 61 (bs "NBDL_SESS")); auto. cbn. intuition discriminate. }
  rewrite SW. rewrite skip_past_at by auto. destruct (bytes_eqb (fst c) (bs "NBDL_SESS")).
  - f_equal. destruct HR as [-> | [t ->]]; [rewrite app_nil_r, find_char_none by auto; apply firstn_all|]. rewrite find_char_app by auto. apply first_len.
  - f_equal. destruct HR as [-> | [t ->]]; [rewrite app_nil_r; now apply skip_past_none|]. now rewrite skip_past_at.
Qed.

Lemma session_loop_spec : forall l fuel, Forall (fun p => Forall white (fst p) /\ cookie_ok (snd p)) l -> (length (spaced_header l) < fuel)%nat ->
  session_loop fuel (spaced_header l) = Some (cookie_value (bs "NBDL_SESS") (map snd l)).
Proof.
  induction l as [|[w c] l IH]; intros [|fuel] HF HN; try lia; [reflexivity|].
  inversion HF as [|? ? [Hw Hc] HF' e]; subst. cbn [fst snd] in Hw, Hc. set (rest := match l with [] => [] | _ => 59 :: spaced_header l end).
  assert (EH : spaced_header ((w, c) :: l) = w ++ cookie_text c ++ rest) by (unfold rest; destruct l; [cbn; now rewrite app_nil_r|cbn [spaced_header]; now rewrite app_assoc]).
  assert (HR : rest = [] \/ exists t, rest = 59 :: t) by (unfold rest; destruct l; eauto).
  rewrite EH, session_step by auto. cbn [map snd]. unfold cookie_value. cbn [find]. destruct (bytes_eqb (fst c) (bs "NBDL_SESS")); auto.
  rewrite EH in HN. rewrite !app_length in HN. unfold rest in *. destruct l as [|c' l].
  + cbn [tl find map]. destruct fuel; [|reflexivity]. pose proof (cookie_text_ne c) as X. destruct (cookie_text c); [congruence|cbn in HN; lia].
  + cbn [tl]. apply IH; auto. cbn [length] in HN. lia.
Qed.
Lemma spaced_plain : forall l, exists ws, cookie_header l = spaced_header ws /\ map snd ws = l /\ Forall (fun p => Forall white (fst p)) ws.
Proof.
  intros l. assert (K : forall l lead, Forall white lead -> l <> [] -> exists ws, lead ++ cookie_header l = spaced_header ws /\ map snd ws = l /\ Forall (fun p => Forall white (fst p)) ws /\ ws <> []).
  { clear l. induction l as [|c l IH]; intros lead HW HN; [congruence|]. destruct l as [|c' l].
    - exists [(lead, c)]. cbn. repeat split; auto. discriminate.
    - destruct (IH [32]) as (ws & E & M & F & NE); [repeat constructor; now left|discriminate|]. exists ((lead, c) :: ws). split; [|split; [|split]].
      + change (cookie_header (c :: c' :: l)) with (cookie_text c ++ 59 :: ([32] ++ cookie_header (c' :: l))). rewrite E. destruct ws; [congruence|].
        cbn [spaced_header]. now rewrite app_assoc.
      + cbn. now rewrite M.
      + constructor; auto.
      + discriminate. }
  destruct l as [|c l]; [now exists []|]. destruct (K (c :: l) []) as (ws & E & M & F & _); [constructor|discriminate|]. now exists ws.
Qed.

(* ---- reading lines ---- *)
Lemma no_lf s : ~ In 10 s -> no_crlf s.
Proof. intros H a b ->. apply H, in_app_iff. right. right. now left. Qed.
Lemma no_crlf_tail c s : no_crlf (c :: s) -> no_crlf s.
Proof. intros H a b ->. apply (H (c :: a) b). reflexivity. Qed.
Lemma no_crlf_front s t : no_crlf (s ++ t) -> no_crlf s.
Proof. intros H a b ->. apply (H a (b ++ t)). now rewrite <- app_assoc. Qed.
Lemma no_crlf_cr s : no_crlf s -> no_crlf (s ++ [13]).
Proof.
  induction s as [|c s IH]; intros H a b E.
  - destruct a as [|? [|? a]]; discriminate E.
  - destruct a as [|d a]; [|cbn in E; injection E as -> E; now apply (IH (no_crlf_tail _ _ H) a b)].
    cbn in E. injection E as -> E. destruct s as [|d s]; [discriminate|]. cbn in E. injection E as -> E. now apply (H [] s).
Qed.
Lemma crlf_none : forall s, no_crlf s -> find_crlf s = None.
Proof.
  induction s as [|a s IH]; intros H; auto. cbn [find_crlf]. destruct s as [|b s]; auto. pose proof (IH (no_crlf_tail _ _ H)) as ->. cbn [option_map].
  destruct (N.eqb_spec a 13) as [->|]; cbn [andb]; auto. destruct (N.eqb_spec b 10) as [->|]; auto. exfalso. now apply (H [] s).
Qed.

Lemma crlf_line : forall h r, no_crlf h -> find_crlf (h ++ crlf ++ r) = Some (length h).
Proof.
  induction h as [|a h IH]; intros r H; [reflexivity|]. pose proof (IH r (no_crlf_tail _ _ H)) as E.
  assert (NE : exists b t, h ++ crlf ++ r = b :: t /\ ~ (a = 13 /\ b = 10)).
  { destruct h as [|b h]; cbn; eexists _, _; (split; [reflexivity|]); [intros [_ X]; discriminate|]. intros [-> ->]. now apply (H [] h). }
  destruct NE as (b & t & Eb & Hb). change ((a :: h) ++ crlf ++ r) with (a :: (h ++ crlf ++ r)). rewrite Eb in *. cbn [find_crlf length].
  cbn [find_crlf] in E. rewrite E. cbn [option_map]. destruct (N.eqb_spec a 13), (N.eqb_spec b 10); cbn [andb]; tauto.
Qed.

Lemma app_split {A} (x y z t : list A) : x ++ y = z ++ t -> (length z <= length x)%nat -> exists u, x = z ++ u /\ t = u ++ y.
Proof.
  revert z. induction x as [|a x IH]; intros z E L; destruct z as [|b z]; cbn in *; try lia.
  - exists []. auto.
  - exists (a :: x). auto.
  - injection E as -> E. destruct (IH z E ltac:(lia)) as (u & -> & ->). eauto.
Qed.

(* whatever the reads return, the line is found *)
Lemma read_until_line : forall reads h r buf unread, no_crlf h -> (length h <= 254)%nat -> buf ++ unread = h ++ crlf ++ r -> (length buf <= 256)%nat ->
  (read_until reads buf unread = ReadWaiting /\ (length reads < length h + 2 - length buf)%nat) \/
  exists u unread' reads', read_until reads buf unread = Line (length h + 2) ((h ++ crlf) ++ u) unread' reads' /\ r = u ++ unread' /\
    (length ((h ++ crlf) ++ u) <= 256)%nat /\ (length reads + length buf <= length reads' + length ((h ++ crlf) ++ u))%nat.
Proof.
  induction reads as [|n reads IH]; intros h r buf unread Hh Hl E Hb.
  - destruct (Nat.leb_spec (length h + 2) (length buf)) as [L|L].
    + right. destruct (app_split buf unread (h ++ crlf) r) as (u & -> & ->); [now rewrite <- app_assoc|rewrite app_length; cbn; lia|].
      exists u, unread, []. cbn [read_until]. rewrite <- app_assoc in *. rewrite crlf_line by auto. auto.
    + left. destruct (app_split (h ++ crlf) r buf unread) as (u & Eu & Er); [now rewrite <- app_assoc|rewrite app_length; cbn; lia|].
      assert (NB : no_crlf buf).
      { destruct (@exists_last _ u) as (u' & z & Ez). { intros ->. rewrite app_nil_r in Eu. apply (f_equal (@length N)) in Eu. rewrite app_length in Eu. cbn in Eu. lia. }
        rewrite Ez in Eu. replace (h ++ crlf) with ((h ++ [13]) ++ [10]) in Eu by (now rewrite <- app_assoc). rewrite app_assoc in Eu. apply app_inj_tail in Eu as [Eu _].
        apply no_crlf_cr in Hh. rewrite Eu in Hh. exact (no_crlf_front _ _ Hh). }
      cbn [read_until]. rewrite crlf_none by auto. destruct (Nat.leb_spec 256 (length buf)); [lia|].
      destruct unread as [|x unread]; [|split; [auto|cbn; lia]].
      rewrite app_nil_r in E. rewrite E in L. rewrite !app_length in L. cbn in L. lia.
  - destruct (Nat.leb_spec (length h + 2) (length buf)) as [L|L].
    + right. destruct (app_split buf unread (h ++ crlf) r) as (u & -> & ->); [now rewrite <- app_assoc|rewrite app_length; cbn; lia|].
      exists u, unread, (n :: reads). cbn [read_until]. rewrite <- app_assoc in *. rewrite crlf_line by auto. auto.
    + destruct (app_split (h ++ crlf) r buf unread) as (u & Eu & Er); [now rewrite <- app_assoc|rewrite app_length; cbn; lia|].
      assert (NB : no_crlf buf).
      { destruct (@exists_last _ u) as (u' & z & Ez). { intros ->. rewrite app_nil_r in Eu. apply (f_equal (@length N)) in Eu. rewrite app_length in Eu. cbn in Eu. lia. }
        rewrite Ez in Eu. replace (h ++ crlf) with ((h ++ [13]) ++ [10]) in Eu by (now rewrite <- app_assoc). rewrite app_assoc in Eu. apply app_inj_tail in Eu as [Eu _].
        apply no_crlf_cr in Hh. rewrite Eu in Hh. exact (no_crlf_front _ _ Hh). }
      cbn [read_until]. rewrite crlf_none by auto. destruct (Nat.leb_spec 256 (length buf)); [lia|].
      destruct unread as [|x unread]. { rewrite app_nil_r in E. rewrite E in L. rewrite !app_length in L. cbn in L. lia. }
      set (k := Nat.max 1 (Nat.min n (256 - length buf))). assert (K : (1 <= k <= 256 - length buf)%nat) by lia.
      assert (FL : (1 <= length (firstn k (x :: unread)) <= k)%nat) by (rewrite firstn_length; cbn [length]; lia).
      destruct (IH h r (buf ++ firstn k (x :: unread)) (skipn k (x :: unread)) Hh Hl) as [[I1 I2]|(u1 & un & rd & I1 & I2 & I3 & I4)].
      * now rewrite <- app_assoc, firstn_skipn.
      * rewrite app_length. lia.
      * left. split; auto. rewrite app_length in I2. cbn [length]. lia.
      * right. exists u1, un, rd. split; [auto|]. split; [auto|]. split; [auto|]. rewrite (app_length buf) in I4. cbn [length]. lia.
Qed.

(* ---- header lines ---- *)
Lemma lower_eq : forall s, map tolower s = map lower_ascii s.
Proof. intros s. apply map_ext. intros c. unfold tolower, lower_ascii. destruct (65 <=? c) eqn:E1, (c <=? 90) eqn:E2, (64 <? c) eqn:E3, (c <? 91) eqn:E4; cbn; auto; lia. Qed.

Lemma spaces_eq : forall s, skip_spaces s = no_leading_spaces s.
Proof.
  induction s as [|c s IH]; auto. cbn [skip_spaces]. destruct (N.eqb_spec c 32) as [->|H]; [exact IH|].
  cbn [no_leading_spaces]. destruct c as [|p]; auto. do 6 (destruct p as [p|p|]; auto). congruence.
Qed.

Definition put (info : handshake_info) (h : header) : handshake_info :=
  if bytes_eqb (map lower_ascii (fst h)) (bs "sec-websocket-key") then mk_info (no_leading_spaces (snd h)) (cookies info)
  else if bytes_eqb (map lower_ascii (fst h)) (bs "cookies") then mk_info (websocket_key info) (no_leading_spaces (snd h)) else info.

Lemma parse_header_spec info h : header_ok h -> parse_header info (header_text h) = Ok (put info h).
Proof.
  intros (_ & _ & H3 & H4 & _). unfold parse_header, header_text. rewrite find_char_app by auto. rewrite first_len, skip_len.
  assert (existsb (fun c => 128 <=? c) (fst h) = false) as ->.
  { destruct (existsb (fun c => 128 <=? c) (fst h)) eqn:E; auto. apply existsb_exists in E as (c & Hc & Hge). apply (proj1 (Forall_forall _ _) H4) in Hc. lia. }
  rewrite lower_eq, spaces_eq. unfold put. destruct (bytes_eqb (map lower_ascii (fst h)) (bs "sec-websocket-key")); auto.
  destruct (bytes_eqb (map lower_ascii (fst h)) (bs "cookies")); auto.
Qed.

Lemma header_text_ne h : header_text h <> [].
Proof. unfold header_text. destruct (fst h); discriminate. Qed.

Lemma lines_len l : (length l < length (header_lines l))%nat.
Proof. unfold header_lines. rewrite app_length. cbn [length crlf]. induction l as [|h l IH]; cbn [flat_map length]; [lia|]. rewrite !app_length. cbn [crlf length]. lia. Qed.

Lemma read_headers_spec : forall H fuel reads info buf unread extra,
  Forall header_ok H -> (length H < fuel)%nat -> (length buf <= 256)%nat -> buf ++ unread = header_lines (map header_text H) ++ extra ->
  (read_headers fuel reads info buf unread = Waiting /\ (length reads + length buf < length (header_lines (map header_text H)))%nat) \/
  exists over rest, read_headers fuel reads info buf unread = Resolved (fold_left put H info) (crlf ++ over) rest /\ over ++ rest = extra /\ (length over <= 254)%nat.
Proof.
  induction H as [|h H IH]; intros [|fuel] reads info buf unread extra HF HL HB E; try (cbn in HL; lia).
  - destruct (read_until_line reads [] extra buf unread (no_lf _ (@in_nil _ 10)) ltac:(cbn; lia) E HB) as [[R1 R2]|(u & un & rd & R1 & R2 & R3 & R4)].
    + left. cbn [read_headers]. rewrite R1. split; auto. change (length (header_lines (map header_text []))) with 2%nat. change (length (@nil N)) with 0%nat in R2. lia.
    + right. cbn [read_headers]. rewrite R1. cbn [length Nat.add Nat.ltb Nat.leb]. exists u, un. split; [reflexivity|]. split; [auto|].
      rewrite app_length in R3. cbn in R3. lia.
  - inversion HF as [|? ? Hh HF' e]; subst. pose proof Hh as (A1 & A2 & A3 & A4 & A5).
    assert (NL : no_crlf (header_text h)). { apply no_lf. unfold header_text. intros X. apply in_app_iff in X as [X|[X|X]]; [auto|discriminate|auto]. }
    assert (E' : buf ++ unread = header_text h ++ crlf ++ (header_lines (map header_text H) ++ extra)).
    { rewrite E. unfold header_lines. cbn [map flat_map]. rewrite <- !app_assoc. reflexivity. }
    assert (LL : length (header_lines (map header_text (h :: H))) = (length (header_text h) + 2 + length (header_lines (map header_text H)))%nat).
    { unfold header_lines. cbn [map flat_map]. rewrite !app_length. cbn [crlf length]. lia. }
    rewrite LL. cbn [fold_left read_headers].
    destruct (read_until_line reads (header_text h) _ buf unread NL A5 E' HB) as [[R1 R2]|(u & un & rd & R1 & R2 & R3 & R4)]; rewrite R1.
    + left. split; auto. lia.
    + assert (LT : (0 < length (header_text h))%nat) by (pose proof (header_text_ne h); destruct (header_text h); [congruence|cbn; lia]).
      destruct (Nat.ltb_spec 2 (length (header_text h) + 2)) as [_|X]; [|lia].
      replace (length (header_text h) + 2 - 2)%nat with (length (header_text h)) by lia.
      rewrite <- app_assoc, first_len, parse_header_spec by auto.
      replace (header_text h ++ crlf ++ u) with ((header_text h ++ crlf) ++ u) by (now rewrite <- app_assoc).
      replace (length (header_text h) + 2)%nat with (length (header_text h ++ crlf)) by (rewrite app_length; cbn; lia). rewrite skip_len.
      assert (LU : length ((header_text h ++ crlf) ++ u) = (length (header_text h) + 2 + length u)%nat) by (rewrite !app_length; cbn [crlf length]; lia).
      destruct (IH fuel rd (put info h) u un extra HF' ltac:(cbn [length] in HL; lia) ltac:(rewrite LU in R3; lia) (eq_sym R2)) as [[I1 I2]|I]; [left; split; auto; rewrite LU in R4; rewrite app_length; cbn [crlf length]; lia|right; exact I].
Qed.

Lemma fold_put : forall H info,
  websocket_key (fold_left put H info) = match find (fun h => bytes_eqb (map lower_ascii (fst h)) (bs "sec-websocket-key")) (rev H) with Some h => no_leading_spaces (snd h) | None => websocket_key info end /\
  cookies (fold_left put H info) = match find (fun h => bytes_eqb (map lower_ascii (fst h)) (bs "cookies")) (rev H) with Some h => no_leading_spaces (snd h) | None => cookies info end.
Proof.
  induction H as [|h H IH] using rev_ind; intros info; [auto|]. rewrite fold_left_app, rev_app_distr. cbn [fold_left rev app find].
  destruct (IH info) as [I1 I2]. unfold put. destruct (bytes_eqb_spec (map lower_ascii (fst h)) (bs "sec-websocket-key")) as [E|E].
  - rewrite E. split; [reflexivity|]. exact I2.
  - destruct (bytes_eqb (map lower_ascii (fst h)) (bs "cookies")); auto.
Qed.

(* ---- every header string ---- *)
Lemma check_len s : (length (check_auth_cookie s) <= length s)%nat.
Proof. unfold check_auth_cookie. destruct (starts_with _ s); rewrite skipn_length; lia. Qed.
Lemma auth_loop_total : forall fuel s, (length s < fuel)%nat -> exists v p, auth_loop fuel s = Some (v, p).
Proof.
  induction fuel as [|fuel IH]; intros s H; [lia|]. cbn [auth_loop]. destruct s as [|x s]; [eauto|]. pose proof (check_len (x :: s)) as L.
  destruct (check_auth_cookie (x :: s)) as [|c t]; [eauto|]. destruct (c =? 59); [|eauto]. destruct (2 <? N.of_nat (length (c :: t))) eqn:E; [|eauto].
  apply IH. rewrite skipn_length. cbn [length] in *. lia.
Qed.
Lemma skip_past_len s c : (length (skip_past s c) <= length s)%nat.
Proof. unfold skip_past. destruct (Nat.eqb _ _); [cbn; lia|]. rewrite skipn_length. lia. Qed.
Lemma skip_past_lt s c : s <> [] -> (length (skip_past s c) < length s)%nat.
Proof. intros H. unfold skip_past. destruct s; [congruence|]. destruct (Nat.eqb _ _); [cbn; lia|]. rewrite skipn_length. cbn [length]. lia. Qed.
Lemma lead_len : forall s, (length (remove_leading_whitespace s) <= length s)%nat.
Proof. induction s as [|c s IH]; cbn; auto. destruct (iswspace c); cbn; lia. Qed.
Lemma session_loop_total : forall fuel s, (length s < fuel)%nat -> exists v, session_loop fuel s = Some v.
Proof.
  induction fuel as [|fuel IH]; intros s H; [lia|]. cbn [session_loop]. destruct s as [|x s]; [eauto|].
  pose proof (lead_len (x :: s)) as L. set (y := remove_leading_whitespace (x :: s)) in *. destruct (starts_with _ y); [eauto|]. apply IH.
  destruct y as [|z y]. { cbn. cbn [length] in *. lia. }
  pose proof (skip_past_lt (z :: y) 61 ltac:(discriminate)). pose proof (skip_past_len (skip_past (z :: y) 61) 59). lia.
Qed.

Definition request_headers (origin token : list N) : list header :=
  [(bs "Host", bs " nbdl"); (bs "Origin", origin); (bs "Upgrade", bs " websocket"); (bs "Connection", bs " Upgrade");
   (bs "Sec-WebSocket-Key", bs " dGhlIHNhbXBsZSBub25jZQ=="); (bs "Sec-WebSocket-Version", bs " 13");
   (bs "Cookies", bs " nbdl_auth=" ++ token ++ bs ";")].

Lemma request_eq o t : handshake_request o t = (bs "GET / HTTP/1.1" ++ crlf) ++ header_lines (map header_text (request_headers o t)).
Proof.
  unfold handshake_request, header_lines, request_headers. cbn [map flat_map fst snd]. unfold header_text. cbn [fst snd].
  cbn [bs app]. repeat (rewrite <- app_assoc; cbn [app]). reflexivity.
Qed.

Lemma expect_app e r : expect_equal e (e ++ r) = inl r.
Proof.
  unfold expect_equal. rewrite app_length. destruct (Nat.ltb_spec (length e + length r) (length e)); [lia|]. rewrite first_len, bytes_eqb_refl. now rewrite skip_len.
Qed.

(* no token has a semicolon in it *)
Lemma take_no_semicolon l : ~ In 59 (take_cookie_value l).
Proof.
  unfold take_cookie_value. induction l as [|c l IH]; cbn [find_char firstn]; [auto|]. destruct (N.eqb_spec c 59) as [E|E]; cbn [firstn]; [auto|]. intros [X|X]; auto.
Qed.
Lemma auth_no_semicolon : forall f l v b, auth_loop f l = Some (v, b) -> ~ In 59 v.
Proof.
  induction f as [|f IH]; intros l v b H; [discriminate|]. cbn [auth_loop] in H. destruct l as [|c l]; [injection H as <- _; auto|].
  destruct (check_auth_cookie (c :: l)) as [|d r]; [injection H as <- _; apply take_no_semicolon|].
  destruct (d =? 59); [|injection H as <- _; apply take_no_semicolon].
  destruct (2 <? N.of_nat (length (d :: r))); [exact (IH _ _ _ H)|injection H as <- _; auto].
Qed.

(* ---- lines that do not fit ---- *)
Lemma read_until_long : forall reads h r buf unread, no_crlf h -> (256 <= length h)%nat -> buf ++ unread = h ++ r -> (length buf <= 256)%nat ->
  (read_until reads buf unread = ReadWaiting /\ (length reads + length buf < 256)%nat) \/ read_until reads buf unread = ReadError.
Proof.
  induction reads as [|n reads IH]; intros h r buf unread Hh Hl E Hb.
  - destruct (app_split h r buf unread) as (u & Eu & Er); [now rewrite E|lia|].
    assert (NB : no_crlf buf) by (rewrite Eu in Hh; exact (no_crlf_front _ _ Hh)).
    cbn [read_until]. rewrite crlf_none by auto. destruct (Nat.leb_spec 256 (length buf)); auto. destruct unread; auto.
  - destruct (app_split h r buf unread) as (u & Eu & Er); [now rewrite E|lia|].
    assert (NB : no_crlf buf) by (rewrite Eu in Hh; exact (no_crlf_front _ _ Hh)).
    cbn [read_until]. rewrite crlf_none by auto. destruct (Nat.leb_spec 256 (length buf)); auto. destruct unread as [|x unread]; auto.
    set (k := Nat.max 1 (Nat.min n (256 - length buf))). assert (K : (1 <= k <= 256 - length buf)%nat) by lia.
    assert (FL : (1 <= length (firstn k (x :: unread)) <= k)%nat) by (rewrite firstn_length; cbn [length]; lia).
    destruct (IH h r (buf ++ firstn k (x :: unread)) (skipn k (x :: unread)) Hh Hl) as [[I1 I2]|I1]; auto.
    + now rewrite <- app_assoc, firstn_skipn.
    + rewrite app_length. lia.
    + left. split; auto. rewrite app_length in I2. cbn [length]. lia.
Qed.

Lemma read_headers_long : forall H fuel reads info buf unread line extra,
  Forall header_ok H -> (length H < fuel)%nat -> (length buf <= 256)%nat -> no_crlf line -> (256 <= length line)%nat ->
  buf ++ unread = flat_map (fun h => h ++ crlf) (map header_text H) ++ line ++ extra ->
  (read_headers fuel reads info buf unread = Waiting /\ (length reads + length buf < length (flat_map (fun h => h ++ crlf) (map header_text H)) + 256)%nat) \/
  read_headers fuel reads info buf unread = RejectError.
Proof.
  induction H as [|h H IH]; intros [|fuel] reads info buf unread line extra HF HL HB HN HW E; try (cbn in HL; lia).
  - cbn [read_headers]. destruct (read_until_long reads line extra buf unread HN HW E HB) as [[R1 R2]|R1]; rewrite R1; auto.
  - inversion HF as [|? ? Hh HF' e]; subst. pose proof Hh as (A1 & A2 & A3 & A4 & A5).
    assert (NL : no_crlf (header_text h)). { apply no_lf. unfold header_text. intros X. apply in_app_iff in X as [X|[X|X]]; [auto|discriminate|auto]. }
    set (tail := flat_map (fun h => h ++ crlf) (map header_text H)) in *.
    assert (E' : buf ++ unread = header_text h ++ crlf ++ (tail ++ line ++ extra)).
    { rewrite E. cbn [map flat_map]. fold tail. rewrite <- !app_assoc. reflexivity. }
    assert (LL : length (flat_map (fun h => h ++ crlf) (map header_text (h :: H))) = (length (header_text h) + 2 + length tail)%nat).
    { cbn [map flat_map]. rewrite !app_length. cbn [crlf length]. fold tail. lia. }
    rewrite LL. cbn [read_headers].
    destruct (read_until_line reads (header_text h) _ buf unread NL A5 E' HB) as [[R1 R2]|(u & un & rd & R1 & R2 & R3 & R4)]; rewrite R1.
    + left. split; auto. lia.
    + assert (LT : (0 < length (header_text h))%nat) by (pose proof (header_text_ne h); destruct (header_text h); [congruence|cbn; lia]).
      destruct (Nat.ltb_spec 2 (length (header_text h) + 2)) as [_|X]; [|lia].
      replace (length (header_text h) + 2 - 2)%nat with (length (header_text h)) by lia.
      rewrite <- app_assoc, first_len, parse_header_spec by auto.
      replace (header_text h ++ crlf ++ u) with ((header_text h ++ crlf) ++ u) by (now rewrite <- app_assoc).
      replace (length (header_text h) + 2)%nat with (length (header_text h ++ crlf)) by (rewrite app_length; cbn; lia). rewrite skip_len.
      assert (LU : length ((header_text h ++ crlf) ++ u) = (length (header_text h) + 2 + length u)%nat) by (rewrite !app_length; cbn [crlf length]; lia).
      destruct (IH fuel rd (put info h) u un line extra HF' ltac:(cbn [length] in HL; lia) ltac:(rewrite LU in R3; lia) HN HW (eq_sym R2)) as [[I1 I2]|I]; [left; split; auto; rewrite LU in R4; rewrite app_length; cbn [crlf length]; lia|right; exact I].
Qed.

(* ---- any lines ---- *)
Lemma name_first l : firstn (find_char 58 l) l = name_of l.
Proof. induction l as [|c l IH]; [reflexivity|]. cbn [find_char name_of]. destruct (c =? 58); cbn [firstn]; congruence. Qed.
Lemma value_rest l : skipn (find_char 58 l) l = match value_of l with Some v => 58 :: v | None => [] end.
Proof. induction l as [|c l IH]; [reflexivity|]. cbn [find_char value_of]. destruct (N.eqb_spec c 58) as [->|E]; cbn [skipn]; [reflexivity|exact IH]. Qed.

Definition put_line (info : handshake_info) (l : list N) : handshake_info :=
  match value_of l with
  | Some v => if called (bs "sec-websocket-key") l then mk_info (no_leading_spaces v) (cookies info)
              else if called (bs "cookies") l then mk_info (websocket_key info) (no_leading_spaces v) else info
  | None => info
  end.

Lemma parse_line info l : (length l <= 254)%nat -> parse_header info l = match judge l with Fine => Ok (put_line info l) | _ => UB end.
Proof.
  intros L. unfold judge. destruct (Nat.ltb_spec 254 (length l)); [lia|]. unfold parse_header. rewrite name_first, value_rest.
  replace (existsb (fun c => 128 <=? c) (name_of l)) with (negb (forallb (fun c => c <? 128) (name_of l))).
  2:{ induction (name_of l) as [|c n IH]; cbn [existsb forallb]; [reflexivity|]. rewrite negb_andb, IH. now rewrite <- N.leb_antisym. }
  destruct (forallb (fun c => c <? 128) (name_of l)); cbn [negb]; [|reflexivity]. rewrite lower_eq.
  unfold put_line. fold (called (bs "sec-websocket-key") l). fold (called (bs "cookies") l).
  destruct (value_of l) as [v|]; destruct (called (bs "sec-websocket-key") l); cbn [orb]; rewrite ?spaces_eq; auto; destruct (called (bs "cookies") l); rewrite ?spaces_eq; auto.
Qed.

Lemma read_lines_spec : forall lines fuel reads info buf unread extra,
  Forall (fun l => l <> [] /\ no_crlf l) lines -> (length lines < fuel)%nat -> (length buf <= 256)%nat -> buf ++ unread = header_lines lines ++ extra ->
  (read_headers fuel reads info buf unread = Waiting /\ (length reads + length buf < length (header_lines lines))%nat) \/
  match judge_all lines with
  | Fine => exists over rest, read_headers fuel reads info buf unread = Resolved (fold_left put_line lines info) (crlf ++ over) rest /\ over ++ rest = extra /\ (length over <= 254)%nat
  | Long => read_headers fuel reads info buf unread = RejectError
  | Harmful => read_headers fuel reads info buf unread = Undefined
  end.
Proof.
  induction lines as [|l lines IH]; intros [|fuel] reads info buf unread extra HF HL HB E; try (cbn in HL; lia).
  - exact (read_headers_spec [] (S fuel) reads info buf unread extra (Forall_nil _) HL HB E).
  - inversion HF as [|? ? [Hne NL] HF' e]; subst.
    assert (E' : buf ++ unread = l ++ crlf ++ (header_lines lines ++ extra)).
    { rewrite E. unfold header_lines. cbn [flat_map]. rewrite <- !app_assoc. reflexivity. }
    assert (LL : length (header_lines (l :: lines)) = (length l + 2 + length (header_lines lines))%nat).
    { unfold header_lines. cbn [flat_map]. rewrite !app_length. cbn [crlf length]. lia. }
    rewrite LL. cbn [fold_left read_headers judge_all].
    destruct (Nat.le_gt_cases (length l) 254) as [A5|A5].
    + destruct (read_until_line reads l _ buf unread NL A5 E' HB) as [[R1 R2]|(u & un & rd & R1 & R2 & R3 & R4)]; rewrite R1.
      * left. split; auto. lia.
      * assert (LT : (0 < length l)%nat) by (destruct l; [congruence|cbn; lia]).
        destruct (Nat.ltb_spec 2 (length l + 2)) as [_|X]; [|lia].
        replace (length l + 2 - 2)%nat with (length l) by lia.
        rewrite <- app_assoc, first_len, (parse_line info l A5).
        destruct (judge l) eqn:J; [|exfalso; unfold judge in J; destruct (Nat.ltb_spec 254 (length l)); [lia|]; destruct (forallb _ _); [|discriminate]; destruct (value_of l); [discriminate|]; destruct (_ || _)%bool; discriminate|now right].
        replace (l ++ crlf ++ u) with ((l ++ crlf) ++ u) by (now rewrite <- app_assoc).
        replace (length l + 2)%nat with (length (l ++ crlf)) by (rewrite app_length; cbn; lia). rewrite skip_len.
        assert (LU : length ((l ++ crlf) ++ u) = (length l + 2 + length u)%nat) by (rewrite !app_length; cbn [crlf length]; lia).
        destruct (IH fuel rd (put_line info l) u un extra HF' ltac:(cbn [length] in HL; lia) ltac:(rewrite LU in R3; lia) (eq_sym R2)) as [[I1 I2]|I]; [left; split; auto; rewrite LU in R4; rewrite app_length; cbn [crlf length]; lia|right; exact I].
    + assert (J : judge l = Long) by (unfold judge; destruct (Nat.ltb_spec 254 (length l)); [reflexivity|lia]). rewrite J.
      pose proof (no_crlf_cr _ NL) as NR.
      assert (E2 : buf ++ unread = (l ++ [13]) ++ (10 :: header_lines lines ++ extra)) by (rewrite E', <- app_assoc; reflexivity).
      destruct (read_until_long reads (l ++ [13]) _ buf unread NR ltac:(rewrite app_length; cbn; lia) E2 HB) as [[R1 R2]|R1]; rewrite R1; [left; split; auto; lia|now right].
Qed.

Lemma judge_fine lines : judge_all lines = Fine -> Forall (fun l => judge l = Fine) lines.
Proof. induction lines as [|l r IH]; cbn [judge_all]; intros H; constructor; destruct (judge l); auto; discriminate. Qed.
Lemma fine_called n l : judge l = Fine -> n = bs "sec-websocket-key" \/ n = bs "cookies" -> called n l = true -> value_of l <> None.
Proof.
  unfold judge. intros J Hn C X. rewrite X in J. destruct (Nat.ltb 254 (length l)); [discriminate|]. destruct (forallb _ _); [|discriminate].
  destruct Hn as [-> | ->]; rewrite C in J; cbn [orb] in J; [|rewrite orb_true_r in J]; discriminate.
Qed.
Lemma called_one l : called (bs "sec-websocket-key") l = true -> called (bs "cookies") l = false.
Proof.
  unfold called. intros H. destruct (bytes_eqb_spec (map lower_ascii (name_of l)) (bs "sec-websocket-key")) as [E|]; [|discriminate].
  rewrite E. vm_compute. reflexivity.
Qed.
Lemma fold_put_line : forall lines, Forall (fun l => judge l = Fine) lines ->
  fold_left put_line lines (mk_info [] []) = mk_info (last_called (bs "sec-websocket-key") lines) (last_called (bs "cookies") lines).
Proof.
  intros lines. induction lines as [|l lines IH] using rev_ind; intros F; [reflexivity|]. apply Forall_app in F as [F G]. inversion G as [|? ? J _ e]; subst.
  rewrite fold_left_app, (IH F). cbn [fold_left]. unfold last_called at 3 4. rewrite rev_unit. cbn [find]. unfold put_line.
  destruct (called (bs "sec-websocket-key") l) eqn:K.
  - rewrite (called_one _ K). destruct (value_of l) eqn:V; [reflexivity|]. exfalso. exact (fine_called _ _ J (or_introl eq_refl) K V).
  - destruct (called (bs "cookies") l) eqn:C.
    + destruct (value_of l) eqn:V; [reflexivity|]. exfalso. exact (fine_called _ _ J (or_intror eq_refl) C V).
    + destruct (value_of l); reflexivity.
Qed.

(* ---- any header string: exactly ---- *)
Lemma starts_with_iff p : forall s, starts_with p s = true <-> exists r, s = p ++ r.
Proof.
  induction p as [|x p IH]; intros s; cbn [starts_with app]; [split; eauto|]. destruct s as [|y s].
  - split; [discriminate|]. intros (r & X). discriminate.
  - rewrite Bool.andb_true_iff, N.eqb_eq, IH. split.
    + intros (-> & r & ->). eauto.
    + intros (r & X). injection X as -> ->. eauto.
Qed.
Lemma split_at (c : N) : forall s : list N, ~ In c s \/ exists a b, s = a ++ c :: b /\ ~ In c a.
Proof.
  induction s as [|x s IH]; [left; intros []|]. destruct (N.eq_dec x c) as [->|Hx]; [right; exists [], s; auto|].
  destruct IH as [H|(a & b & -> & H)]; [left; intros [X|X]; auto|]. right. exists (x :: a), b. split; [reflexivity|]. intros [X|X]; auto.
Qed.
Lemma lead_split : forall s, exists w t, s = w ++ t /\ Forall white w /\ (forall a r, t = a :: r -> ~ white a) /\ remove_leading_whitespace s = t.
Proof.
  induction s as [|x s IH]; [exists [], []; repeat split; auto; discriminate|]. destruct (iswspace x) eqn:E.
  - destruct IH as (w & t & -> & A & B & C). exists (x :: w), t. repeat split; auto; [constructor; auto; unfold iswspace in E; unfold white; lia|].
    cbn. now rewrite E.
  - exists [], (x :: s). repeat split; auto; [|cbn; now rewrite E]. intros a r X. injection X as <- _. unfold iswspace in E. unfold white. lia.
Qed.
Lemma lead_of w t : Forall white w -> (forall a r, t = a :: r -> ~ white a) -> remove_leading_whitespace (w ++ t) = t.
Proof.
  intros H K. induction H as [|x w Hx _ IH]; cbn [app remove_leading_whitespace].
  - destruct t as [|a r]; [reflexivity|]. cbn. specialize (K a r eq_refl). assert (iswspace a = false) as -> by (unfold iswspace; unfold white in K; lia). reflexivity.
  - assert (iswspace x = true) as -> by (unfold white in Hx; unfold iswspace; lia). exact IH.
Qed.

Definition not_auth (x : list N) : Prop := x = bs "nbdl_auth=" \/ forall r, x <> bs "nbdl_auth=" ++ r.
Lemma semi_not_auth : ~ In 59 (bs "nbdl_auth=").
Proof. cbn. intuition discriminate. Qed.
Lemma prefix_semi x t : ~ In 59 x -> starts_with (bs "nbdl_auth=") (x ++ 59 :: t) = starts_with (bs "nbdl_auth=") x.
Proof.
  generalize semi_not_auth. generalize (bs "nbdl_auth="). intros p. revert x. induction p as [|a p IH]; intros x Hp Hx; [reflexivity|].
  destruct x as [|b x]; cbn [app starts_with].
  - destruct (N.eqb_spec a 59) as [->|]; [exfalso; apply Hp; now left|reflexivity].
  - rewrite IH; [reflexivity|intros X; apply Hp; now right|intros X; apply Hx; now right].
Qed.
(* to the semicolon behind a cookie that is not the one *)
Lemma check_other x t : ~ In 59 x -> not_auth x -> check_auth_cookie (x ++ 59 :: t) = 59 :: t.
Proof.
  intros Hx [->|H]; unfold check_auth_cookie.
  - reflexivity.
  - rewrite prefix_semi by auto. destruct (starts_with _ x) eqn:E; [apply starts_with_iff in E as (r & E); now apply H in E|].
    rewrite find_char_app by auto. apply skip_len.
Qed.

Lemma auth_sound s v b : auth_says s v b -> forall fuel, (length s < fuel)%nat -> auth_loop fuel s = Some (v, b).
Proof.
  induction 1 as [|v rest Hv Hs Hr| |x Hx Hs Hn|x any rest v b Hs Hn Hne _ IH|x rest Hs Hn Hl]; intros [|fuel] HL; try lia.
  - reflexivity.
  - change (auth_loop (S fuel) (bs "nbdl_auth=" ++ v ++ rest)) with (match check_auth_cookie (bs "nbdl_auth=" ++ v ++ rest) with
      | [] => Some (take_cookie_value (check_auth_cookie (bs "nbdl_auth=" ++ v ++ rest)), true)
      | c :: _ => if c =? 59 then if 2 <? N.of_nat (length (check_auth_cookie (bs "nbdl_auth=" ++ v ++ rest))) then auth_loop fuel (skipn 2 (check_auth_cookie (bs "nbdl_auth=" ++ v ++ rest))) else Some ([], false)
                  else Some (take_cookie_value (check_auth_cookie (bs "nbdl_auth=" ++ v ++ rest)), false) end).
    change (check_auth_cookie (bs "nbdl_auth=" ++ v ++ rest)) with (v ++ rest). rewrite take_value by auto.
    destruct v as [|c v]; [congruence|]. cbn [app]. destruct (N.eqb_spec c 59) as [->|_]; [exfalso; apply Hs; now left|reflexivity].
  - reflexivity.
  - assert (E : check_auth_cookie x = []).
    { unfold check_auth_cookie. destruct (starts_with _ x) eqn:E; [apply starts_with_iff in E as (r & E); now apply Hn in E|]. rewrite find_char_none by auto. apply skipn_all. }
    cbn [auth_loop]. rewrite E. destruct x; [congruence|reflexivity].
  - assert (E : check_auth_cookie (x ++ 59 :: any :: rest) = 59 :: any :: rest) by now apply check_other.
    assert (NE : x ++ 59 :: any :: rest <> []) by (destruct x; discriminate).
    cbn [auth_loop]. rewrite E. destruct (x ++ 59 :: any :: rest) eqn:Q; [congruence|]. cbn [N.eqb Pos.eqb].
    destruct (N.ltb_spec 2 (N.of_nat (length (59 :: any :: rest)))) as [_|L]; [|destruct rest; [congruence|cbn [length] in L; lia]].
    cbn [skipn]. apply IH. rewrite <- Q, app_length in HL. cbn [length] in HL. lia.
  - assert (E : check_auth_cookie (x ++ 59 :: rest) = 59 :: rest) by now apply check_other.
    assert (NE : x ++ 59 :: rest <> []) by (destruct x; discriminate).
    cbn [auth_loop]. rewrite E. destruct (x ++ 59 :: rest) eqn:Q; [congruence|]. cbn [N.eqb Pos.eqb].
    destruct (N.ltb_spec 2 (N.of_nat (length (59 :: rest)))) as [L|_]; [cbn [length] in L; lia|reflexivity].
Qed.
Lemma auth_dec x : ~ In 59 x -> (exists v, x = bs "nbdl_auth=" ++ v /\ v <> []) \/ not_auth x.
Proof.
  intros _. destruct (starts_with (bs "nbdl_auth=") x) eqn:E.
  - apply starts_with_iff in E as (r & ->). destruct r as [|a r]; [right; left; apply app_nil_r|left; exists (a :: r); split; [reflexivity|discriminate]].
  - right. right. intros r X. assert (starts_with (bs "nbdl_auth=") x = true) by (apply starts_with_iff; eauto). congruence.
Qed.
Lemma auth_complete : forall k s, (length s < k)%nat -> exists v b, auth_says s v b.
Proof.
  induction k as [|k IH]; intros s L; [lia|]. destruct s as [|s0 s']; [exists [], false; constructor|]. remember (s0 :: s') as s.
  assert (Ns : s <> []) by (subst; discriminate). clear Heqs s0 s'.
  destruct (split_at 59 s) as [H|(x & t & -> & H)].
  - destruct (auth_dec s H) as [(v & -> & Hv)|[->|Hn]].
    + exists v, false. rewrite <- (app_nil_r v) at 1. apply auth_found; auto. intros X. apply H. apply in_or_app. now right.
    + exists [], true. constructor.
    + exists [], true. now constructor.
  - destruct (auth_dec x H) as [(v & -> & Hv)|Hn].
    + exists v, false. rewrite <- app_assoc. apply auth_found; eauto. intros X. apply H. apply in_or_app. now right.
    + destruct t as [|any rest]; [exists [], false; apply auth_stop; auto|]. destruct rest as [|r0 rest]; [exists [], false; apply auth_stop; auto|].
      destruct (IH (r0 :: rest)) as (v & b & A); [rewrite app_length in L; cbn [length] in *; lia|]. exists v, b. apply auth_next; auto. discriminate.
Qed.

Lemma session_sound s v : session_says s v -> forall fuel, (length s < fuel)%nat -> session_loop fuel s = Some v.
Proof.
  assert (STEP : forall fuel w t, Forall white w -> (forall a r, t = a :: r -> ~ white a) -> w ++ t <> [] -> session_loop (S fuel) (w ++ t) =
    if starts_with (bs "NBDL_SESS=") t then Some (firstn (find_char 59 (skip_past t 61)) (skip_past t 61)) else session_loop fuel (skip_past (skip_past t 61) 59)).
  { intros fuel w t A B C. cbn [session_loop]. rewrite (lead_of w t A B). destruct (w ++ t); [congruence|reflexivity]. }
  assert (NIL : forall fuel, session_loop (S fuel) [] = Some []) by reflexivity.
  induction 1 as [|w v rest Hw Hv Hr|w x Hw Hx|w name v Hw Hl Hn Hne Hv|w name v rest x Hw Hl Hn Hne Hv _ IH]; intros [|fuel] HL; try lia.
  - reflexivity.
  - rewrite STEP; auto.
    + replace (starts_with (bs "NBDL_SESS=") (bs "NBDL_SESS=" ++ v ++ rest)) with true by reflexivity.
      change (bs "NBDL_SESS=" ++ v ++ rest) with (bs "NBDL_SESS" ++ 61 :: (v ++ rest)). rewrite skip_past_at by (cbn; intuition discriminate).
      f_equal. exact (take_value v rest Hv Hr).
    + intros a r X. injection X as <- _. unfold white. lia.
    + intros X. apply app_eq_nil in X as [_ X]. discriminate.
  - destruct (lead_split x) as (w' & t & -> & A & B & _). rewrite app_assoc in HL |- *. destruct ((w ++ w') ++ t) as [|z zs] eqn:Q; [apply NIL|]. rewrite <- Q in *.
    rewrite STEP; auto; [|now apply Forall_app|congruence].
    assert (Nt : ~ In 61 t) by (intros X; apply Hx; apply in_or_app; now right).
    destruct (starts_with (bs "NBDL_SESS=") t) eqn:E. { apply starts_with_iff in E as (r & ->). exfalso. apply Nt. cbn. intuition. }
    rewrite (skip_past_none t) by auto. change (skip_past [] 59) with (@nil N). destruct fuel; [|apply NIL]. rewrite Q in HL. cbn in HL. lia.
  - rewrite STEP; auto.
    + assert (E : starts_with (bs "NBDL_SESS=") (name ++ 61 :: v) = bytes_eqb name (bs "NBDL_SESS")) by (apply (starts_with_key 61 (bs "NBDL_SESS")); auto; cbn; intuition discriminate).
      rewrite E. destruct (bytes_eqb_spec name (bs "NBDL_SESS")); [contradiction|]. rewrite skip_past_at, skip_past_none by auto.
      rewrite !app_length in HL. cbn [length] in HL. destruct fuel; [lia|apply NIL].
    + intros a r X. destruct name as [|n0 name]; cbn in X; injection X as <- _; [unfold white; lia|]. eapply Hl. reflexivity.
    + intros X. apply app_eq_nil in X as [_ X]. apply app_eq_nil in X as [_ X]. discriminate.
  - rewrite STEP; auto.
    + assert (E : starts_with (bs "NBDL_SESS=") (name ++ 61 :: v ++ 59 :: rest) = bytes_eqb name (bs "NBDL_SESS")) by (apply (starts_with_key 61 (bs "NBDL_SESS")); auto; cbn; intuition discriminate).
      rewrite E. destruct (bytes_eqb_spec name (bs "NBDL_SESS")); [contradiction|]. rewrite !skip_past_at by auto.
      apply IH. rewrite !app_length in HL. cbn [length] in HL. rewrite app_length in HL. cbn [length] in HL. lia.
    + intros a r X. destruct name as [|n0 name]; cbn in X; injection X as <- _; [unfold white; lia|]. eapply Hl. reflexivity.
    + intros X. apply app_eq_nil in X as [_ X]. apply app_eq_nil in X as [_ X]. discriminate.
Qed.
Lemma session_complete : forall k s, (length s < k)%nat -> exists v, session_says s v.
Proof.
  induction k as [|k IH]; intros s L; [lia|]. destruct (lead_split s) as (w & t & -> & A & B & _).
  destruct (split_at 61 t) as [H|(name & u & -> & H)]; [exists []; now apply session_no_value|].
  assert (Hl : forall a r, name = a :: r -> ~ white a) by (intros a r ->; now apply (B a (r ++ 61 :: u))).
  destruct (bytes_eqb_spec name (bs "NBDL_SESS")) as [->|Hne].
  - destruct (split_at 59 u) as [Hu|(v & r & -> & Hu)].
    + exists u. replace (bs "NBDL_SESS" ++ 61 :: u) with (bs "NBDL_SESS=" ++ u ++ []) by now rewrite app_nil_r. apply session_found; auto.
    + exists v. change (bs "NBDL_SESS" ++ 61 :: v ++ 59 :: r) with (bs "NBDL_SESS=" ++ v ++ 59 :: r). apply session_found; eauto.
  - destruct (split_at 59 u) as [Hu|(v & r & -> & Hu)]; [exists []; now apply session_last|].
    destruct (IH r) as (x & X). { rewrite !app_length in L. cbn [length] in L. rewrite app_length in L. cbn [length] in L. lia. }
    exists x. now apply session_next.
Qed.
