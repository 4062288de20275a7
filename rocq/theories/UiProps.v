(* C58: rendering a specification of the user interface.  C65: keeping it up to date. *)
From Coq Require Import String.
From Verif Require Import Base UiModel UiSpec UiProofs.
Open Scope nat_scope.

(* ---- C58 ---- *)

(* The nodes of the specification are added to the element after what was there, the slots are set, the next action is again in
   the same element, and no other node that was there is touched. *)
Theorem C58_render_partial : forall st (s : spec st) x h p n,
  renders s x -> nth_error h p = Some n -> (empties s = true -> kids n = []) ->
  exists h' rs n' new,
    run (flatten_spec s) x h p = Fine (h', p, rs)
    /\ nth_error h' p = Some n' /\ parent n' = parent n /\ kind_of n' = kind_of n /\ kids n' = kids n ++ new
    /\ shows_all (fun i => length h <= i) h' (Some p) new (content s x)
    /\ (forall k, lookup k (slots n') = slot s x (fun k => lookup k (slots n)) k)
    /\ (forall i, i < length h -> i <> p -> nth_error h' i = nth_error h i).
Proof.
  intros st s x h p n W E Em. destruct (R_all st s x h p n W E Em) as (h' & rs & new & n' & A & B & C & D & V & _).
  exists h', rs, n', new. destruct B. auto 9.
Qed.

(* without conditions for elements, texts, attributes, classes, listeners and file inputs *)
Definition pure {st} := fix pure (v : pspec st) := match v with QConst _ | QPath _ => true | QConcat l => forallb pure l | QBranch _ _ => false end.
Fixpoint plain {st} (s : spec st) : bool :=
  match s with
  | Element _ l => forallb plain l
  | Attribute _ v => pure v
  | InnerHtml _ | Match _ _ | ForEach _ _ => false
  | _ => true
  end.
Lemma pure_text st (v : pspec st) x : pure v = true -> text_of x v <> None.
Proof.
  induction v as [b|f|l IH|c l IH] using pspec_ind'; cbn; intros P; try discriminate.
  assert (X : exists b, opt_concat (map (text_of x) l) = Some b).
  { induction IH as [|v l H _ IH]; [exists []; reflexivity|]. cbn in P. apply andb_prop in P. destruct P as [P1 P2]. specialize (H P1).
    destruct (IH P2) as [b Hb]. cbn [map opt_concat fold_right]. unfold opt_concat in Hb. rewrite Hb. destruct (text_of x v); [eauto|congruence]. }
  destruct X as [b ->]. discriminate.
Qed.
Lemma plain_empties st (s : spec st) : plain s = true -> empties s = false.
Proof. destruct s; cbn; congruence. Qed.
Lemma plain_renders st (s : spec st) x : plain s = true -> renders s x.
Proof.
  induction s as [nm l IH|k v|k f|nm f|t|b|c alts IH|f body IH|nm| |] using spec_ind'; cbn; intros P; auto; try discriminate.
  - rewrite forallb_forall in P. split.
    + assert (X : forall l', incl l' l -> forallb (fun c => negb (empties c)) l' = true /\ first_among l' = true).
      { induction l' as [|c l' IH']; intros I; [split; reflexivity|]. destruct IH' as [A B]; [intros z Z; apply I; right; exact Z|].
        cbn. rewrite A, B. rewrite plain_empties by (apply P, I; left; reflexivity). destruct (quiet c); split; reflexivity. }
      apply X. apply incl_refl.
    + apply fold_Forall. rewrite Forall_forall in *. intros c I. apply IH; auto.
  - apply pure_text. exact P.
Qed.
Theorem C58_plain : forall st (s : spec st) x h p n,
  plain s = true -> nth_error h p = Some n ->
  exists h' rs n' new,
    run (flatten_spec s) x h p = Fine (h', p, rs)
    /\ nth_error h' p = Some n' /\ parent n' = parent n /\ kind_of n' = kind_of n /\ kids n' = kids n ++ new
    /\ shows_all (fun i => length h <= i) h' (Some p) new (content s x)
    /\ (forall k, lookup k (slots n') = slot s x (fun k => lookup k (slots n)) k)
    /\ (forall i, i < length h -> i <> p -> nth_error h' i = nth_error h i).
Proof.
  intros st s x h p n P E. apply C58_render_partial; [apply plain_renders; exact P|exact E|].
  rewrite plain_empties by exact P. discriminate.
Qed.
Print Assumptions C58_render_partial.
Print Assumptions C58_plain.

(* a page whose only element is the container *)
Definition page : heap := [mk_node None (KElem (bs "body")) [] []].
Record model := mk_model { who : option bytes; which : option nat; rows : list bytes }.
Definition row (b : bytes) : model := mk_model (Some b) None [].
Definition greeting : spec model :=
  Element (bs "div") [
    Attribute (Attr (bs "id")) (QConcat [QConst (bs "for-"); QPath who]);
    AddClassWhen (bs "some") (fun m => match who m with Some _ => true | None => false end);
    Element (bs "h1") [TextNode (TConcat [TConst (bs "Hello "); TPath who])];
    Match which [Element (bs "p") [TextNode (TConst (bs "first"))]; TextNode (TPath who)];
    Element (bs "ul") [ForEach (fun m => Some (map row (rows m))) (Element (bs "li") [TextNode (TPath who)])];
    FileInput].
Definition m1 := mk_model (Some (bs "Ann")) (Some 1) [bs "a"; bs "b"].
Example C58_ex : renders greeting m1 /\ plain greeting = false /\
  match run (flatten_spec greeting) m1 page 0 with
  | Fine (h, q, _) =>
      q = 0 /\ kids_at h 0 = [1] /\ kids_at h 1 = [2; 8; 9; 14] /\ kids_at h 2 = [3; 4] /\ kids_at h 9 = [10; 12]
      /\ option_map kind_of (nth_error h 4) = Some (KText (bs "Ann")) /\ option_map kind_of (nth_error h 8) = Some (KText (bs "Ann"))
  | _ => False
  end.
Proof.
  split; [|split; [reflexivity|]].
  - cbn. repeat split; auto; try discriminate.
  - vm_compute. repeat split.
Qed.

(* ---- C65 ---- *)

Section Life.
Variable st : Type.
Variable s : spec st.

Lemma one_update (x : st) h r : is_destroyed r = false -> forall h' rs', update_with (update_node x) (render_pipe r) h = Fine (h', rs') ->
  update x h r = Fine (h', mk_renderer false rs').
Proof. intros E h' rs' U. unfold update. rewrite E, U. reflexivity. Qed.

Lemma keep_up xs : forall (h0 h : heap) p n rs ids F (pre : list nat) last0,
  updatable s -> live st h (Some p) p s rs ids F -> NoDup F -> ~ In p F -> (forall i, In i F -> length h0 <= i < length h) ->
  (forall i, In i pre -> i < length h0) -> (is_each s = true -> pre = []) ->
  length h0 <= length h -> nth_error h p = Some n -> p < length h0 -> kids n = pre ++ ids ->
  Forall (updates s) xs -> (xs <> [] -> resolves s (last xs last0)) ->
  (xs = [] -> shows_all (fun i => length h0 <= i) h (Some p) ids (content s last0)
              /\ forall k, In k (key_of s) -> lookup k (slots n) = slot s last0 none k) ->
  (static st s = true -> forall k x, In k (key_of s) -> lookup k (slots n) = slot s x none k) ->
  exists h' r' n' ids',
    live_through (map Changed xs) h (mk_renderer false rs) = Fine (h', r')
    /\ nth_error h' p = Some n' /\ parent n' = parent n /\ kind_of n' = kind_of n /\ kids n' = pre ++ ids'
    /\ shows_all (fun i => length h0 <= i) h' (Some p) ids' (content s (last xs last0))
    /\ (forall i, i < length h0 -> i <> p -> nth_error h' i = nth_error h i)
    /\ (forall k, ~ In k (key_of s) -> lookup k (slots n') = lookup k (slots n))
    /\ (forall k, In k (key_of s) -> lookup k (slots n') = slot s (last xs last0) none k).
Proof.
  induction xs as [|x xs IH]; intros h0 h p n rs ids F pre last0 Ua L ND Np Bd Bpre Eq G E Lp K Up Rs S0 St.
  - destruct (S0 eq_refl) as [V T]. exists h, (mk_renderer false rs), n, ids. cbn. auto 9.
  - inversion Up as [|? ? Up1 Up2]; subst.
    destruct (proj1 (U_all st s) x h p n rs ids F pre [] L Ua Up1 E) as
      (h1 & rs1 & ids1 & F1 & n1 & A1 & G1 & C1 & P1 & Pp1 & Pk1 & K1 & I1 & N1 & L1 & S1 & T1 & V1).
    { rewrite app_nil_r. exact K. }
    { exact ND. }
    { exact Np. }
    { intros i I. apply Bd. exact I. }
    { intros i I J. rewrite app_nil_r in I. apply Bpre in I. apply Bd in J. lia. }
    { intros Is. auto. }
    rewrite app_nil_r in K1.
    assert (Bd1 : forall i, In i F1 -> length h0 <= i < length h1).
    { intros i I. apply I1 in I. destruct I as [I|I]; [apply Bd in I; lia|lia]. }
    assert (Np1 : ~ In p F1). { intros I. apply Bd1 in I. lia. }
    assert (Ek : last (x :: xs) last0 = last xs x) by (destruct xs; cbn; [reflexivity|]; clear; revert x s0; induction xs; intros; cbn; auto).
    destruct (IH h0 h1 p n1 rs1 ids1 F1 pre x Ua L1 N1 Np1 Bd1 Bpre Eq) as (h' & r' & n' & ids' & B1 & B2 & B3 & B4 & B5 & B6 & B7 & B8 & B9); auto.
    + lia.
    + intros Nx. rewrite <- Ek. apply Rs. discriminate.
    + intros ->. cbn in Rs. assert (Rx : resolves s x) by (apply Rs; discriminate). split.
      * eapply shows_all_frame; [|exact (V1 Rx)]. intros i Hi Hl; cbn beta in *. split; [reflexivity|]. apply Bd1. exact Hi.
      * intros k Ik. destruct (static st s) eqn:Ss; [rewrite S1 by auto; apply St; auto|apply T1; auto].
    + intros Ss k y Ik. rewrite S1 by auto. apply St; assumption.
    + exists h', r', n', ids'. rewrite Ek. split; [|split; [exact B2|]].
      * cbn [map live_through]. rewrite (one_update x h (mk_renderer false rs) eq_refl h1 rs1 A1). cbn [obind]. exact B1.
      * split; [congruence|]. split; [congruence|]. split; [exact B5|]. split; [exact B6|]. split; [|split; [|exact B9]].
        -- intros i Hi Hp. rewrite B7 by assumption. apply C1; [lia|exact Hp|]. intros J. apply Bd in J. lia.
        -- intros k Nk. rewrite B8 by exact Nk. apply S1. auto.
Qed.
End Life.

(* however often the store changes, the page shows the specification of its last state *)
Theorem C65_last_state_partial : forall st (s : spec st) x0 xs h p n,
  updatable s -> renders s x0 -> updates s x0 -> nth_error h p = Some n -> (empties s = true -> kids n = []) ->
  (forall i, In i (kids n) -> i < length h) ->
  Forall (updates s) xs -> (xs <> [] -> resolves s (last xs x0)) -> (forall k, In k (key_of s) -> lookup k (slots n) = None) ->
  exists h0 r0 h' r' n' new,
    make_renderer s x0 h p = Fine (h0, r0) /\ live_through (map Changed xs) h0 r0 = Fine (h', r')
    /\ nth_error h' p = Some n' /\ parent n' = parent n /\ kind_of n' = kind_of n /\ kids n' = kids n ++ new
    /\ shows_all (fun i => length h <= i) h' (Some p) new (content s (last xs x0))
    /\ (forall k, lookup k (slots n') = slot s (last xs x0) (fun k => lookup k (slots n)) k)
    /\ (forall i, i < length h -> i <> p -> nth_error h' i = nth_error h i).
Proof.
  intros st s x0 xs h p n Ua W Up E Em Bk Ups Rs Sn.
  destruct (R_all st s x0 h p n W E Em) as (h0 & rs & new & n0 & A & B & C & D & V & L). destruct (L Ua Up) as (F & LF & NF & BF).
  pose proof (nth_lt _ _ _ E) as Lp. pose proof (e_len _ _ _ _ _ B) as G.
  destruct (keep_up st s xs h h0 p n0 rs new F (kids n) x0 Ua LF NF) as (h' & r' & n' & ids' & B1 & B2 & B3 & B4 & B5 & B6 & B7 & B8 & B9); auto.
  - intros I. apply BF in I. lia.
  - intros Is. apply Em. destruct s; cbn in *; congruence.
  - exact (e_p _ _ _ _ _ B).
  - intros ->. split; [exact V|]. intros k Ik. rewrite D. apply slot_point. rewrite Sn by exact Ik. reflexivity.
  - intros Ss k x Ik. rewrite D. apply static_slot; assumption.
  - exists h0, (mk_renderer false rs), h', r', n', ids'. destruct B. split; [unfold make_renderer; rewrite A; reflexivity|].
    split; [exact B1|]. split; [exact B2|]. split; [congruence|]. split; [congruence|]. split; [exact B5|]. split; [exact B6|]. split.
    + intros k. destruct (in_dec (fun a b => ltac:(destruct (key_eqb a b) eqn:Eab; [left; apply key_eqb_eq; exact Eab|right; intros ->; rewrite key_eqb_refl in Eab; discriminate])) k (key_of s)) as [Ik|Nk].
      * rewrite B9 by exact Ik. apply slot_point. rewrite Sn by exact Ik. reflexivity.
      * rewrite B8 by exact Nk. rewrite D, !slot_other by exact Nk. reflexivity.
    + intros i Hi Hp. rewrite B7 by assumption. auto.
Qed.
(* a specification that is an element, a text or a file input keeps its node *)
Theorem C65_same_node : forall st (s : spec st) x0 xs h p n,
  lasting s -> updatable s -> renders s x0 -> updates s x0 -> nth_error h p = Some n -> Forall (updates s) xs ->
  exists h0 r0 h' r' n' id,
    make_renderer s x0 h p = Fine (h0, r0) /\ kids_at h0 p = kids n ++ [id]
    /\ live_through (map Changed xs) h0 r0 = Fine (h', r') /\ nth_error h' p = Some n' /\ kids n' = kids n ++ [id]
    /\ forall k, lookup k (slots n') = lookup k (slots n).
Proof.
  intros st s x0 xs h p n La Ua W Up E Ups. pose proof (nth_lt _ _ _ E) as Lp.
  assert (O : one_node s x0) by (destruct s; cbn in *; tauto).
  destruct (R_all st s x0 h p n W E) as (h0 & rs & new & n0 & A & B & C & D & V & L).
  { rewrite (one_not_empties _ _ _ O). discriminate. }
  destruct (L Ua Up) as (F & LF & NF & BF). destruct (one_content _ _ _ W O) as [tr Et]. rewrite Et in V.
  inversion V as [|? id ? ids ? V1 V2]; subst. inversion V2; subst.
  assert (Sl : forall k, lookup k (slots n0) = lookup k (slots n)).
  { intros k. rewrite D. destruct s; cbn in La |- *; tauto. }
  pose proof (e_p _ _ _ _ _ B) as P0. pose proof (e_len _ _ _ _ _ B) as G.
  exists h0, (mk_renderer false rs).
  assert (X : forall xs h1 rs F, Forall (updates s) xs -> live st h1 (Some p) p s rs [id] F -> NoDup F -> length h <= length h1 ->
     (forall i, In i F -> length h <= i < length h1) -> nth_error h1 p = Some n0 ->
     exists h' r', live_through (map Changed xs) h1 (mk_renderer false rs) = Fine (h', r') /\ nth_error h' p = Some n0).
  { clear - Ua La Lp. induction xs as [|x xs IH]; intros h1 rs F Ups LF NF G BF P.
    - eexists _, _. split; [reflexivity|exact P].
    - inversion Ups as [|? ? U1 U2]; subst.
      destruct (proj2 (U_all st s) x h1 (Some p) p rs [id] F (lasting_solid _ _ La) LF Ua U1 NF) as (h2 & rs2 & F2 & A2 & G2 & C2 & I2 & N2 & L2 & _).
      { intros i I. apply BF. exact I. }
      destruct (IH h2 rs2 F2 U2 L2 N2) as (h' & r' & Q1 & Q2).
      + lia.
      + intros i I. apply I2 in I. destruct I as [I|I]; [apply BF in I; lia|lia].
      + rewrite C2; [exact P|lia|]. intros I. apply BF in I. lia.
      + exists h', r'. split; [|exact Q2]. cbn [map live_through].
        rewrite (one_update st x h1 (mk_renderer false rs) eq_refl h2 rs2 A2). cbn [obind]. exact Q1. }
  destruct (X xs h0 rs F Ups LF NF G BF P0) as (h' & r' & Q1 & Q2).
  exists h', r', n0, id. split; [unfold make_renderer; rewrite A; reflexivity|]. unfold kids_at. rewrite P0. auto 9.
Qed.

(* nothing changes any more after the renderer is destroyed *)
Theorem C65_destroyed : forall st (l1 l2 : list (event st)) h r h1 r1,
  live_through l1 h r = Fine (h1, r1) -> exists r2, live_through (l1 ++ Destroyed :: l2) h r = Fine (h1, r2).
Proof.
  intros st l1 l2 h r h1 r1 H. revert h r H. induction l1 as [|[x|] l1 IH]; intros h r H.
  - injection H as -> ->. cbn. exists (destroy r1).
    assert (Z : live_through l2 h1 (destroy r1) = Fine (h1, destroy r1)).
    { induction l2 as [|[x|] l2 IH]; cbn; [reflexivity|exact IH|exact IH]. }
    exact Z.
  - cbn in H |- *. destruct (update x h r) as [[h2 r2]| |]; cbn in *; try discriminate. apply IH. exact H.
  - cbn in H |- *. apply IH. exact H.
Qed.
Print Assumptions C65_last_state_partial.
Print Assumptions C65_same_node.
Print Assumptions C65_destroyed.

Definition m2 := mk_model (Some (bs "Bob")) (Some 0) [bs "c"].
Example C65_ex : updatable greeting /\ renders greeting m1 /\ Forall (updates greeting) [m1; m2; m1; m2] /\ resolves greeting m2 /\ lasting greeting /\
  match (let* (h, r) := make_renderer greeting m1 page 0 in live_through (map Changed [m2; m1; m2] ++ [Destroyed; Changed m1]) h r) with
  | Fine (h, _) =>
      kids_at h 0 = [1] /\ kids_at h 1 = [2; 6; 9; 14] /\ map (fun i => option_map kind_of (nth_error h i)) (kids_at h 2) = [Some (KText (bs "Hello ")); Some (KText (bs "Bob"))]
      /\ kids_at h 9 = [21] /\ option_map slots (nth_error h 1) = Some [(Class (bs "some"), []); (Attr (bs "id"), bs "for-Bob")]
  | _ => False
  end.
Proof.
  split; [|split; [|split; [|split; [|split; [exact I|]]]]].
  - cbn. repeat split; auto; repeat constructor; cbn; try tauto; intuition discriminate.
  - cbn. repeat split; auto; try discriminate.
  - assert (U : forall i w r, i < 2 -> updates greeting (mk_model w (Some i) r)).
    { intros i w r Hi. cbn. repeat split; auto; try discriminate; [exists i; auto|]. induction r; cbn; constructor; cbn; auto. }
    repeat (apply Forall_cons; [apply U; lia|]). constructor.
  - cbn. repeat split; auto; discriminate.
  - vm_compute. repeat split.
Qed.

(* ---- what goes wrong otherwise ---- *)
Definition shown {st} (s : spec st) (x : st) (o : out (heap * renderer st)) : Prop :=
  match o with Fine (h, _) => shows_all (fun _ => True) h (Some 0) (kids_at h 0) (content s x) | _ => False end.
Ltac not_shown := intros H; vm_compute in H;
  repeat match goal with
         | X : shows_all _ _ _ (_ :: _) _ |- _ => inversion X; clear X; subst
         | X : shows_all _ _ _ [] _ |- _ => inversion X; clear X; subst
         | X : shows _ _ _ _ _ |- _ => inversion X; clear X; subst
         | X : nth_error _ _ = Some _ |- _ => cbn in X; injection X as <-; cbn in *
         | X : False |- _ => destruct X
         end; try discriminate.

(* an alternative with several nodes shows the last of them only *)
Theorem C58_several_nodes_refuted : exists (s : spec model) x, ~ shown s x (make_renderer s x page 0) /\ content s x = [TText (bs "a"); TText (bs "b")].
Proof.
  exists (Match which [TextNode (TConcat [TConst (bs "a"); TConst (bs "b")])]), (mk_model None (Some 0) []). split; [not_shown|reflexivity].
Qed.
(* an alternative without nodes: when it is the first one appendChild is called with null, a later one shows another alternative *)
Theorem C58_no_nodes_refuted : exists (s : spec model) x y,
  content s x = [] /\ make_renderer s x page 0 = Throws /\ content s y = [TText (bs "a")] /\ shown s y (make_renderer s y page 0).
Proof.
  exists (Match which [Noop; TextNode (TConst (bs "a"))]), (mk_model None (Some 0) []), (mk_model None (Some 1) []).
  split; [reflexivity|]. split; [vm_compute; reflexivity|]. split; [reflexivity|]. vm_compute.
  constructor; [|constructor]. eapply ShowsText; [exact I|reflexivity|reflexivity|reflexivity].
Qed.
Theorem C58_other_alternative_refuted : exists (s : spec model) x, content s x = [] /\ ~ shown s x (make_renderer s x page 0) /\ make_renderer s x page 0 <> Throws.
Proof.
  exists (Match which [TextNode (TConst (bs "a")); Noop]), (mk_model None (Some 1) []).
  split; [reflexivity|]. split; [not_shown|vm_compute; discriminate].
Qed.
(* a for_each or inner HTML removes what its element has before it *)
Theorem C58_siblings_refuted : exists (s1 s2 : spec model) x,
  ~ shown s1 x (make_renderer s1 x page 0) /\ ~ shown s2 x (make_renderer s2 x page 0) /\ content s1 x = content s2 x.
Proof.
  exists (Element (bs "div") [TextNode (TConst (bs "a")); InnerHtml []]),
         (Element (bs "div") [TextNode (TConst (bs "a")); ForEach (fun _ => Some []) Noop]), (mk_model None None []).
  split; [not_shown|]. split; [not_shown|reflexivity].
Qed.
(* the text of an attribute that has a match at a path that does not resolve: no alternative is selected, the function without
   a return value is left; even when the attribute is in an alternative that is not shown *)
Theorem C58_attribute_undefined_refuted : exists (s : spec model) x,
  content s x = [TElem (bs "p") none []] /\ make_renderer s x page 0 = Undefined.
Proof.
  exists (Match (fun _ => Some 0) [Element (bs "p") []; Element (bs "b") [Attribute (Attr (bs "id")) (QBranch which [QConst (bs "a")])]]),
         (mk_model None None []).
  split; [reflexivity|vm_compute; reflexivity].
Qed.
Print Assumptions C58_several_nodes_refuted.
Print Assumptions C58_no_nodes_refuted.
Print Assumptions C58_other_alternative_refuted.
Print Assumptions C58_siblings_refuted.
Print Assumptions C58_attribute_undefined_refuted.

Definition after {st} (s : spec st) (x0 : st) (xs : list st) : out (heap * renderer st) :=
  let* (h, r) := make_renderer s x0 page 0 in live_through (map Changed xs) h r.
Definition state (w : option nat) : model := mk_model (Some (bs "x")) w [].

(* a match whose path stops resolving: node_containers[-1] *)
Theorem C65_stops_resolving_refuted : exists (s : spec model) x0 x1, shown s x0 (after s x0 []) /\ content s x1 = [] /\ after s x0 [x1] = Undefined.
Proof.
  exists (Match which [TextNode (TConst (bs "a"))]), (state (Some 0)), (state None).
  split; [|split; [reflexivity|vm_compute; reflexivity]].
  vm_compute. constructor; [|constructor]. eapply ShowsText; [exact I|reflexivity|reflexivity|reflexivity].
Qed.
(* a match whose path starts to resolve later: its node comes after its siblings *)
Theorem C65_starts_resolving_refuted : exists (s : spec model) x0 x1 h r,
  after s x0 [x1] = Fine (h, r) /\ ~ shown s x1 (after s x0 [x1]) /\ shown s x1 (after s x1 []).
Proof.
  exists (Element (bs "div") [Match which [TextNode (TConst (bs "a"))]; TextNode (TConst (bs "b"))]), (state None), (state (Some 0)).
  eexists _, _. split; [vm_compute; reflexivity|]. split; [not_shown|].
  vm_compute. constructor; [|constructor]. eapply ShowsElem; [exact I|reflexivity|reflexivity|reflexivity|reflexivity|].
  constructor; [|constructor; [|constructor]]; (eapply ShowsText; [exact I|reflexivity|reflexivity|reflexivity]).
Qed.
(* a match directly in a match: its nodes are looked for in the temporary span *)
Theorem C65_nested_match_refuted : exists (s : spec model) x0 x1,
  shown s x0 (after s x0 []) /\ shown s x1 (after s x1 []) /\ updates s x1 /\ after s x0 [x1] = Throws.
Proof.
  exists (Match (fun _ => Some 0) [Match which [TextNode (TConst (bs "a")); TextNode (TConst (bs "b"))]]), (state (Some 0)), (state (Some 1)).
  split; [|split; [|split; [|vm_compute; reflexivity]]].
  - vm_compute. constructor; [|constructor]. eapply ShowsText; [exact I|reflexivity|reflexivity|reflexivity].
  - vm_compute. constructor; [|constructor]. eapply ShowsText; [exact I|reflexivity|reflexivity|reflexivity].
  - cbn. split; [eexists; split; [reflexivity|lia]|]. split; [|exact I]. split; [|auto]. eexists; split; [reflexivity|lia].
Qed.
(* the text of a path that stops resolving stays, though it is not shown when the page is rendered then *)
Theorem C65_stale_text_refuted : exists (s : spec model) x0 x1 h r,
  updates s x1 /\ after s x0 [x1] = Fine (h, r) /\ ~ shown s x1 (after s x0 [x1]) /\ shown s x1 (after s x1 []).
Proof.
  exists (TextNode (TPath who)), (state None), (mk_model None None []). eexists _, _.
  split; [exact I|]. split; [vm_compute; reflexivity|]. split; [not_shown|].
  vm_compute. constructor; [|constructor]. eapply ShowsText; [exact I|reflexivity|reflexivity|reflexivity].
Qed.
(* an attribute given twice: an update sets the first one again when the second one is a constant *)
Theorem C65_attribute_twice_refuted : exists (s : spec model) x h r,
  shown s x (after s x []) /\ after s x [x] = Fine (h, r) /\ ~ shown s x (after s x [x]).
Proof.
  exists (Element (bs "p") [Attribute (Attr (bs "id")) (QPath who); Attribute (Attr (bs "id")) (QConst (bs "a"))]), (state None). eexists _, _.
  split; [|split; [vm_compute; reflexivity|]].
  - cbn [shown]. unfold shown. remember (after _ _ _) as o eqn:Eo. vm_compute in Eo. subst o. cbn [kids_at nth_error kids].
    constructor; [|constructor]. eapply ShowsElem; [exact I|reflexivity|reflexivity|reflexivity| |constructor].
    intros k. cbn [slots lookup fold_left slot text_of]. unfold set, none. rewrite (key_eqb_sym k).
    change (Attr [105%N; 100%N]) with (Attr (bs "id")). destruct (key_eqb (Attr (bs "id")) k) eqn:Q; reflexivity.
  - unfold shown. remember (after _ _ _) as o eqn:Eo. vm_compute in Eo. subst o. cbn [kids_at nth_error kids]. intros H.
    inversion H as [|? ? ? ? ? X]; subst. inversion X as [? ? ? ? ? ? ? E1 ? ? E2| |]; subst. cbn in E1. injection E1 as <-.
    specialize (E2 (Attr (bs "id"))). vm_compute in E2. discriminate.
Qed.
(* a for_each removes at each update what comes after it in its element *)
Theorem C65_each_sibling_refuted : exists (s : spec model) x h r,
  shown s x (after s x []) /\ updates s x /\ after s x [x] = Fine (h, r) /\ ~ shown s x (after s x [x]).
Proof.
  exists (Element (bs "p") [ForEach (fun _ => Some []) Noop; TextNode (TConst (bs "a"))]), (state None). eexists _, _.
  split; [|split; [cbn; auto|split; [vm_compute; reflexivity|not_shown]]].
  vm_compute. constructor; [|constructor]. eapply ShowsElem; [exact I|reflexivity|reflexivity|reflexivity|reflexivity|].
  constructor; [|constructor]. eapply ShowsText; [exact I|reflexivity|reflexivity|reflexivity].
Qed.
Print Assumptions C65_stops_resolving_refuted.
Print Assumptions C65_starts_resolving_refuted.
Print Assumptions C65_nested_match_refuted.
Print Assumptions C65_stale_text_refuted.
Print Assumptions C65_attribute_twice_refuted.
Print Assumptions C65_each_sibling_refuted.
