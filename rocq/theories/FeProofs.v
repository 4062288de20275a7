From Verif Require Import Base TrModel TrSpec FeModel FeSpec.
Open Scope nat_scope.

Scheme node_mi := Induction for node Sort Prop with nodes_mi := Induction for nodes Sort Prop.
Combined Scheme node_nodes_ind from node_mi, nodes_mi.
Scheme expr_mi := Induction for expr Sort Prop with callee_mi := Induction for callee Sort Prop with exprs_mi := Induction for exprs Sort Prop.
Combined Scheme expr_all_ind from expr_mi, callee_mi, exprs_mi.
Scheme form_mi := Induction for form Sort Prop with forms_mi := Induction for forms Sort Prop with clauses_mi := Induction for clauses Sort Prop.
Combined Scheme form_all_ind from form_mi, forms_mi, clauses_mi.

(* ---- what is built does not depend on what is in the block already ---- *)

Definition put (b : list op) (s : gst) : gst := {| blk := b ++ blk s; next := next s |}.
Definition st0 (n : nat) : gst := {| blk := []; next := n |}.
Definition frame (g : gst -> option gst) : Prop := forall b n, ends b = false -> g {| blk := b; next := n |} = option_map (put b) (g (st0 n)).
Definition framed {A} (k : cont A) : Prop := forall a, frame (k a).

Lemma ends_app b o : ends (b ++ [o]) = terminator o.
Proof. induction b as [|x b IH]; [reflexivity|]. cbn [app]. rewrite <- IH. destruct b; reflexivity. Qed.
Lemma close_open s : ends (blk s) = false -> close s = s.
Proof. unfold close. now intros ->. Qed.
Lemma close_close s : close (close s) = close s.
Proof. unfold close. destruct (ends (blk s)) eqn:E; cbn; [reflexivity|]. now rewrite E. Qed.
Lemma put_put a b s : put a (put b s) = put (a ++ b) s.
Proof. unfold put. cbn. now rewrite app_assoc. Qed.
Lemma map_put_put a b (x : option gst) : option_map (put a) (option_map (put b) x) = option_map (put (a ++ b)) x.
Proof. destruct x; cbn; [now rewrite put_put|reflexivity]. Qed.

Lemma mk_put store key k b n : match_key store key k {| blk := b; next := n |} = option_map (put b) (match_key store key k (st0 n)).
Proof. unfold match_key. cbn [next blk st0]. destruct (k _ _); reflexivity. Qed.
Lemma mk_frame store key k : frame (match_key store key k).
Proof. intros b n _. apply mk_put. Qed.
Lemma mk_emit store key k o : frame (fun s => match_key store key k (emit o s)).
Proof.
  intros b n _. unfold emit, st0. cbn [blk next]. rewrite (mk_put _ _ _ (b ++ [o])), (mk_put _ _ _ ([] ++ [o])). cbn [app].
  now rewrite map_put_put.
Qed.
Lemma frame_close g : frame g -> frame (fun s => g (close s)).
Proof. intros H b n E. cbv beta. rewrite !close_open by (try exact E; reflexivity). now apply H. Qed.
Lemma frame_lookup sc v k : framed k -> frame (lookup sc v k).
Proof. intros H b n E. unfold lookup. destruct (nth_error sc v); [now apply H|reflexivity]. Qed.
Lemma frame_emit g o : terminator o = false -> frame g -> frame (fun s => g (emit o s)).
Proof.
  intros T H b n E. unfold emit, st0. cbn [blk next]. rewrite (H (b ++ [o])) by now rewrite ends_app.
  rewrite (H ([] ++ [o])) by now rewrite ends_app. now rewrite map_put_put.
Qed.
Lemma frame_value g f : (forall r, terminator (f r) = false) -> framed g -> frame (fun s => g (OVar (next s)) (emit_value f s)).
Proof.
  intros T H b n E. unfold emit_value, st0. cbn [blk next]. rewrite (H _ (b ++ [f n])) by now rewrite ends_app.
  rewrite (H _ ([] ++ [f n])) by now rewrite ends_app. now rewrite map_put_put.
Qed.

Lemma frame_nodes : (forall n sc store k, frame (gen_node sc n store k)) /\ (forall l sc store k, frame (gen_nodes sc l store k)).
Proof.
  apply node_nodes_ind; intros; cbn [gen_node gen_nodes].
  - apply (frame_close (fun s => match_key store _ k (emit Silent s))), mk_emit.
  - apply (frame_close (fun s => match_key store _ k (emit Silent s))), mk_emit.
  - apply (frame_close (fun s => match_key store _ k (emit Silent s))), mk_emit.
  - apply (frame_close (fun s => match_key store None _ (emit Silent s))), mk_emit.
  - apply (frame_close (lookup sc v _)), frame_lookup. intros o. apply mk_frame.
  - apply (frame_close (lookup sc root _)), frame_lookup. intros r. cbv beta zeta. destruct l.
    + apply (frame_close (match_key store (Some r) k)), mk_frame.
    + apply H.
  - apply mk_frame.
  - apply H.
Qed.

Lemma frame_path sc root l k : framed k -> frame (gen_path sc root l k).
Proof. intros H. apply frame_lookup. intros r. destruct l; [apply H|apply frame_nodes]. Qed.

Lemma frame_expr : (forall e sc k, framed k -> frame (gen_expr sc e k)) /\ (forall c sc k, framed k -> frame (gen_callee sc c k)) /\
  (forall l sc k, framed k -> frame (gen_exprs sc l k)).
Proof.
  apply expr_all_ind; intros; cbn [gen_expr gen_callee gen_exprs].
  - now apply frame_lookup.
  - apply (frame_emit (k _)); auto.
  - apply (frame_emit (k _)); auto.
  - apply (frame_emit (k _)); auto.
  - now apply frame_path.
  - apply (frame_close (gen_callee sc c _)), H. intros f. apply H0. intros os. apply (frame_value k); auto.
  - apply (frame_emit (k _)); auto.
  - now apply H.
  - apply H.
  - apply H. intros o. apply H0. intros os. apply H1.
Qed.

Lemma frame_simple x : frame (fun s => Some (emit Discard (emit x s))).
Proof. intros b n E. unfold emit, put, st0. cbn. now rewrite <- app_assoc. Qed.

Lemma frame_form sc fn f : frame (gen_form sc fn f).
Proof.
  destruct f; cbn [gen_form].
  - destruct args; [intros b n E; reflexivity|]. destruct (no_visits (XCons e args)); [|intros b n E; reflexivity].
    apply (frame_close (gen_exprs sc (XCons e args) _)), frame_expr. intros os. apply frame_simple.
  - apply (frame_close (gen_callee sc c _)), frame_expr. intros g. apply frame_expr. intros os. apply frame_simple.
  - destruct (is_path e); [|intros b n E; reflexivity]. apply frame_expr. intros o b n E. cbv zeta. rewrite !close_open by (try exact E; reflexivity).
    cbn [next blk st0]. destruct (gen_clauses sc fn cs n) as [[os m]|]; reflexivity.
  - apply frame_expr. intros o b n E. cbn [next blk st0]. destruct (gen_forms sc fn t _); [|reflexivity]. destruct (gen_forms sc fn e _); reflexivity.
  - apply frame_lookup. intros o b n E. reflexivity.
Qed.

(* a form that may follow another one closes what is there first *)
Lemma form_closes sc fn f s : may_follow f -> gen_form sc fn f s = gen_form sc fn f (close s).
Proof.
  destruct f as [args|c args|e cs|c t e|v]; cbn [may_follow gen_form]; intros M; try contradiction.
  - now rewrite close_close.
  - now rewrite close_close.
  - destruct (is_path e) eqn:P; [|reflexivity]. destruct e as [v| | | |root [|n l]|]; try discriminate; cbn [gen_expr]; unfold gen_path, lookup.
    + destruct (nth_error sc v); [|reflexivity]. now rewrite close_close.
    + destruct (nth_error sc root); [|reflexivity]. now rewrite close_close.
    + destruct (nth_error sc root); [|reflexivity]. cbn [gen_nodes]. destruct n; cbn [gen_node]; now rewrite close_close.
  - destruct c as [v| | | |root [|n l]|c args]; try contradiction; cbn [gen_expr]; unfold gen_path, lookup.
    + destruct (nth_error sc root); [|reflexivity]. cbn [gen_nodes]. destruct n; cbn [gen_node]; now rewrite close_close.
    + now rewrite close_close.
Qed.

(* ---- blocks ---- *)
Lemma to_block_app_cons o l : to_block (o :: l) = BCons o (to_block l). Proof. reflexivity. Qed.

Definition closed_before (b : list op) : list op := if ends b then [Scope (to_block b)] else b.
Lemma form_after sc fn f b n : may_follow f \/ ends b = false ->
  gen_form sc fn f {| blk := b; next := n |} = option_map (put (closed_before b)) (gen_form sc fn f (st0 n)).
Proof.
  intros H. unfold closed_before. destruct (ends b) eqn:E.
  - destruct H as [M|]; [|discriminate]. rewrite form_closes by exact M. unfold close. cbn [blk next]. rewrite E. now apply frame_form.
  - now apply frame_form.
Qed.

(* ---- every form ends with a terminator ---- *)
Definition finishes {A} (k : cont A) : Prop := forall a s s', k a s = Some s' -> ends (blk s') = true.
Lemma mk_ends o key k s s' : match_key o key k s = Some s' -> ends (blk s') = true.
Proof. unfold match_key. destruct (k _ _); [|discriminate]. intros H. injection H as <-. cbn [blk]. now rewrite ends_app. Qed.
Lemma nodes_end : (forall n sc o k s s', gen_node sc n o k s = Some s' -> ends (blk s') = true) /\ (forall l sc o k s s', gen_nodes sc l o k s = Some s' -> ends (blk s') = true).
Proof.
  apply node_nodes_ind; cbn [gen_node gen_nodes]; unfold lookup; intros; try (eapply mk_ends; eassumption).
  - destruct (nth_error sc v); [|discriminate]. eapply mk_ends; eassumption.
  - destruct (nth_error sc root); [|discriminate]. cbv zeta in H0. destruct l; [eapply mk_ends; eassumption|]. eapply H; eassumption.
  - eapply H; eassumption.
Qed.
Lemma expr_ends : (forall e sc k s s', finishes k -> gen_expr sc e k s = Some s' -> ends (blk s') = true) /\ (forall c sc k s s', finishes k -> gen_callee sc c k s = Some s' -> ends (blk s') = true) /\ (forall l sc k s s', finishes k -> gen_exprs sc l k s = Some s' -> ends (blk s') = true).
Proof.
  apply expr_all_ind; cbn [gen_expr gen_callee gen_exprs]; unfold gen_path, lookup; intros; try (now eapply H; eassumption).
  - destruct (nth_error sc v); [|discriminate]. eapply H; eassumption.
  - destruct (nth_error sc root); [|discriminate]. destruct l; [eapply H; eassumption|]. eapply nodes_end; eassumption.
  - refine (H _ _ _ _ _ H2). intros f s1 s2 X. refine (H0 _ _ _ _ _ X). intros os s3 s4 Y. eapply H1, Y.
  - refine (H _ _ _ _ _ H2). intros f s1 s2 X. refine (H0 _ _ _ _ _ X). intros os s3 s4 Y. eapply H1, Y.
Qed.
Lemma form_ends sc fn f s s' : gen_form sc fn f s = Some s' -> ends (blk s') = true.
Proof.
  assert (F : forall g, finishes (fun os s => Some (emit Discard (emit (Visit None g os) s)))).
  { intros g os s1 s2 X. injection X as <-. unfold emit. cbn [blk]. now rewrite ends_app. }
  destruct f; cbn [gen_form].
  - destruct args; [discriminate|]. destruct (no_visits (XCons e args)); [|discriminate]. now apply expr_ends.
  - apply expr_ends. intros g s1 s2. now apply expr_ends.
  - destruct (is_path e); [|discriminate]. apply expr_ends. intros o s1 s2. cbv zeta. destruct (gen_clauses _ _ _ _) as [[os n]|]; [|discriminate].
    intros X. injection X as <-. cbn [blk]. now rewrite ends_app.
  - apply expr_ends. intros o s1 s2. destruct (gen_forms sc fn t _) as [st|]; [|discriminate]. destruct (gen_forms sc fn e _) as [se|]; [|discriminate].
    intros X. injection X as <-. cbn [blk]. now rewrite ends_app.
  - unfold lookup. destruct (nth_error sc v); [|discriminate]. intros X. injection X as <-. unfold emit. cbn [blk]. now rewrite ends_app.
Qed.

(* ---- meaning ---- *)
Section Meaning.
Context (I : interp).
Notation V := (V I). Notation W := (W I).
Notation env := (nat -> option V).

Definition agree (n : nat) (e e' : env) : Prop := forall i, i < n -> e' i = e i.
Lemma agree_refl n e : agree n e e. Proof. intros i _. reflexivity. Qed.
Lemma agree_trans n m a b c : n <= m -> agree n a b -> agree m b c -> agree n a c.
Proof. intros L A B i Hi. rewrite B by lia. apply A, Hi. Qed.
Lemma agree_update n e v x : n <= v -> agree n e (update e v x).
Proof. intros L i Hi. unfold update. destruct (Nat.eqb_spec v i); [lia|reflexivity]. Qed.

Definition R1 (e : env) (m : nat) (o : operand) (v : V) : Prop := operand_value I e o = Some v /\ match o with OVar i => i < m | _ => True end.
Definition Rl (e : env) (m : nat) (os : list operand) (vs : list V) : Prop := Forall2 (R1 e m) os vs.
Definition Rc (e : env) (m : nat) (o : operand) (c : list N + V) : Prop := match c with inl n => o = OMember n | inr v => R1 e m o v end.
Lemma R1_keep e e' n m o v : n <= m -> agree n e e' -> R1 e n o v -> R1 e' m o v.
Proof. intros L A [H B]. split; [|destruct o; auto; lia]. destruct o; cbn in *; auto. rewrite A by exact B. exact H. Qed.
Lemma Rl_keep e e' n m os vs : n <= m -> agree n e e' -> Rl e n os vs -> Rl e' m os vs.
Proof. intros L A H. induction H; constructor; auto. eapply R1_keep; eauto. Qed.
Lemma Rc_keep e e' n m o v : n <= m -> agree n e e' -> Rc e n o v -> Rc e' m o v.
Proof. intros L A H. destruct v; cbn in *; auto. eapply R1_keep; eauto. Qed.

Definition scope_of (e : env) (n : nat) (sc : list nat) (rho : list V) : Prop := Forall2 (fun i v => i < n /\ e i = Some v) sc rho.
Lemma scope_keep e e' n m sc rho : n <= m -> agree n e e' -> scope_of e n sc rho -> scope_of e' m sc rho.
Proof. intros L A H. induction H as [|i v sc rho [B X] H IH]; constructor; auto. split; [lia|]. now rewrite A. Qed.
Lemma scope_nth e n sc rho v i : scope_of e n sc rho -> nth_error sc v = Some i -> exists x, nth_error rho v = Some x /\ R1 e n (OVar i) x.
Proof. intros H. revert v. induction H as [|j y sc rho [B X] H IH]; intros [|v] E; cbn in E |- *; try discriminate.
  - injection E as <-. exists y. now repeat split. - now apply IH. Qed.

(* what is built does, in every later environment, what K says *)
Definition does {A B} (R : env -> nat -> A -> B -> Prop) (k : cont A) (K : B -> W -> outcome unit * W) (e : env) (n : nat) : Prop :=
  forall a v e' m s w, n <= m -> agree n e e' -> R e' m a v -> k a (st0 m) = Some s -> exec_block I (to_block (blk s)) e' w = K v w.
Lemma does_keep {A B} (R : env -> nat -> A -> B -> Prop) k K e e' n m : n <= m -> agree n e e' -> does R k K e n -> does R k K e' m.
Proof. intros L A' H a v e'' m' s w L' A''. apply H; [lia|]. eapply agree_trans; eauto. Qed.

Lemma then_value {A} (x : outcome A * W) : then_ x (fun a w => (Value a, w)) = x.
Proof. destruct x as [[]]; reflexivity. Qed.
Lemma then_assoc {A B C} (x : outcome A * W) (f : A -> W -> outcome B * W) (g : B -> W -> outcome C * W) :
  then_ (then_ x f) g = then_ x (fun a w => then_ (f a w) g).
Proof. destruct x as [[]]; reflexivity. Qed.
Lemma then_ext {A B} (x : outcome A * W) (f g : A -> W -> outcome B * W) : (forall a w, f a w = g a w) -> then_ x f = then_ x g.
Proof. intros H. destruct x as [[]]; cbn; auto. Qed.
Lemma then_tt (x : outcome unit * W) (e : env) : then_ (then_ x (fun _ w => (Value e, w))) (fun _ w => (Value tt, w)) = x.
Proof. destruct x as [[[]| |] w]; reflexivity. Qed.

Lemma exec_one o e w : exec_block I (to_block [o]) e w = then_ (exec_op I o e w) (fun _ w => (Value tt, w)).
Proof. reflexivity. Qed.

Lemma exec_cons o b e w : exec_block I (to_block (o :: b)) e w = then_ (exec_op I o e w) (fun e w => exec_block I (to_block b) e w).
Proof. reflexivity. Qed.

(* the key of a match *)
Definition Rk (e : env) (m : nat) (k : option operand) (v : option V) : Prop :=
  match k, v with None, None => True | Some o, Some v => R1 e m o v | _, _ => False end.
Lemma Rk_value e m k v : Rk e m k v -> key_value I e k = Some v.
Proof. destruct k as [o|], v as [v|]; cbn; try tauto. intros [H _]. destruct o; cbn in *; try discriminate; try (now rewrite H); now injection H as <-. Qed.

Lemma match_does o key x kx k K e n s w : R1 e n o x -> Rk e n key kx -> does R1 k K e n -> match_key o key k (st0 n) = Some s ->
  exec_block I (to_block (blk s)) e w = then_ (shown I x kx w) K.
Proof.
  intros [Ho _] Hk D H. unfold match_key in H. cbn [next blk st0] in H. destruct (k (OVar n) _) as [s'|] eqn:E; [|discriminate]. injection H as <-.
  cbn [blk app]. rewrite exec_one. cbn [exec_op]. rewrite Ho. cbn [given]. rewrite (Rk_value _ _ _ _ Hk). cbn [given]. unfold shown.
  rewrite !then_assoc. apply then_ext. intros [ty y] w'. cbn [exec_overloads bytes_eqb orb snd then_].
  rewrite then_tt. eapply D; [| | |exact E].
  - lia. - apply agree_update. lia. - split; [|cbn; lia]. cbn. unfold update. now rewrite Nat.eqb_refl.
Qed.

Lemma exec_silent b e w : exec_block I (to_block (Silent :: b)) e w = exec_block I (to_block b) e w.
Proof. reflexivity. Qed.

Lemma frame_at g b n s : frame g -> ends b = false -> g {| blk := b; next := n |} = Some s -> exists s', g (st0 n) = Some s' /\ s = put b s'.
Proof. intros F E H. rewrite (F _ _ E) in H. destruct (g (st0 n)) as [s'|]; [|discriminate]. injection H as <-. eauto. Qed.

Lemma emit_does o key x kx k K e n s w : R1 e n o x -> Rk e n key kx -> does R1 k K e n -> match_key o key k (emit Silent (st0 n)) = Some s ->
  exec_block I (to_block (blk s)) e w = then_ (shown I x kx w) K.
Proof.
  intros Ho Hk D H. apply (frame_at (match_key o key k) [Silent] n) in H as (s' & H & ->); [|apply mk_frame|reflexivity].
  cbn [put blk app]. rewrite exec_silent. eapply match_does; eauto.
Qed.

Lemma node_does : (forall nd sc rho o x k K e n s w, framed k -> scope_of e n sc rho -> R1 e n o x -> does R1 k K e n -> gen_node sc nd o k (st0 n) = Some s ->
    exec_block I (to_block (blk s)) e w = then_ (node_value I rho nd x w) K) /\
  (forall l sc rho o x k K e n s w, framed k -> scope_of e n sc rho -> R1 e n o x -> does R1 k K e n -> gen_nodes sc l o k (st0 n) = Some s ->
    exec_block I (to_block (blk s)) e w = then_ (nodes_value I rho l x w) K).
Proof.
  apply node_nodes_ind; cbn [gen_node gen_nodes node_value nodes_value].
  - intros t sc rho o x k K e n s w F S Ho D H. rewrite close_open in H by reflexivity. eapply emit_does; eauto. cbn. split; [reflexivity|exact Logic.I].
  - intros z sc rho o x k K e n s w F S Ho D H. rewrite close_open in H by reflexivity. eapply emit_does; eauto. cbn. split; [reflexivity|exact Logic.I].
  - intros t sc rho o x k K e n s w F S Ho D H. rewrite close_open in H by reflexivity. eapply emit_does; eauto. cbn. split; [reflexivity|exact Logic.I].
  - intros m sc rho o x k K e n s w F S Ho D H. rewrite close_open in H by reflexivity. rewrite then_assoc.
    eapply emit_does with (key := None) (kx := None); [exact Ho|exact Logic.I| |exact H].
    intros o' v e' m' s' w' L A R H'. unfold emit_value, st0 in H'. cbn [next blk app] in H'.
    apply (frame_at (k (OVar m')) [Get m' o' (Some (OMember m))] (Datatypes.S m')) in H' as (s2 & H2 & ->); [|apply F|reflexivity].
    cbn [put blk app to_block exec_block exec_op]. destruct R as [R B]. rewrite R. cbn [given]. rewrite then_assoc. apply then_ext. intros y w2. cbn [then_].
    eapply D; [| | |exact H2]; [lia| |].
    + eapply agree_trans; [exact L|exact A|]. apply agree_update. lia.
    + split; [|lia]. cbn. unfold update. now rewrite Nat.eqb_refl.
  - intros v sc rho o x k K e n s w F S Ho D H. rewrite close_open in H by reflexivity. unfold lookup in H.
    destruct (nth_error sc v) as [i|] eqn:E; [|discriminate]. destruct (scope_nth _ _ _ _ _ _ S E) as (y & Ey & Ry). rewrite Ey. cbn [given].
    eapply match_does with (kx := Some y); eauto; exact Ry.
  - intros root l IH sc rho o x k K e n s w F S Ho D H. rewrite close_open in H by reflexivity. unfold lookup in H.
    destruct (nth_error sc root) as [i|] eqn:E; [|discriminate]. destruct (scope_nth _ _ _ _ _ _ S E) as (y & Ey & Ry). rewrite Ey. cbn [given].
    rewrite then_assoc. cbv zeta in H. destruct l as [|nd l].
    + rewrite close_open in H by reflexivity. cbn [then_]. eapply match_does with (kx := Some y); eauto; exact Ry.
    + refine (IH sc rho _ _ _ _ e n s w _ S Ry _ H).
      * intros kv. apply (frame_close (match_key o (Some kv) k)), mk_frame.
      * intros kv v e' m s' w' L A R H'. cbv beta in H'. rewrite close_open in H' by reflexivity.
        eapply match_does with (kx := Some v); [| | |exact H']; [eapply R1_keep; eauto|exact R|eapply does_keep; eauto].
  - intros sc rho o x k K e n s w F S Ho D H. eapply match_does with (key := None) (kx := None); eauto. exact Logic.I.
  - intros nd IHn l IHl sc rho o x k K e n s w F S Ho D H. rewrite then_assoc. refine (IHn sc rho _ _ _ _ e n s w _ S Ho _ H).
    + intros o'. apply frame_nodes.
    + intros o' v e' m s' w' L A R H'. eapply IHl; eauto; [eapply scope_keep|eapply does_keep]; eauto.
Qed.

Lemma path_does sc rho root l k K e n s w : framed k -> scope_of e n sc rho -> does R1 k K e n -> gen_path sc root l k (st0 n) = Some s ->
    exec_block I (to_block (blk s)) e w = then_ (path_value I rho root l w) K.
Proof.
  intros F S D H. unfold gen_path, lookup in H. unfold path_value. destruct (nth_error sc root) as [i|] eqn:E; [|discriminate].
  destruct (scope_nth _ _ _ _ _ _ S E) as (y & Ey & Ry). rewrite Ey. cbn [given]. destruct l as [|nd l].
  - cbn [then_]. eapply D; eauto. apply agree_refl.
  - eapply (proj2 node_does); eauto.
Qed.

Lemma Rl_values e m os vs : Rl e m os vs -> all_some (map (operand_value I e) os) = Some vs.
Proof. induction 1 as [|o v os vs [H _] _ IH]; [reflexivity|]. cbn. rewrite H, IH. reflexivity. Qed.

Lemma visit_exec e m f c os xs r w : Rc e m f c -> Rl e m os xs ->
  exec_op I (Visit r f os) e w = then_ (call I c xs w) (fun y w => (Value (match r with Some r => update e r y | None => e end), w)).
Proof.
  intros C L. cbn [exec_op]. rewrite (Rl_values _ _ _ _ L). cbn [given]. destruct c as [name|v]; cbn [call Rc] in *.
  - subst f. destruct xs; reflexivity.
  - destruct C as [H _]. destruct f; cbn [operand_value] in H |- *; try discriminate; rewrite ?H; cbn [given]; try reflexivity; injection H as ->; reflexivity.
Qed.

Lemma expr_does : (forall x sc rho k K e n s w, framed k -> scope_of e n sc rho -> does R1 k K e n -> gen_expr sc x k (st0 n) = Some s ->
    exec_block I (to_block (blk s)) e w = then_ (expr_value I rho x w) K) /\
  (forall c sc rho k K e n s w, framed k -> scope_of e n sc rho -> does Rc k K e n -> gen_callee sc c k (st0 n) = Some s ->
    exec_block I (to_block (blk s)) e w = then_ (callee_value I rho c w) K) /\
  (forall l sc rho k K e n s w, framed k -> scope_of e n sc rho -> does Rl k K e n -> gen_exprs sc l k (st0 n) = Some s ->
    exec_block I (to_block (blk s)) e w = then_ (exprs_value I rho l w) K).
Proof.
  assert (SIL : forall A (k : cont A) a n s, framed k -> k a (emit Silent (st0 n)) = Some s -> exists s', k a (st0 n) = Some s' /\ blk s = Silent :: blk s').
  { intros A k a n s F H. apply (frame_at (k a) [Silent] n) in H as (s' & H & ->); [|apply F|reflexivity]. eauto. }
  apply expr_all_ind; cbn [gen_expr gen_callee gen_exprs expr_value callee_value exprs_value].
  - intros v sc rho k K e n s w F S D H. unfold lookup in H. destruct (nth_error sc v) as [i|] eqn:E; [|discriminate].
    destruct (scope_nth _ _ _ _ _ _ S E) as (y & Ey & Ry). rewrite Ey. cbn [given then_]. eapply D; eauto. apply agree_refl.
  - intros t sc rho k K e n s w F S D H. apply SIL in H as (s' & H & ->); [|exact F]. rewrite exec_silent. cbn [then_].
    eapply D; [| | |exact H]; auto using agree_refl. split; [reflexivity|exact Logic.I].
  - intros t sc rho k K e n s w F S D H. apply SIL in H as (s' & H & ->); [|exact F]. rewrite exec_silent. cbn [then_].
    eapply D; [| | |exact H]; auto using agree_refl. split; [reflexivity|exact Logic.I].
  - intros t sc rho k K e n s w F S D H. apply SIL in H as (s' & H & ->); [|exact F]. rewrite exec_silent. cbn [then_].
    eapply D; [| | |exact H]; auto using agree_refl. split; [reflexivity|exact Logic.I].
  - intros root l sc rho k K e n s w F S D H. eapply path_does; eauto.
  - intros c IHc args IHa sc rho k K e n s w F S D H. rewrite close_open in H by reflexivity. rewrite !then_assoc.
    refine (IHc sc rho _ _ e n s w _ S _ H).
    + intros f. apply frame_expr. intros os. apply (frame_value k); auto.
    + intros f cv e' m s' w' L A R H'. cbv beta in H'. rewrite then_assoc. refine (IHa sc rho _ _ e' m s' w' _ _ _ H').
      * intros os. apply (frame_value k); auto.
      * eapply scope_keep; eauto.
      * intros os xs e2 m2 s2 w2 L2 A2 R2 H2. unfold emit_value, st0 in H2. cbn [next blk app] in H2.
        apply (frame_at (k (OVar m2)) [Visit (Some m2) f os] (Datatypes.S m2)) in H2 as (s3 & H3 & ->); [|apply F|reflexivity].
        cbn [put blk app]. rewrite exec_cons. rewrite (visit_exec e2 m2 f cv os xs); [|eapply Rc_keep; eauto|exact R2].
        rewrite then_assoc. apply then_ext. intros y w3. cbn [then_]. eapply D; [| | |exact H3].
        -- lia.
        -- eapply agree_trans; [exact L|exact A|]. eapply agree_trans; [exact L2|exact A2|]. apply agree_update. lia.
        -- split; [|lia]. cbn. unfold update. now rewrite Nat.eqb_refl.
  - intros m sc rho k K e n s w F S D H. apply SIL in H as (s' & H & ->); [|exact F]. rewrite exec_silent. cbn [then_].
    eapply D; [| | |exact H]; auto using agree_refl. reflexivity.
  - intros x IH sc rho k K e n s w F S D H. rewrite then_assoc. eapply IH; [exact F|exact S| |exact H].
    intros o v e' m s' w' L A R H'. cbn [then_]. eapply D; eauto.
  - intros sc rho k K e n s w F S D H. cbn [then_]. eapply D; [| | |exact H]; auto using agree_refl. constructor.
  - intros x IHx l IHl sc rho k K e n s w F S D H. rewrite then_assoc. refine (IHx sc rho _ _ e n s w _ S _ H).
    + intros o. apply frame_expr. intros os. apply F.
    + intros o v e' m s' w' L A R H'. cbv beta in H'. rewrite then_assoc. refine (IHl sc rho _ _ e' m s' w' _ _ _ H').
      * intros os. apply F.
      * eapply scope_keep; eauto.
      * intros os vs e2 m2 s2 w2 L2 A2 R2 H2. cbn [then_]. eapply D; [| | |exact H2]; [lia|eapply agree_trans; eauto|].
        constructor; [eapply R1_keep; eauto|exact R2].
Qed.

Lemma simple_does f c e n : Rc e n f c ->
  does Rl (fun os s => Some (emit Discard (emit (Visit None f os) s))) (fun xs w => then_ (call I c xs w) (fun _ w => (Value tt, w))) e n.
Proof.
  intros C os xs e' m s w L A R H. injection H as <-. unfold emit, st0. cbn [blk app]. rewrite exec_cons.
  rewrite (visit_exec e' m f c os xs); [|eapply Rc_keep; eauto|exact R]. rewrite then_assoc. apply then_ext. intros y w'. reflexivity.
Qed.

Lemma closed_exec b e w (K : W -> outcome unit * W) b2 : ends b = true -> (forall w, exec_block I (to_block b2) e w = K w) ->
  exec_block I (to_block (closed_before b ++ b2)) e w = then_ (exec_block I (to_block b) e w) (fun _ w => K w).
Proof.
  intros E H. unfold closed_before. rewrite E. cbn [app]. rewrite exec_cons. cbn [exec_op]. rewrite then_assoc. apply then_ext. intros [] w'. cbn [then_]. apply H.
Qed.

Lemma frame_discard (g : operand) : framed (fun os s => Some (emit Discard (emit (Visit None g os) s))).
Proof. intros os. apply frame_simple. Qed.

Lemma frame_body sc fn (t e : forms) : framed (fun o s =>
      match gen_forms sc fn t {| blk := []; next := next s |} with
      | Some st => match gen_forms sc fn e {| blk := []; next := next st |} with
                   | Some se => Some {| blk := blk s ++ [MatchIf o (to_block (blk st)) (to_block (blk se))]; next := next se |}
                   | None => None
                   end
      | None => None
      end).
Proof. intros o b n E. cbn [next blk st0]. destruct (gen_forms sc fn t _); [|reflexivity]. destruct (gen_forms sc fn e _); reflexivity. Qed.
Lemma frame_clauses sc fn cs : framed (fun o s => let s := close s in
             match gen_clauses sc fn cs (next s) with Some (os, n) => Some {| blk := blk s ++ [Match o None os]; next := n |} | None => None end).
Proof.
  intros o b n E. cbv zeta. rewrite !close_open by (try exact E; reflexivity).
  cbn [next blk st0]. destruct (gen_clauses sc fn cs n) as [[os m]|]; reflexivity.
Qed.

(* the counter only grows *)
Definition grows {A} (k : cont A) : Prop := forall a s s', k a s = Some s' -> next s <= next s'.
Lemma close_next s : next (close s) = next s. Proof. unfold close. now destruct (ends (blk s)). Qed.
Lemma mk_grows o key k s s' : grows k -> match_key o key k s = Some s' -> next s <= next s'.
Proof. intros G. unfold match_key. destruct (k _ _) as [s1|] eqn:E; [|discriminate]. intros H. injection H as <-. apply G in E. cbn in *. lia. Qed.
Lemma nodes_grow : (forall n sc o k s s', grows k -> gen_node sc n o k s = Some s' -> next s <= next s') /\
  (forall l sc o k s s', grows k -> gen_nodes sc l o k s = Some s' -> next s <= next s').
Proof.
  apply node_nodes_ind; cbn [gen_node gen_nodes]; unfold lookup; intros; try (apply mk_grows in H0; [|exact H]; cbn [emit next] in H0; rewrite ?close_next in H0; exact H0).
  - apply mk_grows in H0; [cbn [emit next] in H0; rewrite ?close_next in H0; exact H0|]. intros o' s1 s2 X. apply H in X. cbn in X. lia.
  - destruct (nth_error sc v); [|discriminate]. apply mk_grows in H0; [|exact H]. now rewrite close_next in H0.
  - destruct (nth_error sc root); [|discriminate]. cbv zeta in H1. rewrite <- (close_next s). destruct l.
    + apply mk_grows in H1; [|exact H0]. now rewrite close_next in H1.
    + eapply H; [|exact H1]. intros kv s1 s2 X. apply mk_grows in X; [|exact H0]. now rewrite close_next in X.
  - eapply H; [|exact H2]. intros o' s1 s2. now apply H0.
Qed.
Lemma expr_grows : (forall e sc k s s', grows k -> gen_expr sc e k s = Some s' -> next s <= next s') /\
  (forall c sc k s s', grows k -> gen_callee sc c k s = Some s' -> next s <= next s') /\
  (forall l sc k s s', grows k -> gen_exprs sc l k s = Some s' -> next s <= next s').
Proof.
  apply expr_all_ind; cbn [gen_expr gen_callee gen_exprs]; unfold gen_path, lookup; intros; try (now eapply H; eassumption); try (apply H in H0; exact H0).
  - destruct (nth_error sc v); [|discriminate]. eapply H; eassumption.
  - destruct (nth_error sc root); [|discriminate]. destruct l; [eapply H; eassumption|]. eapply nodes_grow; eassumption.
  - rewrite <- (close_next s). refine (H _ _ _ _ _ H2). intros f s1 s2 X. refine (H0 _ _ _ _ _ X). intros os s3 s4 Y. apply H1 in Y. cbn in Y. lia.
  - refine (H _ _ _ _ _ H2). intros f s1 s2 X. refine (H0 _ _ _ _ _ X). intros os s3 s4 Y. eapply H1, Y.
Qed.
Lemma discard_grows g : grows (fun os s => Some (emit Discard (emit (Visit None g os) s))).
Proof. intros os s s' H. injection H as <-. cbn. lia. Qed.
Lemma form_grows : (forall f sc fn s s', gen_form sc fn f s = Some s' -> next s <= next s') /\
  (forall l sc fn s s', gen_forms sc fn l s = Some s' -> next s <= next s') /\
  (forall cs sc fn n os m, gen_clauses sc fn cs n = Some (os, m) -> n <= m).
Proof.
  apply form_all_ind; cbn [gen_form gen_forms gen_clauses].
  - intros args sc fn s s'. destruct args; [discriminate|]. destruct (no_visits (XCons e args)); [|discriminate]. intros H. rewrite <- (close_next s).
    eapply expr_grows; [|exact H]. apply discard_grows.
  - intros c args sc fn s s' H. rewrite <- (close_next s). eapply (proj1 (proj2 expr_grows)); [|exact H]. intros g s1 s2. apply expr_grows, discard_grows.
  - intros e cs IH sc fn s s'. destruct (is_path e); [|discriminate]. apply expr_grows. intros o s1 s2. cbv zeta.
    destruct (gen_clauses _ _ _ _) as [[os n]|] eqn:E; [|discriminate]. apply IH in E. rewrite close_next in E. intros X. injection X as <-. exact E.
  - intros c t IHt e IHe sc fn s s'. apply expr_grows. intros o s1 s2. destruct (gen_forms sc fn t _) as [st|] eqn:E; [|discriminate].
    destruct (gen_forms sc fn e _) as [se|] eqn:E2; [|discriminate]. apply IHt in E. apply IHe in E2. intros X. injection X as <-. cbn in *. lia.
  - intros v sc fn s s'. unfold lookup. destruct (nth_error sc v); [|discriminate]. intros X. injection X as <-. cbn. lia.
  - intros sc fn s s' H. injection H as <-. lia.
  - intros f IHf r IHr sc fn s s'. destruct (gen_form sc fn f s) as [s1|] eqn:E; [|discriminate]. intros H. apply IHf in E. apply IHr in H. lia.
  - intros sc fn n os m H. injection H as <- <-. lia.
  - intros ty body IHb r IHr sc fn n os m. destruct (gen_forms _ _ _ _) as [s|] eqn:E; [|discriminate]. destruct (gen_clauses _ _ _ _) as [[os' m']|] eqn:E2; [|discriminate].
    intros H. injection H as <- <-. apply IHb in E. apply IHr in E2. cbn in E. lia.
Qed.

Lemma scope_snoc e n sc rho y : scope_of e n sc rho -> scope_of (update e n y) (S n) (sc ++ [n]) (rho ++ [y]).
Proof.
  intros H. apply Forall2_app; [|constructor; [|constructor]].
  - eapply scope_keep; [| |exact H]; [lia|apply agree_update; lia].
  - split; [lia|]. unfold update. now rewrite Nat.eqb_refl.
Qed.

Lemma calls_visits args : no_calls args -> no_visits args = true.
Proof. induction args as [|x args IH]; [reflexivity|]. cbn. destruct x; tauto. Qed.
Lemma path_is e : a_path e -> is_path e = true.
Proof. destruct e; cbn; tauto. Qed.
Lemma form_does : (forall f sc rho fn fv e n m s w, form_ok m f -> scope_of e n sc rho -> fn < n -> e fn = Some fv -> gen_form sc fn f (st0 n) = Some s ->
    exec_block I (to_block (blk s)) e w = run_form I rho fv f w) /\
  (forall l sc rho fn fv e n m b s w, rest_ok m l -> (b = [] /\ body_ok m l) \/ (ends b = true /\ follow_ok l) -> scope_of e n sc rho -> fn < n -> e fn = Some fv ->
    gen_forms sc fn l {| blk := b; next := n |} = Some s ->
    exec_block I (to_block (blk s)) e w = then_ (exec_block I (to_block b) e w) (fun _ w => run_forms I rho fv l w)) /\
  (forall cs sc rho fn fv e n0 n os n' m ty y w, clauses_ok m cs -> n0 <= n -> scope_of e n0 sc rho -> fn < n0 -> e fn = Some fv ->
    gen_clauses sc fn cs n = Some (os, n') -> exec_overloads I os ty y e w = run_clauses I rho fv cs ty y w).
Proof.
  assert (BODY : forall l m, body_ok m l -> rest_ok m l) by (intros [|f r] m; cbn; tauto).
  apply form_all_ind; cbn [gen_form gen_forms gen_clauses run_form run_forms run_clauses].
  - intros args sc rho fn fv e n m s w OK S L E H. destruct args as [|x args]; [discriminate|]. destruct (no_visits (XCons x args)); [|discriminate].
    rewrite close_open in H by reflexivity. refine (proj2 (proj2 expr_does) _ sc rho _ _ e n s w (frame_discard _) S _ H).
    intros os xs e' n' s' w' L' A R H'. refine (simple_does (OVar fn) (inr fv) e' n' _ os xs e' n' s' w' _ (agree_refl _ _) R H'); [|lia].
    cbn. split; [|lia]. cbn. rewrite A by exact L. exact E.
  - intros c args sc rho fn fv e n m s w OK S L E H. rewrite close_open in H by reflexivity. refine (proj1 (proj2 expr_does) _ sc rho _ _ e n s w _ S _ H).
    + intros g. apply frame_expr. apply frame_discard.
    + intros g cv e' n' s' w' L' A R H'. refine (proj2 (proj2 expr_does) _ sc rho _ _ e' n' s' w' (frame_discard _) _ _ H'); [eapply scope_keep; eauto|].
      now apply simple_does.
  - intros x cs IH sc rho fn fv e n m s w (P & OKx & TY & OK) S L E H. rewrite (path_is _ P) in H.
    refine (proj1 expr_does _ sc rho _ _ e n s w (frame_clauses _ _ _) S _ H).
    intros o v e' n' s' w' L' A [R B] H'. cbv zeta in H'. rewrite close_open in H' by reflexivity. cbn [next blk st0] in H'.
    destruct (gen_clauses sc fn cs n') as [[os n2]|] eqn:G; [|discriminate]. injection H' as <-. cbn [blk app]. rewrite exec_one. cbn [exec_op].
    rewrite R. cbn [given key_value]. rewrite !then_assoc. apply then_ext. intros [ty y] w2. cbn [fst snd]. rewrite then_tt.
    eapply IH; [exact OK| | | | |exact G]; [reflexivity|eapply scope_keep; eauto|lia|]. rewrite A by exact L. exact E.
  - intros c t IHt x IHx sc rho fn fv e n m s w (OKc & OKt & OKx) S L E H.
    refine (proj1 expr_does _ sc rho _ _ e n s w (frame_body _ _ _ _) S _ H).
    intros o v e' n' s' w' L' A [R B] H'. cbn [next blk st0] in H'. destruct (gen_forms sc fn t _) as [st|] eqn:Gt; [|discriminate].
    destruct (gen_forms sc fn x _) as [se|] eqn:Ge; [|discriminate]. injection H' as <-. cbn [blk app]. rewrite exec_one. cbn [exec_op]. rewrite R. cbn [given].
    rewrite then_tt. pose proof (proj1 (proj2 form_grows) _ _ _ _ _ Gt) as Gr. cbn [next] in Gr. destruct (i_truth I v).
    + etransitivity; [exact (IHt sc rho fn fv e' n' m [] st w' (BODY _ _ OKt) (or_introl (conj eq_refl OKt)) (scope_keep _ _ _ _ _ _ L' A S) ltac:(lia) ltac:(rewrite A by exact L; exact E) Gt)|reflexivity].
    + etransitivity; [exact (IHx sc rho fn fv e' (next st) m [] se w' (BODY _ _ OKx) (or_introl (conj eq_refl OKx)) (scope_keep e e' n (next st) sc rho ltac:(lia) A S) ltac:(lia) ltac:(rewrite A by exact L; exact E) Ge)|reflexivity].
  - intros v sc rho fn fv e n m s w OK S L E H. unfold lookup in H. destruct (nth_error sc v) as [i|] eqn:X; [|discriminate].
    destruct (scope_nth _ _ _ _ _ _ S X) as (y & Ey & Ry & _). injection H as <-. cbn [emit blk st0 app]. rewrite exec_one. cbn [exec_op]. now rewrite Ry.
  - intros sc rho fn fv e n m b s w OK C S L E H. injection H as <-. cbn [blk]. destruct (exec_block I (to_block b) e w) as [[[]| |] w']; reflexivity.
  - intros f IHf r IHr sc rho fn fv e n m b s w [OKf OKr] C S L E H. cbn [rest_ok] in OKr.
    assert (M : may_follow f \/ ends b = false) by (destruct C as [[-> _]|[_ [M _]]]; auto).
    assert (Fr : follow_ok r) by (destruct C as [[_ C]|[_ C]]; cbn in C; tauto).
    rewrite (form_after _ _ _ _ _ M) in H. destruct (gen_form sc fn f (st0 n)) as [s1|] eqn:G; [|discriminate]. cbn [option_map] in H.
    pose proof (form_ends _ _ _ _ _ G) as En. pose proof (proj1 form_grows _ _ _ _ _ G) as Gr. cbn [next st0] in Gr.
    assert (X : forall w, exec_block I (to_block (blk s1)) e w = run_form I rho fv f w) by (intros; eapply IHf; eauto).
    assert (En' : ends (closed_before b ++ blk s1) = true).
    { destruct (blk s1) as [|z l]; [discriminate En|]. clear -En. revert En. generalize (closed_before b). intros c En. induction c as [|d c IH]; [exact En|].
      cbn [app ends]. destruct (c ++ z :: l) eqn:Q; [destruct c; discriminate|exact IH]. }
    rewrite (IHr sc rho fn fv e (next s1) m _ s w OKr (or_intror (conj En' Fr)) (scope_keep _ _ _ _ _ _ Gr (agree_refl _ _) S) ltac:(lia) E H).
    rewrite <- then_assoc. destruct C as [[-> _]|[Eb _]].
    + change (closed_before [] ++ blk s1) with (blk s1). rewrite X. reflexivity.
    + rewrite (closed_exec _ _ _ (fun w => run_form I rho fv f w)); auto.
  - intros sc rho fn fv e n0 n os n' m ty y w OK L0 S L E H. injection H as <- <-. reflexivity.
  - intros t body IHb r IHr sc rho fn fv e n0 n os n' m ty y w [OKb OKr] L0 S L E H. destruct (gen_forms _ _ _ _) as [s|] eqn:Gb; [|discriminate].
    destruct (gen_clauses _ _ _ _) as [[os' m']|] eqn:Gc; [|discriminate]. injection H as <- <-. cbn [exec_overloads].
    pose proof (proj1 (proj2 form_grows) _ _ _ _ _ Gb) as Gr. cbn [next] in Gr.
    destruct (bytes_eqb t [] || bytes_eqb t ty).
    + etransitivity; [exact (IHb _ (rho ++ [y]) fn fv (update e n y) (Datatypes.S n) _ [] s w (BODY _ _ OKb) (or_introl (conj eq_refl OKb)) (scope_snoc _ _ _ _ _ (scope_keep _ _ _ _ _ _ L0 (agree_refl _ _) S))
         ltac:(lia) ltac:(unfold update; destruct (Nat.eqb_spec n fn); [lia|exact E]) Gb)|reflexivity].
    + eapply IHr; [exact OKr| | | | |exact Gc]; [|exact S|exact L|exact E]. lia.
Qed.
End Meaning.

(* ---- what is built is accepted ---- *)
Section Static.
Context (P : list N -> Prop).

Definition good (D : list nat) (b : list op) : Prop := block_ok D (to_block b) /\ block_verified (to_block b) /\ Forall P (block_texts (to_block b)).
Definition ok1 (D : list nat) (o : operand) : Prop := operand_ok D o /\ Forall P (operand_texts o).
Definition okc (args : exprs) (D : list nat) (o : operand) : Prop := match o with OMember _ => args <> XNil | _ => ok1 D o end.
Definition okl (l : exprs) (D : list nat) (os : list operand) : Prop := Forall (ok1 D) os /\ (l <> XNil -> os <> []).

Lemma good_cons D o b : op_ok D o -> ~ terminates o -> op_verified o -> Forall P (op_texts o) -> good (result_of o ++ D) b -> good D (o :: b).
Proof.
  intros A T Q X (B & C & E). repeat split.
  - exact A. - exact B. - exact Q.
  - destruct b; [contradiction|]. split; [exact T|exact C].
  - change (Forall P (op_texts o ++ block_texts (to_block b))). apply Forall_app; auto.
Qed.
Lemma good_one D o : op_ok D o -> terminates o -> op_verified o -> Forall P (op_texts o) -> good D [o].
Proof. intros A T Q X. repeat split; auto. change (Forall P (op_texts o ++ [])). now rewrite app_nil_r. Qed.
Lemma ok1_keep D D' o : incl D D' -> ok1 D o -> ok1 D' o.
Proof. intros L [A B]. split; [|exact B]. destruct o; cbn in *; auto. Qed.

Definition yields {A} (ok : list nat -> A -> Prop) (k : cont A) (D : list nat) (n : nat) : Prop :=
  forall a m D', n <= m -> incl D D' -> Forall (fun i => i < m) D' -> ok D' a -> exists s, k a (st0 m) = Some s /\ good D' (blk s).
Lemma yields_keep {A} (ok : list nat -> A -> Prop) k D D' n m : n <= m -> incl D D' -> yields ok k D n -> yields ok k D' m.
Proof. intros L S H a m' E L' S' B O. apply H; auto; [lia|]. eapply incl_tran; eauto. Qed.
Lemma Forall_lt n m D : n <= m -> Forall (fun i => i < n) D -> Forall (fun i => i < m) D.
Proof. intros L. apply Forall_impl. intros i. lia. Qed.
Lemma fresh n D : Forall (fun i => i < n) D -> ~ In n D.
Proof. intros H X. apply (proj1 (Forall_forall _ _) H) in X. lia. Qed.

Lemma mk_good o key k D n : ok1 D o -> match key with Some x => ok1 D x | None => True end -> Forall (fun i => i < n) D -> yields ok1 k D n ->
  exists s, match_key o key k (st0 n) = Some s /\ good D (blk s).
Proof.
  intros [O1 O2] Kk B Y. destruct (Y (OVar n) (S n) (n :: D)) as (s & E & G1 & G2 & G3).
  - lia. - intros i Hi. now right. - constructor; [lia|]. now apply (Forall_lt n); [lia|]. - split; [now left|constructor].
  - unfold match_key. cbn [next blk st0]. change {| blk := []; next := S n |} with (st0 (S n)). rewrite E. eexists. split; [reflexivity|]. cbn [blk app]. apply good_one.
    + refine (conj O1 (conj _ (conj (conj (fun H => H) (conj (fun _ => eq_refl) Logic.I)) (conj (fresh _ _ B) (conj G1 Logic.I))))).
      destruct key as [x|]; [destruct Kk as [Kk _]; destruct x; cbn in *; auto|exact Logic.I].
    + exact Logic.I.
    + cbn [op_verified overloads_verified]. split; [exact G2|exact Logic.I].
    + cbn [op_texts overloads_texts]. rewrite !Forall_app. repeat split; auto. destruct key as [x|]; [apply Kk|constructor].
Qed.
Lemma mk_good_silent o key k D n : ok1 D o -> match key with Some x => ok1 D x | None => True end -> Forall (fun i => i < n) D -> yields ok1 k D n ->
  exists s, match_key o key k (emit Silent (st0 n)) = Some s /\ good D (blk s).
Proof.
  intros O Kk B Y. destruct (mk_good o key k D n O Kk B Y) as (s & E & G). unfold emit. cbn [blk next st0 app]. rewrite mk_put, E. eexists. split; [reflexivity|].
  cbn [put blk app]. apply good_cons; cbn; auto.
Qed.
Lemma silent_good {A} (ok : list nat -> A -> Prop) k D n a : framed k -> yields ok k D n -> Forall (fun i => i < n) D -> ok D a ->
  exists s, k a (emit Silent (st0 n)) = Some s /\ good D (blk s).
Proof.
  intros F Y B O. destruct (Y a n D (le_n _) (incl_refl _) B O) as (s & E & G). unfold emit. cbn [blk next st0 app].
  rewrite (F a [Silent] n eq_refl), E. eexists. split; [reflexivity|]. cbn [put blk app]. apply good_cons; cbn; auto.
Qed.
Lemma scope_at (sc : list nat) v D (n : nat) : v < length sc -> incl sc D -> exists i, nth_error sc v = Some i /\ In i D.
Proof. intros L H. destruct (nth_error sc v) as [i|] eqn:E; [|apply nth_error_None in E; lia]. exists i. split; auto. apply H. eapply nth_error_In, E. Qed.
Lemma ok_var D i : In i D -> ok1 D (OVar i). Proof. intros H. split; [exact H|constructor]. Qed.

Lemma node_good : (forall nd sc o k D n, node_ok (length sc) nd -> Forall P (node_texts nd) -> incl sc D -> Forall (fun i => i < n) D -> ok1 D o ->
    framed k -> yields ok1 k D n -> exists s, gen_node sc nd o k (st0 n) = Some s /\ good D (blk s)) /\
  (forall l sc o k D n, nodes_ok (length sc) l -> Forall P (nodes_texts l) -> incl sc D -> Forall (fun i => i < n) D -> ok1 D o ->
    framed k -> yields ok1 k D n -> exists s, gen_nodes sc l o k (st0 n) = Some s /\ good D (blk s)).
Proof.
  apply node_nodes_ind; cbn [gen_node gen_nodes node_ok nodes_ok node_texts nodes_texts].
  - intros t sc o k D n OK T S B O F Y. rewrite close_open by reflexivity. apply mk_good_silent; auto. split; [exact OK|exact T].
  - intros t sc o k D n OK T S B O F Y. rewrite close_open by reflexivity. apply mk_good_silent; auto. split; [exact OK|constructor].
  - intros t sc o k D n OK T S B O F Y. rewrite close_open by reflexivity. apply mk_good_silent; auto. split; [exact OK|constructor].
  - intros m sc o k D n OK T S B O F Y. rewrite close_open by reflexivity. apply mk_good_silent; auto.
    intros o' m' D' L L' B' [O1 O2]. unfold emit_value. cbn [next blk st0 app].
    destruct (Y (OVar m') (Datatypes.S m') (m' :: D')) as (s & E & G).
    + lia. + intros i Hi. right. auto. + constructor; [lia|]. apply (Forall_lt m'); [lia|exact B']. + apply ok_var. now left.
    + rewrite (F _ [Get m' o' (Some (OMember m))] _ eq_refl), E. eexists. split; [reflexivity|]. cbn [put blk app]. apply good_cons; cbn; auto.
      * split; [now apply fresh|]. split; [exact O1|exact Logic.I].
      * now rewrite app_nil_r.
  - intros v sc o k D n OK T S B O F Y. rewrite close_open by reflexivity. unfold lookup. destruct (scope_at sc v D n OK S) as (i & -> & Hi).
    apply mk_good; auto. now apply ok_var.
  - intros root l IH sc o k D n [OK OKl] T S B O F Y. rewrite close_open by reflexivity. unfold lookup. destruct (scope_at sc root D n OK S) as (i & -> & Hi). cbv zeta.
    destruct l as [|nd l].
    + rewrite close_open by reflexivity. apply mk_good; auto. now apply ok_var.
    + apply IH; auto.
      * now apply ok_var.
      * intros kv. apply (frame_close (match_key o (Some kv) k)), mk_frame.
      * intros kv m D' L L' B' O'. rewrite close_open by reflexivity. apply mk_good; auto; [eapply ok1_keep; eauto|eapply yields_keep; eauto].
  - intros sc o k D n OK T S B O F Y. now apply mk_good.
  - intros nd IHn l IHl sc o k D n [OKn OKl] T S B O F Y. apply Forall_app in T as [Tn Tl]. apply IHn; auto.
    + intros o'. apply frame_nodes.
    + intros o' m D' L L' B' O'. apply IHl; auto; [eapply incl_tran; eauto|eapply yields_keep; eauto].
Qed.

Lemma value_good k D n (f : nat -> op) : framed k -> yields ok1 k D n -> Forall (fun i => i < n) D ->
  (forall r, result_of (f r) = [r] /\ op_verified (f r) /\ ~ terminates (f r) /\ terminator (f r) = false /\ Forall P (op_texts (f r))) -> op_ok D (f n) ->
  exists s, k (OVar n) (emit_value f (st0 n)) = Some s /\ good D (blk s).
Proof.
  intros F Y B Hf O. unfold emit_value. cbn [next blk st0 app]. destruct (Hf n) as (R & Vf & T & Te & X).
  destruct (Y (OVar n) (S n) (n :: D)) as (s & E & G).
  - lia. - intros i Hi. now right. - constructor; [lia|]. apply (Forall_lt n); [lia|exact B]. - apply ok_var. now left.
  - rewrite (F _ [f n] _ Te), E. eexists. split; [reflexivity|]. cbn [put blk app]. apply good_cons; auto. now rewrite R.
Qed.

Lemma visit_ok D r f os args : okc args D f -> okl args D os -> match r with Some r => ~ In r D | None => True end ->
  op_ok D (Visit r f os) /\ Forall P (op_texts (Visit r f os)).
Proof.
  intros C [L Ne] R. assert (A : Forall (operand_ok D) os) by (eapply Forall_impl; [|exact L]; intros o [X _]; exact X).
  assert (B : Forall P (flat_map operand_texts os)). { apply Forall_flat_map. eapply Forall_impl; [|exact L]. intros o [_ X]. exact X. }
  split.
  - cbn [op_ok]. repeat split; auto. destruct f; cbn [okc] in C; try apply C; auto.
  - cbn [op_texts]. apply Forall_app. split; [|exact B]. destruct f; cbn [okc] in C; try apply C. constructor.
Qed.

Lemma okc_keep args D D' o : incl D D' -> okc args D o -> okc args D' o.
Proof. intros L H. destruct o; cbn [okc] in *; auto; eapply ok1_keep; eauto. Qed.

Lemma expr_good : (forall x sc k D n, expr_ok (length sc) x -> Forall P (expr_texts x) -> incl sc D -> Forall (fun i => i < n) D ->
    framed k -> yields ok1 k D n -> exists s, gen_expr sc x k (st0 n) = Some s /\ good D (blk s)) /\
  (forall c args sc k D n, callee_ok (length sc) c args -> Forall P (callee_texts c) -> incl sc D -> Forall (fun i => i < n) D ->
    framed k -> yields (okc args) k D n -> exists s, gen_callee sc c k (st0 n) = Some s /\ good D (blk s)) /\
  (forall l sc k D n, exprs_ok (length sc) l -> Forall P (exprs_texts l) -> incl sc D -> Forall (fun i => i < n) D ->
    framed k -> yields (okl l) k D n -> exists s, gen_exprs sc l k (st0 n) = Some s /\ good D (blk s)).
Proof.
  apply expr_all_ind; cbn [gen_expr gen_callee gen_exprs expr_ok callee_ok exprs_ok expr_texts callee_texts exprs_texts].
  - intros v sc k D n OK T S B F Y. unfold lookup. destruct (scope_at sc v D n OK S) as (i & -> & Hi). apply Y; auto using incl_refl. now apply ok_var.
  - intros t sc k D n OK T S B F Y. eapply silent_good; eauto. split; [exact OK|exact T].
  - intros t sc k D n OK T S B F Y. eapply silent_good; eauto. split; [exact OK|constructor].
  - intros t sc k D n OK T S B F Y. eapply silent_good; eauto. split; [exact OK|constructor].
  - intros root l sc k D n [OK OKl] T S B F Y. unfold gen_path, lookup. destruct (scope_at sc root D n OK S) as (i & -> & Hi). destruct l as [|nd l].
    + apply Y; auto using incl_refl. now apply ok_var.
    + apply (proj2 node_good); auto. now apply ok_var.
  - intros c IHc args IHa sc k D n [OKc OKa] T S B F Y. apply Forall_app in T as [Tc Ta]. rewrite close_open by reflexivity.
    apply (IHc args); auto.
    + intros f. apply frame_expr. intros os. apply (frame_value k); auto.
    + intros f m D' L L' B' C. apply IHa; auto.
      * eapply incl_tran; eauto.
      * intros os. apply (frame_value k); auto.
      * intros os m2 D2 L2 L2' B2 O2. apply (value_good k D2 m2); auto.
        -- eapply yields_keep; [| |exact Y]; [lia|eapply incl_tran; eauto].
        -- intros r. repeat split; auto. apply (visit_ok D2 None f os args); auto. eapply okc_keep; eauto.
        -- apply (visit_ok D2 (Some m2) f os args); auto; [eapply okc_keep; eauto|now apply fresh].
  - intros m args sc k D n OK T S B F Y. eapply silent_good; eauto.
  - intros x IH args sc k D n OK T S B F Y. apply IH; auto. intros o m D' L L' B' O. apply Y; auto. destruct o; cbn [okc]; auto. destruct O as [[] _].
  - intros sc k D n OK T S B F Y. apply Y; auto using incl_refl. split; [constructor|congruence].
  - intros x IHx l IHl sc k D n [OKx OKl] T S B F Y. apply Forall_app in T as [Tx Tl]. apply IHx; auto.
    + intros o. apply frame_expr. intros os. apply F.
    + intros o m D' L L' B' O. apply IHl; auto; [eapply incl_tran; eauto|intros os; apply F|].
      intros os m2 D2 L2 L2' B2 [O2 _]. apply Y; auto; [lia|eapply incl_tran; eauto|]. split; [|discriminate]. constructor; [eapply ok1_keep; eauto|exact O2].
Qed.

Lemma simple_good f args D n : okc args D f -> yields (okl args) (fun os s => Some (emit Discard (emit (Visit None f os) s))) D n.
Proof.
  intros C os m D' L L' B O. eexists. split; [reflexivity|]. unfold emit. cbn [blk st0 app].
  destruct (visit_ok D' None f os args (okc_keep _ _ _ _ L' C) O Logic.I) as [V X]. apply good_cons; auto; try (exact Logic.I).
  apply good_one; cbn; auto.
Qed.

Lemma good_nonempty D b : good D b -> to_block b <> BNil.
Proof. intros (_ & C & _) E. rewrite E in C. exact C. Qed.

Lemma closed_good D b b2 : good D b -> ends b = true -> good D b2 -> good D (closed_before b ++ b2).
Proof.
  intros (A & C & X) E G. unfold closed_before. rewrite E. cbn [app]. apply good_cons; auto.
Qed.

Lemma if_last D b : good D b -> match to_block b with BCons (MatchIf _ _ _) r => r = BNil | _ => True end.
Proof.
  intros (_ & C & _). destruct b as [|o r]; [exact Logic.I|]. cbn [to_block] in *. destruct o; auto. destruct r; [reflexivity|]. destruct C as [_ [C _]]. destruct (C Logic.I).
Qed.

Lemma form_good : (forall f sc fn D n, form_ok (length sc) f -> Forall P (form_texts f) -> incl sc D -> In fn D -> Forall (fun i => i < n) D ->
    exists s, gen_form sc fn f (st0 n) = Some s /\ good D (blk s)) /\
  (forall l sc fn D n b, rest_ok (length sc) l -> Forall P (forms_texts l) -> incl sc D -> In fn D -> Forall (fun i => i < n) D ->
    (b = [] /\ body_ok (length sc) l) \/ (good D b /\ ends b = true /\ follow_ok l) ->
    exists s, gen_forms sc fn l {| blk := b; next := n |} = Some s /\ good D (blk s)) /\
  (forall cs sc fn D n, clauses_ok (length sc) cs -> Forall P (clauses_texts cs) -> incl sc D -> In fn D -> Forall (fun i => i < n) D ->
    exists os m, gen_clauses sc fn cs n = Some (os, m) /\ overloads_ok D os /\ types_of os = clause_types cs /\ overloads_verified os /\ Forall P (overloads_texts os)).
Proof.
  assert (BODY : forall l m, body_ok m l -> rest_ok m l) by (intros [|f r] m; cbn; tauto).
  apply form_all_ind; cbn [gen_form gen_forms gen_clauses form_texts forms_texts clauses_texts form_ok rest_ok clauses_ok].
  - intros args sc fn D n (Ne & NV & OK) T S Hf B. destruct args as [|x args]; [congruence|]. rewrite (calls_visits _ NV), close_open by reflexivity.
    apply (proj2 (proj2 expr_good)); auto; [apply frame_discard|]. apply simple_good. now apply ok_var.
  - intros c args sc fn D n [OKc OKa] T S Hf B. apply Forall_app in T as [Tc Ta]. rewrite close_open by reflexivity.
    apply (proj1 (proj2 expr_good) c args); auto.
    + intros g. apply frame_expr, frame_discard.
    + intros g m D' L L' B' C. apply (proj2 (proj2 expr_good)); auto; [eapply incl_tran; eauto|apply frame_discard|]. now apply simple_good.
  - intros x cs IH sc fn D n (IP & OKx & TY & OKc) T S Hf B. apply Forall_app in T as [Tx Tc]. rewrite (path_is _ IP). apply (proj1 expr_good); auto; [apply frame_clauses|].
    intros o m D' L L' B' [O1 O2]. cbv zeta. rewrite close_open by reflexivity. cbn [next blk st0 app].
    destruct (IH sc fn D' m) as (os & m' & -> & A1 & A2 & A3 & A4); auto; [eapply incl_tran; eauto|]. eexists. split; [reflexivity|]. cbn [blk]. apply good_one.
    + cbn [op_ok key_ok]. rewrite A2. auto.
    + exact Logic.I.
    + exact A3.
    + cbn [op_texts key_texts app]. apply Forall_app; auto.
  - intros c t IHt x IHx sc fn D n (OKc & OKt & OKx) T S Hf B. rewrite !Forall_app in T. destruct T as (Tc & Tt & Tx). apply (proj1 expr_good); auto; [apply frame_body|].
    intros o m D' L L' B' [O1 O2]. cbn [next blk st0 app].
    destruct (IHt sc fn D' m []) as (st & Et & Gt); auto; [eapply incl_tran; eauto|]. rewrite Et.
    pose proof (proj1 (proj2 form_grows) _ _ _ _ _ Et) as Gr. cbn [next] in Gr.
    destruct (IHx sc fn D' (next st) []) as (se & Ee & Ge); auto; [eapply incl_tran; eauto|apply (Forall_lt m); auto|]. rewrite Ee.
    eexists. split; [reflexivity|]. cbn [blk]. pose proof (good_nonempty _ _ Ge) as Ne. pose proof (if_last _ _ Ge) as IL.
    destruct Gt as (T1 & T2 & T3), Ge as (E1 & E2 & E3). apply good_one.
    + exact (conj O1 (conj T1 (conj E1 (conj Ne IL)))).
    + exact Logic.I.
    + exact (conj T2 E2).
    + change (Forall P (operand_texts o ++ block_texts (to_block (blk st)) ++ block_texts (to_block (blk se)))). rewrite !Forall_app. auto.
  - intros v sc fn D n OK T S Hf B. unfold lookup. destruct (scope_at sc v D n OK S) as (i & -> & Hi). eexists. split; [reflexivity|]. cbn [emit blk st0 app].
    apply good_one; cbn; auto.
  - intros sc fn D n b _ T S Hf B C. eexists. split; [reflexivity|]. cbn [blk]. destruct C as [[_ []]|[G _]]. exact G.
  - intros f IHf r IHr sc fn D n b [OKf OKr] T S Hf B C. apply Forall_app in T as [Tf Tr].
    assert (M : may_follow f \/ ends b = false) by (destruct C as [[-> _]|[_ [_ [M _]]]]; auto).
    assert (Fr : follow_ok r) by (destruct C as [[_ C]|[_ [_ C]]]; cbn in C; tauto).
    rewrite (form_after _ _ _ _ _ M). destruct (IHf sc fn D n) as (s & E & G); auto. rewrite E. cbn [option_map].
    pose proof (form_ends _ _ _ _ _ E) as En. pose proof (proj1 form_grows _ _ _ _ _ E) as Gr. cbn [next st0] in Gr.
    assert (En' : ends (closed_before b ++ blk s) = true).
    { destruct (blk s) as [|z l]; [discriminate En|]. clear -En. revert En. generalize (closed_before b). intros c En. induction c as [|d c IH]; [exact En|].
      cbn [app ends]. destruct (c ++ z :: l) eqn:Q; [destruct c; discriminate|exact IH]. }
    apply IHr; auto; [apply (Forall_lt n); auto|]. right. split; [|auto]. destruct C as [[-> _]|(Gb & Eb & _)]; [exact G|now apply closed_good].
  - intros sc fn D n _ _ _ _ _. exists ONil, n. repeat split. constructor.
  - intros ty body IHb r IHr sc fn D n [OKb OKr] T S Hf B. apply Forall_app in T as [Tb Tr].
    destruct (IHb (sc ++ [n]) fn (n :: D) (Datatypes.S n) []) as (s & E & G1 & G2 & G3).
    + rewrite app_length, Nat.add_1_r. now apply BODY.
    + exact Tb.
    + intros i Hi. apply in_app_iff in Hi as [Hi|[<-|[]]]; [right; auto|now left].
    + now right.
    + constructor; [lia|]. apply (Forall_lt n); [lia|exact B].
    + left. split; [reflexivity|]. rewrite app_length, Nat.add_1_r. exact OKb.
    + rewrite E. pose proof (proj1 (proj2 form_grows) _ _ _ _ _ E) as Gr. cbn [next] in Gr.
      destruct (IHr sc fn D (next s)) as (os & m & -> & A1 & A2 & A3 & A4); auto; [apply (Forall_lt n); [lia|exact B]|].
      exists (OCons ty n (to_block (blk s)) os), m. split; [reflexivity|]. repeat split; auto.
      * now apply fresh.
      * cbn. now rewrite A2.
      * change (Forall P (block_texts (to_block (blk s)) ++ overloads_texts os)). apply Forall_app; auto.
Qed.
End Static.
