(* C73: the forms of match-params-fn, the operations built for them, and the C++ written for those do the same. *)
From Coq Require Import String.
From Verif Require Import Base TrModel TrSpec TrProofs TrProps FeModel FeSpec FeProofs.
Open Scope N_scope.

Lemma func_good (P : list N -> Prop) name stores body : body_ok stores body -> Forall P (forms_texts body) ->
  exists f, gen_func name stores body = Some f /\ f_name f = name /\ f_params f = seq 0 (S stores) /\ f_results f = 0%nat /\
    block_ok (seq 0 (S stores)) (f_body f) /\ block_verified (f_body f) /\ Forall P (block_texts (f_body f)).
Proof.
  intros B T. destruct (proj1 (proj2 (form_good P)) body (seq 0 stores) stores (seq 0 (S stores)) (S stores) []) as (s & E & G1 & G2 & G3).
  - rewrite seq_length. destruct body; [destruct B|]. cbn in B |- *. tauto.
  - exact T.
  - intros i Hi. apply in_seq in Hi. apply in_seq. lia.
  - apply in_seq. lia.
  - apply Forall_forall. intros i Hi. apply in_seq in Hi. lia.
  - left. split; [reflexivity|]. now rewrite seq_length.
  - unfold gen_func. rewrite E. eexists. split; [reflexivity|]. cbn [f_name f_params f_results f_body]. auto 8.
Qed.

(* PARTIAL: the full statement asks only that variables are in scope; it fails for what body_ok excludes (refuted below, and
   in C70 for texts and types).
   The operations are built, they pass the verifier, and their translation is defined. *)
Theorem C73_accepted_partial name stores body : body_ok stores body ->
  exists f, gen_func name stores body = Some f /\ f_name f = name /\ f_params f = seq 0 (S stores) /\ f_results f = 0%nat /\
    block_verified (f_body f) /\ func_ok f.
Proof.
  intros B. destruct (func_good (fun _ => True) name stores body B) as (f & E & N & Ps & R & O & V & _); [apply Forall_forall; auto|].
  exists f. repeat split; auto; rewrite ?Ps, ?R; auto. apply seq_NoDup.
Qed.
Print Assumptions C73_accepted_partial.

Lemma bind_seq I : forall (args : list (V I)) k env i, bind_params I (seq k (length args)) args env i =
  if ((k <=? i) && (i <? k + length args))%nat then nth_error args (i - k) else env i.
Proof.
  induction args as [|x args IH]; intros k env i; cbn [length seq bind_params].
  - destruct (Nat.leb_spec k i), (Nat.ltb_spec i (k + 0)); cbn; auto; lia.
  - rewrite IH. unfold update. destruct (Nat.eqb_spec k i) as [->|Ne].
    + destruct (Nat.leb_spec (S i) i), (Nat.leb_spec i i), (Nat.ltb_spec i (i + S (length args))); cbn; try lia. now rewrite Nat.sub_diag.
    + destruct (Nat.leb_spec (S k) i), (Nat.leb_spec k i), (Nat.ltb_spec i (S k + length args)), (Nat.ltb_spec i (k + S (length args))); cbn; try lia; auto.
      now replace (i - k)%nat with (S (i - S k))%nat by lia.
Qed.

(* For all meanings of the names, all stores and every function given: the operations do what the forms say. *)
Theorem C73_meaning_partial name stores body f : body_ok stores body -> gen_func name stores body = Some f ->
  forall I args fn w, length args = stores -> run_func I f (args ++ [fn]) w = run_forms I args fn body w.
Proof.
  intros B G I args fn w L. unfold gen_func in G. destruct (gen_forms _ _ _ _) as [s|] eqn:E; [|discriminate]. injection G as <-. unfold run_func. cbn [f_body f_params].
  assert (Ln : length (args ++ [fn]) = S stores) by (rewrite app_length; cbn; lia).
  set (env := bind_params I (seq 0 (S stores)) (args ++ [fn]) (fun _ => None)).
  assert (En : forall i, (i < S stores)%nat -> env i = nth_error (args ++ [fn]) i).
  { intros i Hi. unfold env. rewrite <- Ln, bind_seq, Ln. destruct (Nat.leb_spec 0 i), (Nat.ltb_spec i (0 + S stores)); cbn; try lia. now rewrite Nat.sub_0_r. }
  change (exec_block I (to_block (blk s)) env w = run_forms I args fn body w).
  rewrite (proj1 (proj2 (form_does I)) body (seq 0 stores) args stores fn env (S stores) stores [] s w); auto.
  - destruct body; [destruct B|]. cbn in B |- *. tauto.
  - subst stores. clear - En. unfold scope_of.
    assert (A : forall k (l : list (V I)), (forall i, (i < length l)%nat -> env (k + i)%nat = nth_error l i) -> (k + length l <= S (length args))%nat ->
              Forall2 (fun i v => (i < S (length args))%nat /\ env i = Some v) (seq k (length l)) l).
    { intros k l. revert k. induction l as [|x l IH]; intros k H K; cbn [length seq]; [constructor|]. cbn [length] in K. constructor.
      - split; [lia|]. specialize (H 0%nat ltac:(cbn; lia)). now rewrite Nat.add_0_r in H.
      - apply IH; [|lia]. intros i Hi. specialize (H (S i) ltac:(cbn; lia)). now rewrite Nat.add_succ_r in H. }
    apply A; [|lia]. intros i Hi. cbn. rewrite En by lia. now rewrite nth_error_app1.
  - rewrite En by lia. rewrite nth_error_app2, L, Nat.sub_diag by lia. reflexivity.
Qed.
Print Assumptions C73_meaning_partial.

(* From the forms to the C++ (with C70). *)
Theorem C73_cpp_partial name stores body : body_ok stores body ->
  exists f text p, gen_func name stores body = Some f /\ write_func f = Wrote text /\ program_text p text /\ p_name p = name /\ length (p_params p) = S stores /\
    forall I args fn w, global_texts I (forms_texts body) -> length args = stores -> run_program I p (args ++ [fn]) w = run_forms I args fn body w.
Proof.
  intros B. destruct (func_good (fun t => In t (forms_texts body)) name stores body B) as (f & E & Nf & Ps & R & O & V & T); [now apply Forall_forall|].
  assert (F : func_ok f) by (repeat split; rewrite ?Ps, ?R; auto; apply seq_NoDup).
  destruct (C70_translation_partial f F) as (text & p & A1 & A2 & A3 & A4 & _ & _ & A7). exists f, text, p. repeat split; auto.
  - congruence.
  - rewrite A4, Ps. apply seq_length.
  - intros I args fn w G L. rewrite A7.
    + eapply C73_meaning_partial; eauto.
    + intros s Hs. apply G. apply (proj1 (Forall_forall _ _) T s Hs).
    + rewrite Ps, app_length, seq_length. cbn. lia.
Qed.
Print Assumptions C73_cpp_partial.

(* (match-params-fn f (a b fn)
     (match (get a 'k .m (get b 7))
       ("int" => (lambda (x) (fn x 5) (match-if (visit 'pred x (get b "s")) (noop x) (visit '.go b x))))
       (else => (lambda (x) (noop x))))
     (fn (get b)))  *)
Definition body_ex : forms :=
  FCons (MatchF (EPath 0 (NCons (NSym (bs "k")) (NCons (NMember (bs "m")) (NCons (NPath 1 (NCons (NNum 7) NNil)) NNil))))
    (KCons (bs "int") (FCons (Fn (XCons (EVar 2) (XCons (ENum 5) XNil)))
       (FCons (IfF (EVisit (CExpr (ESym (bs "pred"))) (XCons (EVar 2) (XCons (EPath 1 (NCons (NStr (bs "s")) NNil)) XNil)))
          (FCons (NoopF 2) FNil) (FCons (VisitF (CMember (bs "go")) (XCons (EVar 1) (XCons (EVar 2) XNil))) FNil)) FNil))
    (KCons [] (FCons (NoopF 2) FNil) KNil)))
  (FCons (Fn (XCons (EPath 1 NNil) XNil)) FNil).

Example C73_ex : body_ok 2 body_ex /\
  (match gen_func (bs "f") 2 body_ex with Some f => write_func f | None => Failed end) = Wrote (bs "void f(auto&& arg_0, auto&& arg_1, auto&& arg_2){
::nbdl::match(arg_0, k, [&]([[maybe_unused]] auto&& arg_3){
::nbdl::match(arg_3, [&]([[maybe_unused]] auto&& arg_4){
auto&& get_5 = arg_4.m;
::nbdl::match(arg_1, 7, [&]([[maybe_unused]] auto&& arg_6){
::nbdl::match(arg_6, [&]([[maybe_unused]] auto&& arg_7){
::nbdl::match(get_5, arg_7, [&]([[maybe_unused]] auto&& arg_8){
::nbdl::match(arg_8, [&]([[maybe_unused]] auto&& arg_9){
::nbdl::match(arg_9, boost::hana::overload([&]([[maybe_unused]] ::nbdl::SameAs<int> auto&& arg_10){
arg_2(arg_10,
5);
::nbdl::match(arg_1, ""s"", [&]([[maybe_unused]] auto&& arg_11){
::nbdl::match(arg_11, [&]([[maybe_unused]] auto&& arg_12){
auto&& result_13 = pred(arg_10,
arg_12);
if (result_13) {
(void)arg_10;
} else {
arg_1.go(arg_10);
}
});
});
},
[&]([[maybe_unused]] auto&& arg_14){
(void)arg_14;
}));
});
});
});
});
});
});
arg_2(arg_1);
}").
Proof. split; [|vm_compute; reflexivity]. cbn. repeat split; try lia; try discriminate; auto; try (repeat constructor; discriminate). intros [X|[]]; discriminate X. Qed.

Example C73_ex_run : run_forms trace [bs "ia"; bs "b"] (bs "g") body_ex [] = (Value tt, [bs "(g b )"; bs "(. **iak  m )"]) /\
  run_forms trace [bs "ia"; bs "b"] (bs "g") (FCons (Fn (XCons (EPath 0 (NCons (NNum 1) NNil)) (XCons (ESym (bs "x")) XNil))) FNil) [] = (Value tt, [bs "(g **ia1  x )"]).
Proof. split; vm_compute; reflexivity. Qed.

(* ---- where it fails ---- *)

Lemma verified_app b o l : block_verified (to_block (b ++ o :: l)) -> op_verified o /\ (ends b = true -> False).
Proof.
  induction b as [|x b IH]; cbn [app].
  - intros [H _]. split; [exact H|discriminate].
  - intros [_ H]. change (to_block (x :: b ++ o :: l)) with (BCons x (to_block (b ++ o :: l))) in *.
    assert (Q : ~ terminates x /\ block_verified (to_block (b ++ o :: l))) by (destruct b; exact H). destruct Q as [T Q]. apply IH in Q as [Q1 Q2].
    split; [exact Q1|]. destruct b as [|y b]; [|exact Q2]. intros E. apply T. cbn in E. destruct x; try discriminate; exact Logic.I.
Qed.

(* noop, and match-if on a variable, a literal or a path without keys, do not close what comes before them: after another
   form the verifier rejects the function. *)
Theorem C73_follow_refuted : forall name stores f g h, ~ may_follow g -> gen_func name stores (FCons f (FCons g FNil)) = Some h -> ~ block_verified (f_body h).
Proof.
  intros name stores f g h M H. unfold gen_func in H. cbn [gen_forms] in H. destruct (gen_form _ _ f _) as [s1|] eqn:E1; [|discriminate].
  destruct (gen_form _ _ g s1) as [s2|] eqn:E2; [|discriminate]. injection H as <-. cbn [f_body]. apply form_ends in E1.
  assert (Q : exists o l, blk s2 = blk s1 ++ o :: l).
  { destruct g as [| | |c t e|v]; cbn [may_follow] in M; try tauto.
    - destruct c as [v|t'|z|t'|root [|n l]|]; try tauto; cbn [gen_form gen_expr] in E2; unfold gen_path, lookup in E2;
        try (destruct (nth_error _ _); [|discriminate]); destruct (gen_forms _ _ t _) as [st|]; try discriminate; destruct (gen_forms _ _ e _) as [se|]; try discriminate;
        injection E2 as <-; cbn [blk emit]; rewrite <- ?app_assoc; eexists; eexists; reflexivity.
    - cbn [gen_form] in E2. unfold lookup in E2. destruct (nth_error _ _); [|discriminate]. injection E2 as <-. cbn [blk emit]. eauto. }
  destruct Q as (o & l & ->). intros Vf. apply verified_app in Vf as [_ Vf]. auto.
Qed.
Print Assumptions C73_follow_refuted.
Example C73_follow_ex : exists h, gen_func (bs "f") 1 (FCons (NoopF 0) (FCons (NoopF 0) FNil)) = Some h /\
  forall I x fn w, run_forms I [x] fn (FCons (NoopF 0) (FCons (NoopF 0) FNil)) w = (Value tt, w).
Proof. eexists. split; [vm_compute; reflexivity|reflexivity]. Qed.

(* match-if without an else has an empty block, which the verifier rejects, whatever the condition is. *)
Theorem C73_no_else_refuted : forall name stores c t h, gen_func name stores (FCons (IfF c t FNil) FNil) = Some h -> ~ block_verified (f_body h).
Proof.
  assert (MK : forall (k : cont operand) o key s s', (forall a s s', k a s = Some s' -> ~ block_verified (to_block (blk s'))) -> match_key o key k s = Some s' -> ~ block_verified (to_block (blk s'))).
  { intros k o key s s' K H. unfold match_key in H. destruct (k _ _) as [s1|] eqn:E; [|discriminate]. injection H as <-. cbn [blk]. intros Vf. apply verified_app in Vf as [[Vf _] _]. eapply K, Vf. exact E. }
  assert (ND : (forall n sc o (k : cont operand) s s', (forall a s s', k a s = Some s' -> ~ block_verified (to_block (blk s'))) -> gen_node sc n o k s = Some s' -> ~ block_verified (to_block (blk s'))) /\
    (forall l sc o (k : cont operand) s s', (forall a s s', k a s = Some s' -> ~ block_verified (to_block (blk s'))) -> gen_nodes sc l o k s = Some s' -> ~ block_verified (to_block (blk s')))).
  { apply node_nodes_ind; cbn [gen_node gen_nodes]; unfold lookup; intros; try (now eapply MK; [|eassumption]; eauto).
    - eapply MK; [|eassumption]. intros a s1 s2 X. eapply H, X.
    - destruct (nth_error sc v); [|discriminate]. now eapply MK; [|eassumption].
    - destruct (nth_error sc root); [|discriminate]. cbv zeta in H1. destruct l; [now eapply MK; [|eassumption]|].
      eapply H; [|exact H1]. intros a s1 s2 X. now eapply MK; [|exact X].
    - eapply H; [|exact H2]. intros a s1 s2 X. eapply H0; [exact H1|exact X]. }
  assert (EX : (forall e sc (k : cont operand) s s', (forall a s s', k a s = Some s' -> ~ block_verified (to_block (blk s'))) -> gen_expr sc e k s = Some s' -> ~ block_verified (to_block (blk s'))) /\
    (forall c sc (k : cont operand) s s', (forall a s s', k a s = Some s' -> ~ block_verified (to_block (blk s'))) -> gen_callee sc c k s = Some s' -> ~ block_verified (to_block (blk s'))) /\
    (forall l sc (k : cont (list operand)) s s', (forall a s s', k a s = Some s' -> ~ block_verified (to_block (blk s'))) -> gen_exprs sc l k s = Some s' -> ~ block_verified (to_block (blk s')))).
  { apply expr_all_ind; cbn [gen_expr gen_callee gen_exprs]; unfold gen_path, lookup; intros; try (now eapply H; [|eassumption]; eauto); try (now eapply H; eassumption).
    - destruct (nth_error sc v); [|discriminate]. eapply H; eassumption.
    - destruct (nth_error sc root); [|discriminate]. destruct l; [eapply H; eassumption|]. eapply (proj2 ND); eassumption.
    - eapply H; [|exact H2]. intros f s1 s2 X. eapply H0; [|exact X]. intros os s3 s4 Y. eapply H1, Y.
    - eapply H; [|exact H2]. intros f s1 s2 X. eapply H0; [|exact X]. intros os s3 s4 Y. eapply H1, Y. }
  intros name stores c t h H. unfold gen_func in H. cbn [gen_forms gen_form] in H. destruct (gen_expr _ _ _ _) as [s|] eqn:E; [|discriminate]. injection H as <-. cbn [f_body].
  eapply (proj1 EX); [|exact E]. intros o s1 s2 X. cbv beta in X. destruct (gen_forms _ _ t _) as [st|]; [|discriminate]. injection X as <-. cbn [blk].
  intros Vf. apply verified_app in Vf as [[_ []] _].
Qed.
Print Assumptions C73_no_else_refuted.

(* The function given can not be called without arguments, nor with the result of a call, although visit can. *)
Theorem C73_arguments_refuted : forall name stores,
  gen_func name stores (FCons (Fn XNil) FNil) = None /\
  (forall c args r l, gen_func name stores (FCons (Fn (XCons (EVisit c args) r)) l) = None) /\
  exists h, gen_func name 1 (FCons (VisitF (CExpr (EVar 0)) (XCons (EVisit (CExpr (EVar 0)) XNil) XNil)) FNil) = Some h /\ block_verified (f_body h).
Proof. intros name stores. repeat split. eexists. split; [reflexivity|]. vm_compute. tauto. Qed.
Print Assumptions C73_arguments_refuted.
