(* C70: functions of the specification language and the C++ written for them do the same. *)
From Coq Require Import String.
From Verif Require Import Base RouteSpec RouteModel RouteProofs TrModel TrSpec TrProofs.
Open Scope N_scope.

(* ---- an interpretation in which objects are texts and the world is a log, for the examples ---- *)

Definition letterb (c : N) : bool := ((65 <=? c) && (c <=? 90)) || (c =? 95) || ((97 <=? c) && (c <=? 122)).
Definition identb (n : list N) : bool := match n with c :: r => letterb c && forallb (fun d => letterb d || ((48 <=? d) && (d <=? 57))) r | [] => false end.
Lemma letterb_spec c : letterb c = true <-> letter c.
Proof. unfold letterb, letter. rewrite !orb_true_iff, !andb_true_iff, !N.leb_le, N.eqb_eq. tauto. Qed.
Lemma identb_spec n : identb n = true <-> identifier n.
Proof.
  unfold identifier, identb. destruct n as [|c r]; [split; [discriminate|intros (? & ? & ? & _); discriminate]|].
  rewrite andb_true_iff, letterb_spec, forallb_forall. split.
  - intros [A B]. exists c, r. repeat split; auto. apply Forall_forall. intros d Hd. specialize (B d Hd). rewrite orb_true_iff, letterb_spec, andb_true_iff, !N.leb_le in B. exact B.
  - intros (c' & r' & E & A & B). injection E as <- <-. split; [exact A|]. intros d Hd. rewrite Forall_forall in B. rewrite orb_true_iff, letterb_spec, andb_true_iff, !N.leb_le. apply B, Hd.
Qed.

Lemma number_app a d : number (a ++ [d]) = number a * 10 + (d - 48).
Proof. unfold number. rewrite fold_left_app. reflexivity. Qed.
Lemma number_unique a : forall b, Forall digit a -> Forall digit b -> a <> [] -> b <> [] -> (hd 0 a = 48 -> a = [48]) -> (hd 0 b = 48 -> b = [48]) -> number a = number b -> a = b.
Proof.
  assert (Pos : forall l, Forall digit l -> l <> [] -> hd 0 l <> 48 -> 0 < number l).
  { intros l. induction l as [|d l IH] using rev_ind; intros F Hn Hh; [congruence|]. apply Forall_app in F. destruct F as [F1 F2]. inversion F2; subst. unfold digit in *. rewrite number_app.
    destruct l as [|c l]; [cbn in *; lia|]. specialize (IH F1 ltac:(discriminate) Hh). lia. }
  assert (Hd1 : forall l d, Forall digit (l ++ [d]) -> (hd 0 (l ++ [d]) = 48 -> l ++ [d] = [48]) -> l = [] \/ 0 < number l).
  { intros l d F H. destruct l as [|c l]; [auto|]. right. apply Forall_app in F. apply Pos; [apply F|discriminate|]. cbn in *. intros ->. specialize (H eq_refl). destruct l; discriminate H. }
  induction a as [|d a IH] using rev_ind; intros b Fa Fb Na Nb Ha Hb E; [congruence|].
  destruct b as [|e b _] using rev_ind; [congruence|]. rewrite !number_app in E.
  pose proof (Hd1 _ _ Fa Ha) as Pa. pose proof (Hd1 _ _ Fb Hb) as Pb.
  assert (Da : Forall digit a /\ digit d) by (apply Forall_app in Fa; destruct Fa as [? F]; inversion F; auto).
  assert (Db : Forall digit b /\ digit e) by (apply Forall_app in Fb; destruct Fb as [? F]; inversion F; auto).
  destruct Da as [Da Dd]. destruct Db as [Db De]. unfold digit in Dd, De.
  assert (d = e) as -> by lia. assert (E' : number a = number b) by lia. clear E.
  destruct a as [|x a'].
  - destruct b as [|y b']; [reflexivity|]. destruct Pb as [|Pb]; [discriminate|]. change (number []) with 0 in E'. lia.
  - destruct b as [|y b']; [destruct Pa as [|Pa]; [discriminate|]; change (number []) with 0 in E'; lia|].
    f_equal. apply IH; auto; try discriminate; intros H.
    + cbn in H, Ha. specialize (Ha H). destruct a'; discriminate Ha.
    + cbn in H, Hb. specialize (Hb H). destruct b'; discriminate Hb.
Qed.
Lemma decimal_text t z : decimal t z -> t = int_text z.
Proof.
  intros (ds & A & B & C & [(-> & ->)|(-> & P & ->)]).
  - replace (int_text (Z.of_N (number ds))) with (dec (number ds)) by (destruct (number ds); reflexivity).
    destruct (dec_decimal (number ds)) as (es & A' & B' & C' & [(-> & E)|(E1 & E2 & E3)]).
    + apply number_unique; auto. lia.
    + destruct (dec_spec (number ds)) as (_ & F & _). rewrite E1 in F. inversion F. unfold digit in *. lia.
  - destruct (number ds) as [|p] eqn:E; [congruence|]. cbn [Z.of_N Z.opp int_text]. f_equal.
    destruct (dec_decimal (Npos p)) as (es & A' & B' & C' & [(-> & E')|(E1 & E2 & E3)]).
    + apply number_unique; auto. lia.
    + destruct (dec_spec (Npos p)) as (_ & F & _). rewrite E1 in F. inversion F. unfold digit in *. lia.
Qed.
Lemma decimal_not_ident t z : decimal t z -> identb t = false.
Proof.
  intros (ds & A & B & _ & C). destruct ds as [|d ds]; [congruence|]. inversion B; subst. unfold digit in *.
  assert (Q : forall c r, 45 <= c <= 57 -> identb (c :: r) = false).
  { intros c r Hc. cbn. destruct (letterb c) eqn:L; [|reflexivity]. apply letterb_spec in L. unfold letter in L. lia. }
  destruct C as [(-> & _)|(-> & _)]; apply Q; lia.
Qed.
Lemma literal_not_ident t s : string_literal t s -> identb t = false.
Proof. intros ->. reflexivity. Qed.

Definition t_text (sc : list N -> option (list N)) (t : list N) : list N := if identb t then match sc t with Some v => v | None => t end else t.
Definition join (l : list (list N)) : list N := flat_map (fun x => x ++ [32]) l.
Definition t_do (what : list N) (l : list (list N)) (w : list (list N)) : outcome (list N) * list (list N) :=
  let e := bs "(" ++ what ++ [32] ++ join l ++ bs ")" in (Value e, e :: w).
Definition opt (k : option (list N)) : list (list N) := match k with Some x => [x] | None => [] end.

(* what is matched is an int if its text starts with 'i', else a double; a condition holds if its text starts with 't';
   calling the function "fail" throws *)
Definition trace : interp.
Proof.
  refine {| V := list N; W := list (list N); i_int := int_text; i_str := fun s => 34 :: flat_map escape s ++ [34]; i_text := t_text;
    i_get := fun x k w => t_do (bs "get") (x :: opt k) w; i_field := fun x f w => t_do (bs ".") [x; f] w;
    i_call := fun f l w => if bytes_eqb f (bs "fail") then (Thrown, w) else t_do f l w; i_method := fun x m l w => t_do m (x :: l) w;
    i_compose := fun k x y w => t_do (bs "compose") (opt k ++ [x; y]) w;
    i_match := fun x k w => (Value (if hd 0 x =? 105 then bs "int" else bs "double", bs "*" ++ x ++ join (opt k)), w);
    i_truth := fun x => hd 0 x =? 116 |}.
  - intros sc n v Hi H. unfold t_text. apply identb_spec in Hi. rewrite Hi, H. reflexivity.
  - intros sc t z H. unfold t_text. rewrite (decimal_not_ident _ _ H). apply decimal_text, H.
  - intros sc t s H. unfold t_text. rewrite (literal_not_ident _ _ H). exact H.
Defined.

(* ---- C70 ---- *)

(* PARTIAL: the full statement asks only that the function passes the verifier; it fails for string literals with characters
   that need an escape, for overloads that are not in the order of overload resolution, and for texts that use a made-up name
   (refuted below). *)
Theorem C70_translation_partial f : func_ok f ->
  exists text p, write_func f = Wrote text /\ program_text p text /\ p_name p = f_name f /\ length (p_params p) = length (f_params f) /\ NoDup (p_params p) /\
  (p_void p = true <-> f_results f = 0%nat) /\
  forall I args w, global_texts I (block_texts (f_body f)) -> length args = length (f_params f) -> run_program I p args w = run_func I f args w.
Proof. exact (translate f). Qed.
Print Assumptions C70_translation_partial.

(* a function with all the operations *)
Definition f_ex : func := {| f_name := bs "visit_it"; f_params := [0; 1]%nat; f_results := 0; f_body :=
  BCons Silent (BCons (Get 2 (OVar 0) (Some (OExpr (bs "foo::key")))) (BCons (Get 3 (OVar 2) (Some (OMember (bs "x")))) (
  BCons (Scope (BCons (Visit (Some 4) (OExpr (bs "pred")) [OVar 3; OInt (-5); OStr (bs "s")]) (BCons (MatchIf (OVar 4)
     (BCons (Visit None (OMember (bs "go")) [OVar 1]) BNil)
     (BCons (MatchIf (OExpr (bs "true_")) (BCons (NoOp (OVar 4)) BNil) (BCons Discard BNil)) BNil)) BNil)))
  (BCons (Compose 5 None (OVar 0) (OVar 1))
  (BCons (Match (OVar 5) (Some (OInt 7))
     (OCons (bs "int") 6 (BCons (Visit None (OExpr (bs "fail")) []) BNil)
     (OCons [] 6 (BCons (Visit None (OVar 1) [OVar 6; OVar 3]) BNil) ONil))) BNil)))))%nat |}.

Example C70_ex : func_ok f_ex /\ global_texts trace (block_texts (f_body f_ex)) /\ write_func f_ex = Wrote (bs "void visit_it(auto&& arg_0, auto&& arg_1){
auto&& get_2 = ::nbdl::get(arg_0, foo::key);
auto&& get_3 = get_2.x;
auto&& result_4 = pred(get_3,
-5,
""s"");
if (result_4) {
arg_1.go();
} else if (true_) {
(void)result_4;
} else {
}
auto result_5 = ::nbdl::store_compose(arg_1,arg_0);
::nbdl::match(result_5, 7, boost::hana::overload([&]([[maybe_unused]] ::nbdl::SameAs<int> auto&& arg_6){
fail();
},
[&]([[maybe_unused]] auto&& arg_7){
arg_1(arg_7,
get_3);
}));
}").
Proof.
  repeat split; try (cbn; repeat constructor; cbn; intuition discriminate).
  - intros s Hs sc Hg. cbn in Hs. cbn [i_text trace]. unfold t_text, no_locals. destruct (identb s) eqn:E; [|reflexivity].
    destruct (sc s) as [v|] eqn:Es; [exfalso|reflexivity]. destruct (Hg s ltac:(congruence)) as (p & ds & Hp & Hn & Hd & ->).
    cbn [In] in Hp, Hs. destruct Hp as [<-|[<-|[<-|[]]]]; repeat destruct Hs as [Hs|Hs]; try discriminate Hs; contradiction.
Qed.
Example C70_ex_run : run_func trace f_ex [bs "ia"; bs "b"] [] = (Value tt,
  [bs "(b *(compose ia b )7  (. (get ia foo::key ) x ) )"; bs "(compose ia b )"; bs "(pred (. (get ia foo::key ) x ) -5 ""s"" )"; bs "(. (get ia foo::key ) x )"; bs "(get ia foo::key )"]).
Proof. vm_compute. reflexivity. Qed.

(* ---- where it fails ---- *)

(* A string is written between quotes as it is: a string may become another, or no literal at all. *)
Theorem C70_string_refuted :
  (exists s s' t, s <> s' /\ (forall st, write_expr (OStr s) st = Wrote t) /\ string_literal t s' /\ ~ string_literal t s) /\
  (exists s t, (forall st, write_expr (OStr s) st = Wrote t) /\ forall s', ~ string_literal t s').
Proof.
  split.
  - exists [92; 110], [10], [34; 92; 110; 34]. repeat split; [discriminate|]. intros H. unfold string_literal in H. discriminate H.
  - exists [34], [34; 34; 34]. split; [reflexivity|]. intros [|c r] H; unfold string_literal in H; [discriminate H|]. cbn [flat_map app] in H. injection H as H.
    unfold escape at 1 in H. destruct (N.eqb_spec c 34); [discriminate H|]. destruct (N.eqb_spec c 92); [discriminate H|]. destruct (N.eqb_spec c 10); [discriminate H|]. destruct (N.eqb_spec c 13); [discriminate H|]. injection H as E _. congruence.
Qed.
Print Assumptions C70_string_refuted.

(* The overloads are checked in order, in C++ the one that asks for the type is better: what takes anything hides the rest
   before and does not after translation. *)
Definition f_order : func := {| f_name := bs "f"; f_params := [0]%nat; f_results := 0; f_body :=
  BCons (Match (OVar 0) None (OCons [] 1 (BCons (Visit None (OExpr (bs "any")) []) BNil) (OCons (bs "int") 2 (BCons (Visit None (OExpr (bs "exact")) []) BNil) ONil))) BNil |}.
Definition p_order : program := {| p_name := bs "f"; p_params := [bs "arg_0"]; p_void := true; p_body :=
  one (SMatch (bs "arg_0") None (LCons [] (bs "arg_1") (one (SCall None (bs "any") [])) (LCons (bs "int") (bs "arg_2") (one (SCall None (bs "exact") [])) LNil))) |}.
Theorem C70_overload_order_refuted : exists f p text I args w,
  write_func f = Wrote text /\ program_text p text /\ global_texts I (block_texts (f_body f)) /\ run_program I p args w <> run_func I f args w.
Proof.
  exists f_order, p_order, (bs "void f(auto&& arg_0){
::nbdl::match(arg_0, boost::hana::overload([&]([[maybe_unused]] auto&& arg_1){
any();
},
[&]([[maybe_unused]] ::nbdl::SameAs<int> auto&& arg_2){
exact();
}));
}"), trace, [bs "i"], []. split; [vm_compute; reflexivity|]. split; [|split].
  - exists (bs "auto&& arg_0"). eexists. split; [apply lt_one|]. split.
    + apply one_text. eapply st_match.
      * eapply vt_overload.
        -- eapply ls_cons; [apply la_any; apply one_text; apply st_call; apply lt_nil|]. eapply ls_cons; [apply la_same; [discriminate|]; apply one_text; apply st_call; apply lt_nil|]. apply ls_nil.
        -- eapply lt_cons; [exact comma_nl|discriminate|]. apply lt_one.
      * eapply lt_cons; [exact comma_sp|discriminate|]. apply lt_one.
    + vm_compute. reflexivity.
  - intros s Hs sc Hg. cbn in Hs. cbn [i_text trace]. unfold t_text, no_locals. destruct (identb s) eqn:E; [|reflexivity].
    destruct (sc s) as [v|] eqn:Es; [exfalso|reflexivity]. destruct (Hg s ltac:(congruence)) as (p & ds & Hp & Hn & Hd & ->).
    cbn [In] in Hp, Hs. destruct Hp as [<-|[<-|[<-|[]]]]; repeat destruct Hs as [Hs|Hs]; try discriminate Hs; contradiction.
  - vm_compute. discriminate.
Qed.
Print Assumptions C70_overload_order_refuted.

(* The verifier and the writer accept a type twice; the C++ is ambiguous. *)
Definition f_twice : func := {| f_name := bs "f"; f_params := [0]%nat; f_results := 0; f_body :=
  BCons (Match (OVar 0) None (OCons (bs "int") 1 (BCons Discard BNil) (OCons (bs "int") 2 (BCons Discard BNil) ONil))) BNil |}.
Definition p_twice : program := {| p_name := bs "f"; p_params := [bs "arg_0"]; p_void := true; p_body :=
  one (SMatch (bs "arg_0") None (LCons (bs "int") (bs "arg_1") SNil (LCons (bs "int") (bs "arg_2") SNil LNil))) |}.
Theorem C70_same_type_refuted : exists f p text I args w w',
  write_func f = Wrote text /\ program_text p text /\ run_func I f args w = (Value tt, w') /\ run_program I p args w = (IllFormed, w').
Proof.
  exists f_twice, p_twice. eexists. exists trace, [bs "i"], [], []. split; [vm_compute; reflexivity|]. split; [|split; vm_compute; reflexivity].
  exists (bs "auto&& arg_0"). eexists. split; [apply lt_one|]. split.
  - apply one_text. eapply st_match.
    + eapply vt_overload.
      * eapply ls_cons; [apply la_same; [discriminate|]; apply ss_nil|]. eapply ls_cons; [apply la_same; [discriminate|]; apply ss_nil|]. apply ls_nil.
      * eapply lt_cons; [exact comma_nl|discriminate|]. apply lt_one.
    + eapply lt_cons; [exact comma_sp|discriminate|]. apply lt_one.
  - vm_compute. reflexivity.
Qed.
Print Assumptions C70_same_type_refuted.

(* A made-up name may be a name that the specification uses: the function get_1 is not called, but the object *)
Definition f_capture : func := {| f_name := bs "f"; f_params := [0]%nat; f_results := 0; f_body :=
  BCons (Get 1 (OVar 0) None) (BCons (Visit None (OExpr (bs "get_1")) []) BNil) |}.
Definition p_capture : program := {| p_name := bs "f"; p_params := [bs "arg_0"]; p_void := true; p_body :=
  SCons (SGet (bs "get_1") (bs "arg_0") None) (one (SCall None (bs "get_1") [])) |}.
Theorem C70_capture_refuted : exists f p text I args w, func_ok f /\
  write_func f = Wrote text /\ program_text p text /\ run_program I p args w <> run_func I f args w.
Proof.
  exists f_capture, p_capture. eexists. exists trace, [bs "i"], []. split; [|split; [vm_compute; reflexivity|split]].
  - repeat split; try (cbn; repeat constructor; cbn; intuition discriminate).
  - exists (bs "auto&& arg_0"). eexists. split; [apply lt_one|]. split.
    + eapply ss_cons; [apply st_get; apply lt_one|]. apply one_text, st_call, lt_nil.
    + vm_compute. reflexivity.
  - vm_compute. discriminate.
Qed.
Print Assumptions C70_capture_refuted.

(* no function with nbdl.const is translated, used or not *)
Theorem C70_const_refuted f r a : (exists b, f_body f = BCons (Const r a) b) -> write_func f = Failed.
Proof.
  intros (b & E). unfold write_func. destruct (Nat.ltb 1 (f_results f)); [reflexivity|]. destruct (write_params (f_params f) _) as [ps st]. rewrite E. reflexivity.
Qed.
Print Assumptions C70_const_refuted.

(* An error is reported for every other function that cannot be translated; the only undefined behaviour is a choice whose else is
   empty. *)
Lemma expr_bad o st : write_expr o st <> Bad.
Proof. destruct o as [v|z|s|[|c s]|n|]; cbn; try discriminate. destruct (find_name v (names st)); discriminate. Qed.
Lemma bind_bad {A B} (x : wres A) (f : A -> wres B) : x <> Bad -> (forall a, f a <> Bad) -> wbind x f <> Bad.
Proof. intros Hx Hf. destruct x; cbn; [apply Hf|discriminate|congruence]. Qed.
Lemma key_bad sep k st : write_key sep k st <> Bad.
Proof. destruct k as [o|]; cbn; [|discriminate]. destruct o; try discriminate; apply bind_bad; try (intros; discriminate); apply expr_bad. Qed.
Lemma args_bad sep l st : write_args sep l st <> Bad.
Proof.
  induction l as [|o [|o' l] IH]; [discriminate|apply expr_bad|]. change (write_args sep (o :: o' :: l) st) with (do t <- write_expr o st; do u <- write_args sep (o' :: l) st; Wrote (t ++ sep ++ u)).
  apply bind_bad; [apply expr_bad|]. intros t. apply bind_bad; [exact IH|discriminate].
Qed.
Lemma write_bad : (forall o, op_elses o -> forall st, write_op o st <> Bad) /\ (forall b, block_elses b -> forall st, write_block b st <> Bad) /\
  (forall os, overloads_elses os -> forall st, write_overloads os st <> Bad).
Proof.
  apply ir_ind.
  - intros _ st. discriminate.
  - intros r s k _ st. cbn [write_op]. unfold write_get. destruct (set_name r (bs "get_") st) as [n st'].
    destruct k as [[]|]; (apply bind_bad; [apply expr_bad|intros a; first [discriminate|apply bind_bad; [apply key_bad|discriminate]]]).
  - intros r f a _ st. cbn [write_op]. unfold write_visit. destruct (match r with Some v => _ | None => _ end) as [lhs st'].
    destruct f; try (apply bind_bad; [apply expr_bad|intros t; apply bind_bad; [apply args_bad|discriminate]]).
    destruct a; [discriminate|]. apply bind_bad; [apply expr_bad|intros t; apply bind_bad; [apply args_bad|discriminate]].
  - intros _ st. discriminate.
  - intros a _ st. apply bind_bad; [apply expr_bad|discriminate].
  - intros s k os IH H st. cbn. apply bind_bad; [apply expr_bad|]. intros t. apply bind_bad; [apply key_bad|]. intros u. apply bind_bad; [apply IH, H|]. intros [l st']. discriminate.
  - intros c t IHt e IHe (He & H1 & H2) st. cbn. apply bind_bad; [apply expr_bad|]. intros x. apply bind_bad; [apply IHt, H1|]. intros [bt st1].
    pose proof (IHe H2) as Be. destruct e as [|o e]; [congruence|]. destruct (is_match_if o) eqn:Hm.
    + apply bind_bad; [|intros [be st2]; discriminate]. intros E. apply (Be st1). cbn [write_block]. rewrite E. reflexivity.
    + apply bind_bad; [apply Be|intros [be st2]; discriminate].
  - intros r k l rh _ st. cbn [write_op]. unfold write_compose. destruct (set_name r (bs "result_") st) as [n st']. apply bind_bad.
    + destruct k as [o|]; [|discriminate]. destruct (unit_key (Some o)); [discriminate|]. apply bind_bad; [apply expr_bad|discriminate].
    + intros x. apply bind_bad; [apply expr_bad|]. intros y. apply bind_bad; [apply expr_bad|discriminate].
  - intros r a _ st. discriminate.
  - intros b IH H st. apply IH, H.
  - intros _ st. discriminate.
  - intros o IHo b IHb (H1 & H2) st. cbn. apply bind_bad; [apply IHo, H1|]. intros [t st1]. apply bind_bad; [apply IHb, H2|]. intros [u st2]. discriminate.
  - intros _ st. discriminate.
  - intros ty a b IHb r IHr (H1 & H2) st. cbn. apply bind_bad; [apply IHb, H1|]. intros [t st1]. apply bind_bad; [apply IHr, H2|]. intros [u st2]. discriminate.
Qed.
Theorem C70_undefined : forall f, write_func f = Bad -> ~ block_elses (f_body f).
Proof.
  intros f E H. revert E. unfold write_func. destruct (Nat.ltb 1 (f_results f)); [discriminate|]. destruct (write_params (f_params f) _) as [ps st].
  apply bind_bad; [apply write_bad, H|]. intros [t st']. discriminate.
Qed.
Print Assumptions C70_undefined.
Example C70_undefined_ex : write_func {| f_name := bs "f"; f_params := [0]%nat; f_results := 0; f_body := BCons (MatchIf (OVar 0) BNil BNil) BNil |} = Bad /\
  write_func {| f_name := bs "f"; f_params := [0]%nat; f_results := 0; f_body := BCons (NoOp (OVar 1)) BNil |} = Failed.
Proof. split; reflexivity. Qed.

(* C70: choices in the else of others are written as "else if" *)
Theorem C70_else_if c t c' t' e' st text st' : write_op (MatchIf c t (BCons (MatchIf c' t' e') BNil)) st = Wrote (text, st') ->
  exists x bt st1 y rest, write_expr c st = Wrote x /\ write_block t st = Wrote (bt, st1) /\ write_expr c' st1 = Wrote y /\
    text = bs "if (" ++ x ++ bs ") {" ++ nl ++ bt ++ bs "} else if (" ++ y ++ bs ") {" ++ rest.
Proof.
  cbn [write_op is_match_if]. destruct (write_expr c st) as [x| |] eqn:X; try discriminate. cbn [wbind]. destruct (write_block t st) as [[bt st1]| |] eqn:B; try discriminate. cbn [wbind].
  destruct (write_expr c' st1) as [y| |] eqn:Y; try discriminate. cbn [wbind]. destruct (write_block t' st1) as [[bt' st2]| |]; try discriminate. cbn [wbind].
  intros E.
  assert (R : exists r, text = bs "if (" ++ x ++ bs ") {" ++ nl ++ bt ++ bs "} else " ++ bs "if (" ++ y ++ bs ") {" ++ r).
  { destruct e' as [|o r]; [discriminate|]. destruct (is_match_if o).
    - destruct (write_op o st2) as [[be st3]| |]; try discriminate. cbn [wbind] in E. injection E as <- _. exists (nl ++ bt' ++ bs "} else " ++ be). reflexivity.
    - match type of E with context [write_block ?b st2] => destruct (write_block b st2) as [[be st3]| |] end; try discriminate. cbn [wbind] in E.
      injection E as <- _. exists (nl ++ bt' ++ bs "} else " ++ bs "{" ++ nl ++ be ++ bs "}" ++ nl). reflexivity. }
  destruct R as (r & ->). exists x, bt, st1, y, r. repeat split; auto.
Qed.
Print Assumptions C70_else_if.
Example C70_else_if_ex : match write_func {| f_name := bs "f"; f_params := [0; 1]%nat; f_results := 0;
    f_body := BCons (MatchIf (OVar 0) (BCons (NoOp (OVar 1)) BNil) (BCons (MatchIf (OVar 1) (BCons Discard BNil) (BCons Discard BNil)) BNil)) BNil |} with
  | Wrote t => t = bs "void f(auto&& arg_0, auto&& arg_1){
if (arg_0) {
(void)arg_1;
} else if (arg_1) {
} else {
}
}" | _ => False end.
Proof. vm_compute. reflexivity. Qed.
