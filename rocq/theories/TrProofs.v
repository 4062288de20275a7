(* Proofs about the translation of functions to C++. *)
From Coq Require Import String.
From Verif Require Import Base RouteSpec RouteModel RouteProofs TrModel TrSpec.
Open Scope N_scope.

Scheme op_ind2 := Induction for op Sort Prop with block_ind2 := Induction for block Sort Prop with overloads_ind2 := Induction for overloads Sort Prop.
Combined Scheme ir_ind from op_ind2, block_ind2, overloads_ind2.

(* ---- numerals and names ---- *)

Lemma dec_fuel_hd : forall f n, n < 2 ^ N.of_nat f -> hd 0 (dec_fuel f n) = 48 -> n = 0.
Proof.
  induction f as [|f IH]; intros n H; [cbn in H; lia|]. cbn [dec_fuel]. rewrite Nat2N.inj_succ, N.pow_succ_r' in H. destruct (N.ltb_spec n 10) as [L|L]; cbn [hd].
  - lia.
  - destruct (dec_fuel_spec f (n / 10)) as (A & B & C).
    { apply N.div_lt_upper_bound; lia. }
    intros E. destruct f as [|f']; [cbn in H; lia|]. specialize (C ltac:(discriminate)). destruct (dec_fuel (S f') (n / 10)) as [|c r] eqn:F; [congruence|]. cbn in E.
    assert (n / 10 = 0). { apply IH; [apply N.div_lt_upper_bound; lia|]. rewrite F. exact E. }
    assert (1 <= n / 10) by (apply N.div_le_lower_bound; lia). lia.
Qed.
Lemma dec_decimal n : decimal (dec n) (Z.of_N n).
Proof.
  destruct (dec_spec n) as (A & B & C). exists (dec n). repeat split; auto.
  - intros H. unfold dec in *. assert (n = 0) as ->; [|reflexivity]. eapply dec_fuel_hd; [|exact H].
    rewrite Nat2N.inj_succ, N2Nat.id. destruct (N.eq_dec n 0) as [->|]; [reflexivity|]. apply N.log2_spec. lia.
  - left. rewrite A. auto.
Qed.
Lemma int_text_decimal z : decimal (int_text z) z.
Proof.
  destruct z as [|p|p]; cbn [int_text].
  - exact (dec_decimal 0).
  - exact (dec_decimal (Npos p)).
  - destruct (dec_decimal (Npos p)) as (ds & A & B & C & [[D E]|(D & _ & E)]).
    + exists ds. repeat split; auto. right. rewrite D. split; [reflexivity|]. cbn in E. split; lia.
    + destruct (dec_spec (Npos p)) as (_ & F & _). rewrite D in F. inversion F. unfold digit in *. lia.
Qed.

Lemma plain_literal s : plain_string s -> string_literal (34 :: s ++ [34]) s.
Proof.
  intros H. unfold string_literal. f_equal. f_equal. induction H as [|c r (A & B & C & D) _ IH]; [reflexivity|]. cbn [flat_map].
  unfold escape at 1. rewrite (proj2 (N.eqb_neq _ _) A), (proj2 (N.eqb_neq _ _) B), (proj2 (N.eqb_neq _ _) C), (proj2 (N.eqb_neq _ _) D). cbn. congruence.
Qed.

Definition prefixes := [bs "arg_"; bs "get_"; bs "result_"].
Lemma var_name_inj p q j k : In p prefixes -> In q prefixes -> var_name p j = var_name q k -> j = k.
Proof.
  unfold var_name, prefixes. cbn [In].
  intros [<-|[<-|[<-|[]]]] [<-|[<-|[<-|[]]]] E; try (cbv [bs] in E; discriminate E).
  all: apply app_inv_head in E; destruct (dec_spec j) as (A & _); destruct (dec_spec k) as (B & _); congruence.
Qed.
Lemma var_name_generated p k : In p prefixes -> generated (var_name p k).
Proof. intros H. destruct (dec_spec k) as (_ & A & B). exists p, (dec k). repeat split; auto. Qed.

Lemma generated_identifier n : generated n -> identifier n.
Proof.
  intros (p & ds & Hp & _ & Hd & ->). unfold identifier, letter.
  assert (D : Forall (fun d => (65 <= d <= 90 \/ d = 95 \/ 97 <= d <= 122) \/ digit d) ds) by (eapply Forall_impl; [|exact Hd]; auto).
  cbn [In] in Hp. destruct Hp as [<-|[<-|[<-|[]]]]; cbv [bs]; cbn; do 2 eexists; (split; [reflexivity|]); split; try lia; repeat (constructor; [lia|]); exact D.
Qed.

(* ---- the names in use ---- *)

Definition inv (D : list nat) (st : wst) : Prop := forall v, In v D -> exists n, find_name v (names st) = Some n.
Definition ext (D : list nat) (st st' : wst) : Prop := count st <= count st' /\ forall v, In v D -> find_name v (names st') = find_name v (names st).
Definition rel (I : interp) (D : list nat) (env : nat -> option (V I)) (sc : list N -> option (V I)) (st : wst) : Prop :=
  (forall v, In v D -> exists x n, env v = Some x /\ find_name v (names st) = Some n /\ sc n = Some x) /\
  (forall n, sc n <> None -> exists p k, In p prefixes /\ n = var_name p k /\ k < count st).

Lemma ext_refl D st : ext D st st.
Proof. split; [lia|auto]. Qed.
Lemma ext_trans D a b c : ext D a b -> ext D b c -> ext D a c.
Proof. intros [A B] [C E]. split; [lia|]. intros v H. rewrite E, B; auto. Qed.
Lemma ext_incl D D' a b : incl D D' -> ext D' a b -> ext D a b.
Proof. intros H [A B]. split; auto. Qed.
Lemma inv_ext D a b : inv D a -> ext D a b -> inv D b.
Proof. intros A [B C] v H. rewrite C; auto. Qed.
Lemma rel_ext I D env sc a b : rel I D env sc a -> ext D a b -> rel I D env sc b.
Proof.
  intros [A B] [C E]. split.
  - intros v H. rewrite E by exact H. auto.
  - intros n H. destruct (B n H) as (p & k & F & G & L). exists p, k. repeat split; auto. lia.
Qed.
Lemma rel_incl I D D' env env' sc st : incl D D' -> (forall v, In v D -> env' v = env v) -> rel I D' env' sc st -> rel I D env sc st.
Proof. intros H E [A B]. split; auto. intros v Hv. rewrite <- E by exact Hv. auto. Qed.
Lemma rel_inv I D env sc st : rel I D env sc st -> inv D st.
Proof. intros [A _] v H. destruct (A v H) as (x & n & _ & E & _). eauto. Qed.
Lemma rel_generated I D env sc st : rel I D env sc st -> forall n, sc n <> None -> generated n.
Proof. intros [_ B] n H. destruct (B n H) as (p & k & F & -> & _). apply var_name_generated. exact F. Qed.

Lemma set_name_ext D v p st : ~ In v D -> ext D st (snd (set_name v p st)).
Proof.
  intros H. split; cbn; [lia|]. intros u Hu. destruct (Nat.eqb_spec v u) as [->|]; [contradiction|reflexivity].
Qed.
Lemma set_name_inv D v p st : ~ In v D -> inv D st -> inv (v :: D) (snd (set_name v p st)).
Proof.
  intros H A u [->|Hu]; cbn.
  - rewrite Nat.eqb_refl. eauto.
  - destruct (Nat.eqb_spec v u); eauto.
Qed.
Lemma bytes_eqb_eq a b : bytes_eqb a b = true -> a = b.
Proof. destruct (bytes_eqb_spec a b); congruence. Qed.
Lemma set_name_rel I D v p st env sc x : In p prefixes -> ~ In v D -> rel I D env sc st ->
  rel I (v :: D) (update env v x) (declare I sc (fst (set_name v p st)) x) (snd (set_name v p st)).
Proof.
  intros Hp Hv [A B]. split; cbn [fst snd set_name names count].
  - intros u [->|Hu].
    + exists x, (var_name p (count st)). unfold update, declare. cbn [find_name]. rewrite Nat.eqb_refl, bytes_eqb_refl. auto.
    + destruct (A u Hu) as (y & n & E & F & G). exists y, n. unfold update, declare. cbn [find_name].
      destruct (Nat.eqb_spec v u) as [->|]; [contradiction|]. repeat split; auto.
      destruct (bytes_eqb (var_name p (count st)) n) eqn:Q; [|exact G]. apply bytes_eqb_eq in Q.
      destruct (B n) as (q & k & H1 & H2 & H3); [congruence|]. subst n. apply var_name_inj in H2; auto. lia.
  - intros n. unfold declare. destruct (bytes_eqb (var_name p (count st)) n) eqn:Q; intros H.
    + apply bytes_eqb_eq in Q. exists p, (count st). repeat split; auto. lia.
    + destruct (B n H) as (q & k & H1 & H2 & H3). exists q, k. repeat split; auto. lia.
Qed.

(* ---- operands ---- *)

Lemma write_expr_spec D o st : inv D st -> operand_ok D o -> exists t, write_expr o st = Wrote t /\
  forall I env sc, global_texts I (operand_texts o) -> rel I D env sc st -> operand_value I env o = Some (i_text I sc t).
Proof.
  intros Hi Ho. destruct o as [v|z|s|s|m|]; cbn [operand_ok] in Ho; try contradiction; cbn [write_expr].
  - destruct (Hi v Ho) as (n & E). rewrite E. exists n. split; [reflexivity|]. intros I env sc _ R. pose proof (rel_generated _ _ _ _ _ R) as Gn. destruct R as [A _]. destruct (A v Ho) as (x & m & F & G & H).
    cbn. rewrite F. f_equal. symmetry. apply i_text_local; [apply generated_identifier, Gn|]; congruence.
  - eexists. split; [reflexivity|]. intros I env sc _ _. cbn. f_equal. symmetry. apply i_text_int, int_text_decimal.
  - eexists. split; [reflexivity|]. intros I env sc _ _. cbn. f_equal. symmetry. apply i_text_str, plain_literal, Ho.
  - destruct s as [|c s]; [congruence|]. eexists. split; [reflexivity|]. intros I env sc G R. cbn. f_equal. symmetry. apply G; [left; reflexivity|].
    eapply rel_generated, R.
Qed.

Lemma key_spec D k st : inv D st -> key_ok D k -> exists kt : option (list N),
  ((unit_key k = true /\ kt = None) \/ (exists o t, k = Some o /\ unit_key k = false /\ write_expr o st = Wrote t /\ kt = Some t)) /\
  forall I env sc, global_texts I (key_texts k) -> rel I D env sc st -> key_value I env k = Some (option_map (i_text I sc) kt).
Proof.
  intros Hi Hk. destruct k as [o|]; [|exists None; split; [auto|intros; reflexivity]].
  assert (U : o = OUnit \/ (operand_ok D o /\ unit_key (Some o) = false /\ forall I env, key_value I env (Some o) = option_map Some (operand_value I env o))).
  { destruct o; auto. }
  destruct U as [->|(Ho & U & Kv)]; [exists None; split; [auto|intros; reflexivity]|].
  destruct (write_expr_spec D o st Hi Ho) as (t & E & F). exists (Some t). split; [right; exists o, t; auto|].
  intros I env sc G R. rewrite Kv, (F I env sc G R). reflexivity.
Qed.
Lemma write_key_spec D sep k st : inv D st -> key_ok D k -> exists kt : option (list N), write_key sep k st = Wrote (match kt with None => [] | Some t => sep ++ t end) /\
  forall I env sc, global_texts I (key_texts k) -> rel I D env sc st -> key_value I env k = Some (option_map (i_text I sc) kt).
Proof.
  intros Hi Hk. destruct (key_spec D k st Hi Hk) as (kt & A & B). exists kt. split; [|exact B]. unfold write_key.
  destruct A as [(A & ->)|(o & t & -> & A & E & ->)].
  - destruct k; [rewrite A|]; reflexivity.
  - rewrite A, E. reflexivity.
Qed.

Lemma global_app I a b : global_texts I (a ++ b) -> global_texts I a /\ global_texts I b.
Proof. intros H. split; intros s Hs; apply H, in_or_app; auto. Qed.

Lemma write_args_spec D sep l st : inv D st -> comma sep -> Forall (operand_ok D) l -> exists t ts, write_args sep l st = Wrote t /\ list_text ts t /\ (l <> [] -> ts <> []) /\
  forall I env sc, global_texts I (flat_map operand_texts l) -> rel I D env sc st -> all_some (map (operand_value I env) l) = Some (map (i_text I sc) ts).
Proof.
  intros Hi Hc. induction l as [|o r IH]; intros H.
  - exists [], []. repeat split; auto. constructor.
  - inversion H as [|? ? Ho Hr]; subst. destruct (write_expr_spec D o st Hi Ho) as (t & E & F). destruct (IH Hr) as (u & us & A & B & N & C).
    destruct r as [|o' r].
    + exists t, [t]. cbn [write_args]. rewrite E. repeat split; [constructor|discriminate|]. intros I env sc G R. cbn [flat_map] in G. rewrite app_nil_r in G. cbn. rewrite (F I env sc G R). reflexivity.
    + exists (t ++ sep ++ u), (t :: us). change (write_args sep (o :: o' :: r) st) with (do t <- write_expr o st; do u <- write_args sep (o' :: r) st; Wrote (t ++ sep ++ u)).
      rewrite E, A. repeat split; [constructor; auto; apply N; discriminate|discriminate|].
      intros I env sc G R. change (flat_map operand_texts (o :: o' :: r)) with (operand_texts o ++ flat_map operand_texts (o' :: r)) in G. apply global_app in G. destruct G as [G1 G2].
      transitivity (option_map (cons (i_text I sc t)) (all_some (map (operand_value I env) (o' :: r)))).
      * cbn [map all_some]. rewrite (F I env sc G1 R). reflexivity.
      * rewrite (C I env sc G2 R). reflexivity.
Qed.

(* ---- statements one after another ---- *)

Fixpoint sapp (a b : stmts) : stmts := match a with SNil => b | SCons s r => SCons s (sapp r b) end.
Lemma sapp_nil a : sapp a SNil = a.
Proof. induction a; cbn; congruence. Qed.
Lemma sapp_assoc a b c : sapp (sapp a b) c = sapp a (sapp b c).
Proof. induction a; cbn; congruence. Qed.
Lemma stmts_text_app a : forall b x y, stmts_text a x -> stmts_text b y -> stmts_text (sapp a b) (x ++ y).
Proof.
  induction a as [|s r IH]; intros b x y H K; inversion H; subst; [exact K|]. cbn [sapp]. rewrite <- app_assoc. constructor; auto.
Qed.

Definition one (s : stmt) : stmts := SCons s SNil.
Lemma one_text s t : stmt_text s t -> stmts_text (one s) t.
Proof. intros H. rewrite <- (app_nil_r t). constructor; [exact H|constructor]. Qed.

(* [run] continues what has the outcome [x] *)
Definition follows {A} (I : interp) (run : stmts -> outcome unit * W I) (x : outcome A * W I) (Q : A -> (list N -> option (V I)) -> Prop) : Prop :=
  match x with
  | (Value a, w) => exists sc, Q a sc /\ forall rest, run rest = run_stmts I rest sc w
  | (Thrown, w) => forall rest, run rest = (Thrown, w)
  | (IllFormed, w) => forall rest, run rest = (IllFormed, w)
  end.

Definition op_spec (o : op) : Prop := forall D st, inv D st -> op_ok D o -> exists text st' ss,
  write_op o st = Wrote (text, st') /\ stmts_text ss text /\ ext D st st' /\ inv (result_of o ++ D) st' /\
  (is_match_if o = true -> exists c t e, ss = one (SIf c t e)) /\
  forall I env sc w, global_texts I (op_texts o) -> rel I D env sc st ->
    follows I (fun rest => run_stmts I (sapp ss rest) sc w) (exec_op I o env w)
      (fun env' sc' => rel I (result_of o ++ D) env' sc' st' /\ forall v, In v D -> env' v = env v).

Definition block_spec (b : block) : Prop := forall D st, inv D st -> block_ok D b -> exists text st' ss,
  write_block b st = Wrote (text, st') /\ stmts_text ss text /\ ext D st st' /\
  (b = BNil -> ss = SNil) /\ (forall o, b = BCons o BNil -> is_match_if o = true -> exists c t e, ss = one (SIf c t e)) /\
  forall I env sc w, global_texts I (block_texts b) -> rel I D env sc st ->
    follows I (fun rest => run_stmts I (sapp ss rest) sc w) (exec_block I b env w) (fun _ sc' => rel I D env sc' st').

Lemma block_run I b Q ss env sc w :
  follows I (fun rest => run_stmts I (sapp ss rest) sc w) (exec_block I b env w) Q ->
  run_stmts I ss sc w = exec_block I b env w.
Proof.
  intros F. rewrite <- (sapp_nil ss). destruct (exec_block I b env w) as [[[]| |] w'].
  - destruct F as (sc' & _ & R). rewrite R. reflexivity.
  - apply F.
  - apply F.
Qed.

Fixpoint ltypes (ls : lambdas) : list (list N) := match ls with LNil => [] | LCons t _ _ r => t :: ltypes r end.
Fixpoint exec_exact (I : interp) (os : overloads) (want : list N) (x : V I) (env : nat -> option (V I)) (w : W I) : outcome unit * W I :=
  match os with
  | ONil => (IllFormed, w)
  | OCons t arg body r => if bytes_eqb t want then exec_block I body (update env arg x) w else exec_exact I r want x env w
  end.
Definition overloads_spec (os : overloads) : Prop := forall D st, inv D st -> overloads_ok D os -> exists text st' ls l,
  write_overloads os st = Wrote (text, st') /\ lambdas_text ls l /\ list_text l text /\ ext D st st' /\ ltypes ls = types_of os /\ (os <> ONil -> l <> []) /\
  forall I env sc w want y, global_texts I (overloads_texts os) -> rel I D env sc st -> run_lambda I ls want y sc w = exec_exact I os want y env w.

Fixpoint cnt (l : list (list N)) (t : list N) : nat := match l with [] => 0 | u :: r => if bytes_eqb u t then S (cnt r t) else cnt r t end.
Lemma asks_cnt ls t : asks ls t = cnt (ltypes ls) t.
Proof. induction ls as [|u x b r IH]; cbn; [reflexivity|]. rewrite IH. reflexivity. Qed.
Lemma cnt_not_in l t : ~ In t l -> cnt l t = 0%nat.
Proof.
  induction l as [|u r IH]; intros H; [reflexivity|]. cbn in *. destruct (bytes_eqb u t) eqn:E; [apply bytes_eqb_eq in E; tauto|]. apply IH. tauto.
Qed.
Lemma bytes_eqb_neq a b : a <> b -> bytes_eqb a b = false.
Proof. intros H. destruct (bytes_eqb a b) eqn:E; [apply bytes_eqb_eq in E; contradiction|reflexivity]. Qed.

(* checking one after another and overload resolution choose the same one *)

Lemma exec_overloads_cons I t a b r ty y env w : exec_overloads I (OCons t a b r) ty y env w =
  if bytes_eqb t [] || bytes_eqb t ty then exec_block I b (update env a y) w else exec_overloads I r ty y env w.
Proof. reflexivity. Qed.
Lemma exec_exact_cons I t a b r want y env w : exec_exact I (OCons t a b r) want y env w =
  if bytes_eqb t want then exec_block I b (update env a y) w else exec_exact I r want y env w.
Proof. reflexivity. Qed.

Lemma choose I os : forall ty y env w, types_ok (types_of os) -> exec_overloads I os ty y env w =
  let want := if Nat.eqb (cnt (types_of os) ty) 0 then [] else ty in
  if Nat.eqb (cnt (types_of os) want) 1 then exec_exact I os want y env w else (IllFormed, w).
Proof.
  induction os as [|t a b r IH]; intros ty y env w H; [reflexivity|]. cbn [types_of types_ok] in H. destruct H as (A & B & C).
  rewrite exec_overloads_cons. cbn [types_of cnt]. destruct (bytes_eqb_spec t []) as [->|N].
  - rewrite (B eq_refl). cbn [orb cnt]. destruct (bytes_eqb_spec [] ty) as [<-|M]; reflexivity.
  - cbn [orb]. destruct (bytes_eqb_spec t ty) as [->|M].
    + rewrite (cnt_not_in _ _ A). cbn [Nat.eqb]. cbn zeta. rewrite bytes_eqb_refl, (cnt_not_in _ _ A), exec_exact_cons, bytes_eqb_refl. reflexivity.
    + rewrite (IH ty y env w C). cbn zeta. destruct (Nat.eqb (cnt (types_of r) ty) 0).
      * rewrite exec_exact_cons, (bytes_eqb_neq t [] N). reflexivity.
      * rewrite exec_exact_cons, (bytes_eqb_neq t ty M). reflexivity.
Qed.

(* ---- the operations one by one ---- *)

Ltac leaf := repeat split; auto.

Lemma get_spec r s k : op_spec (Get r s k).
Proof.
  intros D st Hi (Hr & Hs & Hk). cbn [write_op]. unfold write_get.
  set (st1 := snd (set_name r (bs "get_") st)). set (n := fst (set_name r (bs "get_") st)).
  change (set_name r (bs "get_") st) with (n, st1). cbn iota.
  assert (X : ext D st st1) by (apply set_name_ext; exact Hr).
  pose proof (inv_ext _ _ _ Hi X) as Hi1.
  destruct (write_expr_spec D s st1 Hi1 Hs) as (t & E & F). rewrite E. cbn [wbind].
  assert (Fld : forall f, k = Some (OMember f) -> exists text st' ss,
    (do s <- Wrote t; Wrote (bs "auto&& " ++ n ++ bs " = " ++ s ++ bs "." ++ f ++ bs ";" ++ nl, st1)) = Wrote (text, st') /\ stmts_text ss text /\ ext D st st' /\ inv (result_of (Get r s k) ++ D) st' /\
    (is_match_if (Get r s k) = true -> exists c t e, ss = one (SIf c t e)) /\
    forall I env sc w, global_texts I (op_texts (Get r s k)) -> rel I D env sc st ->
    follows I (fun rest => run_stmts I (sapp ss rest) sc w) (exec_op I (Get r s k) env w)
      (fun env' sc' => rel I (result_of (Get r s k) ++ D) env' sc' st' /\ forall v, In v D -> env' v = env v)).
  { intros f ->. eexists. exists st1, (one (SField n t f)). split; [reflexivity|]. split.
    { apply one_text. replace (bs "auto&& " ++ n ++ bs " = " ++ t ++ bs "." ++ f ++ bs ";" ++ nl) with (declaration (Some n) ++ t ++ bs "." ++ f ++ bs ";" ++ nl) by (unfold declaration; rewrite <- !app_assoc; reflexivity). constructor. }
    split; [exact X|]. split; [apply set_name_inv; assumption|]. split; [discriminate|].
    intros I env sc w G R. cbn [op_texts] in G. apply global_app in G. destruct G as [G1 _]. cbn [exec_op]. rewrite (F I env sc G1 (rel_ext _ _ _ _ _ _ R X)). cbn [given].
    unfold one. cbn [sapp run_stmts run_stmt]. destruct (i_field I (i_text I sc t) f w) as [[y| |] w']; cbn [then_ follows]; try reflexivity.
    exists (declare I sc n y). split; [split|reflexivity].
    - apply set_name_rel; auto. cbn. auto.
    - intros v Hv. unfold update. destruct (Nat.eqb_spec r v) as [->|]; [contradiction|reflexivity]. }
  assert (Cases : (exists f, k = Some (OMember f)) \/ (key_ok D k /\
     (forall (A : Type) (x : list N -> wres A) (y : wres A), match k with Some (OMember f) => x f | _ => y end = y) /\
     (forall I env w, exec_op I (Get r s k) env w = given (operand_value I env s) w (fun x => given (key_value I env k) w (fun k => then_ (i_get I x k w) (fun y w => (Value (update env r y), w))))))).
  { destruct k as [[]|]; eauto. }
  destruct Cases as [(f & Ef)|(Hk' & M & Ex)].
  { rewrite Ef in *. apply (Fld f eq_refl). }
  rewrite M. destruct (write_key_spec D (bs ", ") k st1 Hi1 Hk') as (kt & Ek & Fk). rewrite Ek. cbn [wbind].
  eexists. exists st1, (one (SGet n t kt)). split; [reflexivity|]. split.
  { apply one_text. replace (bs "auto&& " ++ n ++ bs " = " ++ bs "::nbdl::get(" ++ t ++ _ ++ bs ");" ++ nl) with (declaration (Some n) ++ bs "::nbdl::get(" ++ (t ++ match kt with None => [] | Some t => bs ", " ++ t end) ++ bs ");" ++ nl) by (unfold declaration; rewrite <- !app_assoc; reflexivity).
    constructor. destruct kt as [u|]; cbn [with_key].
    - constructor; [|discriminate|constructor]. exists [32]. split; [reflexivity|]. auto.
    - rewrite app_nil_r. constructor. }
  split; [exact X|]. split; [apply set_name_inv; assumption|]. split; [discriminate|].
  intros I env sc w G R. cbn [op_texts] in G. apply global_app in G. destruct G as [G1 G2].
  rewrite Ex, (F I env sc G1 (rel_ext _ _ _ _ _ _ R X)), (Fk I env sc G2 (rel_ext _ _ _ _ _ _ R X)). cbn [given].
  unfold one. cbn [sapp run_stmts run_stmt]. destruct (i_get I (i_text I sc t) (option_map (i_text I sc) kt) w) as [[y| |] w']; cbn [then_ follows]; try reflexivity.
  exists (declare I sc n y). split; [split|reflexivity].
  - apply set_name_rel; auto. cbn. auto.
  - intros v Hv. unfold update. destruct (Nat.eqb_spec r v) as [->|]; [contradiction|reflexivity].
Qed.

Lemma comma_sp : comma (bs ", ").
Proof. exists [32]. split; [reflexivity|auto]. Qed.
Lemma comma_nl : comma (bs "," ++ nl).
Proof. exists [10]. split; [reflexivity|auto]. Qed.
Lemma comma_only : comma (bs ",").
Proof. exists []. split; [reflexivity|auto]. Qed.

Lemma update_other {A} D (env : nat -> option A) r x v : ~ In r D -> In v D -> update env r x v = env v.
Proof. intros H K. unfold update. destruct (Nat.eqb_spec r v) as [->|]; [contradiction|reflexivity]. Qed.

Lemma visit_spec r f args : op_spec (Visit r f args).
Proof.
  intros D st Hi (Hr & Ha & Hf). cbn [write_op]. unfold write_visit.
  set (dn := match r with Some v => Some (fst (set_name v (bs "result_") st)) | None => None end).
  set (st1 := match r with Some v => snd (set_name v (bs "result_") st) | None => st end).
  replace (match r with Some v => let '(n, st') := set_name v (bs "result_") st in (bs "auto&& " ++ n ++ bs " = ", st') | None => ([], st) end) with (declaration dn, st1) by (destruct r; reflexivity).
  assert (X : ext D st st1) by (destruct r; [apply set_name_ext; exact Hr|apply ext_refl]).
  pose proof (inv_ext _ _ _ Hi X) as Hi1.
  assert (I1 : inv (result_of (Visit r f args) ++ D) st1) by (destruct r; [apply set_name_inv; assumption|exact Hi]).
  assert (Fin : forall I env sc w ss x, rel I D env sc st -> (forall rest, run_stmts I (sapp ss rest) sc w = then_ x (fun y w => run_stmts I rest (match dn with Some n => declare I sc n y | None => sc end) w)) ->
    follows I (fun rest => run_stmts I (sapp ss rest) sc w) (then_ x (fun y w => (Value (match r with Some r => update env r y | None => env end), w)))
      (fun env' sc' => rel I (result_of (Visit r f args) ++ D) env' sc' st1 /\ forall v, In v D -> env' v = env v)).
  { intros I env sc w ss x R E. destruct x as [[y| |] w']; cbn [then_ follows] in *; try exact E.
    exists (match dn with Some n => declare I sc n y | None => sc end). split; [split|exact E].
    - destruct r as [v|]; [|exact R]. apply set_name_rel; auto. cbn. auto.
    - intros v Hv. destruct r; [|reflexivity]. eapply update_other; eauto. }
  assert (C : (exists m, f = OMember m) \/ (operand_ok D f /\
     (forall (A : Type) (x : list N -> wres A) (y : wres A), match f with OMember f => x f | _ => y end = y) /\
     (forall I env w, exec_op I (Visit r f args) env w = given (all_some (map (operand_value I env) args)) w (fun xs => then_ (given (operand_value I env f) w (fun x => i_call I x xs w)) (fun y w => (Value (match r with Some r => update env r y | None => env end), w)))))).
  { destruct f; eauto; right; repeat split; auto; intros; destruct args; reflexivity. }
  destruct C as [(m & ->)|(Hf' & M & Ex)].
  - destruct args as [|a rest]; [congruence|]. inversion Ha as [|? ? H1 H2]; subst.
    destruct (write_expr_spec D a st1 Hi1 H1) as (t & E & F). rewrite E. cbn [wbind].
    destruct (write_args_spec D (bs "," ++ nl) rest st1 Hi1 comma_nl H2) as (u & us & Eu & Lu & _ & Fu). rewrite Eu. cbn [wbind].
    eexists. exists st1, (one (SMethod dn t m us)). split; [reflexivity|]. split; [apply one_text; constructor; exact Lu|].
    split; [exact X|]. split; [exact I1|]. split; [discriminate|].
    intros I env sc w G R. cbn [op_texts operand_texts app flat_map] in G. apply global_app in G. destruct G as [G1 G2].
    pose proof (rel_ext _ _ _ _ _ _ R X) as R1. cbn [exec_op map all_some]. rewrite (F I env sc G1 R1), (Fu I env sc G2 R1). cbn [given option_map].
    apply (Fin I env sc w _ _ R). intros rst. unfold one. cbn [sapp run_stmts run_stmt]. destruct (i_method I _ _ _ w) as [[y| |] w']; reflexivity.
  - rewrite M. destruct (write_expr_spec D f st1 Hi1 Hf') as (t & E & F). rewrite E. cbn [wbind].
    destruct (write_args_spec D (bs "," ++ nl) args st1 Hi1 comma_nl Ha) as (u & us & Eu & Lu & _ & Fu). rewrite Eu. cbn [wbind].
    eexists. exists st1, (one (SCall dn t us)). split; [reflexivity|]. split; [apply one_text; constructor; exact Lu|].
    split; [exact X|]. split; [exact I1|]. split; [discriminate|].
    intros I env sc w G R. cbn [op_texts] in G. apply global_app in G. destruct G as [G1 G2].
    pose proof (rel_ext _ _ _ _ _ _ R X) as R1. rewrite Ex, (Fu I env sc G2 R1), (F I env sc G1 R1). cbn [given].
    apply (Fin I env sc w _ _ R). intros rst. unfold one. cbn [sapp run_stmts run_stmt]. destruct (i_call I _ _ w) as [[y| |] w']; reflexivity.
Qed.

Lemma compose_spec r k l rh : op_spec (Compose r k l rh).
Proof.
  intros D st Hi (Hr & Hk & Hl & Hh). cbn [write_op]. unfold write_compose.
  set (st1 := snd (set_name r (bs "result_") st)). set (n := fst (set_name r (bs "result_") st)).
  change (set_name r (bs "result_") st) with (n, st1). cbn iota.
  assert (X : ext D st st1) by (apply set_name_ext; exact Hr).
  pose proof (inv_ext _ _ _ Hi X) as Hi1.
  destruct (key_spec D k st1 Hi1 Hk) as (kt & Ek & Fk).
  assert (Ek' : match k with
           | None => Wrote []
           | Some o => if unit_key k then Wrote [] else do t <- write_expr o st1; Wrote (t ++ bs ",")
           end = Wrote (match kt with Some t => t ++ bs "," | None => [] end)).
  { destruct Ek as [(A & ->)|(o & t & -> & A & E & ->)].
    - destruct k; [rewrite A|]; reflexivity.
    - rewrite A, E. reflexivity. }
  rewrite Ek'. cbn [wbind]. clear Ek'.
  destruct (write_expr_spec D rh st1 Hi1 Hh) as (h & Eh & Fh). rewrite Eh. cbn [wbind].
  destruct (write_expr_spec D l st1 Hi1 Hl) as (t & E & F). rewrite E. cbn [wbind].
  eexists. exists st1, (one (SCompose n kt h t)). split; [reflexivity|]. split.
  { apply one_text. replace (bs "auto " ++ n ++ bs " = ::nbdl::store_compose(" ++ _ ++ h ++ bs "," ++ t ++ bs ");" ++ nl) with
      (bs "auto " ++ n ++ bs " = ::nbdl::store_compose(" ++ (match kt with Some t => t ++ bs "," | None => [] end ++ h ++ bs "," ++ t) ++ bs ");" ++ nl) by (rewrite <- !app_assoc; reflexivity).
    constructor. assert (Q : list_text [h; t] (h ++ bs "," ++ t)) by (constructor; [exact comma_only|discriminate|constructor]).
    destruct kt as [u|]; cbn [with_key]; [|exact Q]. rewrite <- app_assoc. constructor; [exact comma_only|discriminate|exact Q]. }
  split; [exact X|]. split; [apply set_name_inv; assumption|]. split; [discriminate|].
  intros I env sc w G R. cbn [op_texts] in G. apply global_app in G. destruct G as [G1 G2]. apply global_app in G2. destruct G2 as [G2 G3].
  pose proof (rel_ext _ _ _ _ _ _ R X) as R1. cbn [exec_op]. rewrite (Fk I env sc G1 R1), (F I env sc G2 R1), (Fh I env sc G3 R1). cbn [given].
  unfold one. cbn [sapp run_stmts run_stmt]. destruct (i_compose I _ _ _ w) as [[y| |] w']; cbn [then_ follows]; try reflexivity.
  exists (declare I sc n y). split; [split|reflexivity].
  - apply set_name_rel; auto. cbn. auto.
  - intros v Hv. eapply update_other; eauto.
Qed.

Lemma noop_spec a : op_spec (NoOp a).
Proof.
  intros D st Hi Ha. cbn [write_op]. destruct (write_expr_spec D a st Hi Ha) as (t & E & F). rewrite E. cbn [wbind].
  eexists. exists st, (one (SVoid t)). split; [reflexivity|]. split; [apply one_text; constructor|].
  split; [apply ext_refl|]. split; [exact Hi|]. split; [discriminate|].
  intros I env sc w G R. cbn [exec_op]. rewrite (F I env sc G R). cbn [given follows]. exists sc. repeat split; auto; apply R.
Qed.

Lemma nothing_spec o : (o = Silent \/ o = Discard) -> op_spec o.
Proof.
  intros C D st Hi _. exists [], st, SNil. assert (W : write_op o st = Wrote ([], st)) by (destruct C as [->| ->]; reflexivity).
  assert (X : result_of o = [] /\ is_match_if o = false /\ forall I env w, exec_op I o env w = (Value env, w)) by (destruct C as [->| ->]; repeat split).
  destruct X as (X1 & X2 & X3). rewrite X1, X2. split; [exact W|]. split; [constructor|]. split; [apply ext_refl|]. split; [exact Hi|]. split; [discriminate|].
  intros I env sc w _ R. rewrite X3. cbn [follows]. exists sc. repeat split; auto; apply R.
Qed.

Lemma match_spec s k os : overloads_spec os -> op_spec (Match s k os).
Proof.
  intros IH D st Hi (Hs & Hk & Ht & Ho). cbn [write_op].
  destruct (write_expr_spec D s st Hi Hs) as (t & E & F). rewrite E. cbn [wbind].
  destruct (write_key_spec D (bs ", ") k st Hi Hk) as (kt & Ek & Fk). rewrite Ek. cbn [wbind].
  destruct (IH D st Hi Ho) as (text & st' & ls & l & Ew & Lt & Tx & X & Ty & Nn & Sim). rewrite Ew. cbn [wbind].
  set (v := match os with OCons _ _ _ ONil => text | _ => bs "boost::hana::overload(" ++ text ++ bs ")" end).
  assert (Vt : visitor_text ls v).
  { assert (Ov : visitor_text ls (bs "boost::hana::overload(" ++ text ++ bs ")")) by (econstructor; eauto).
    destruct os as [|ty a b [|? ? ? ?]]; try exact Ov. subst v.
    destruct ls as [|ty' x body [|? ? ? ?]]; try discriminate Ty. inversion Lt as [|? ? ? ? ? ? La Lr]; subst. inversion Lr; subst. inversion Tx as [|? E1 E2|]; subst; [|congruence].
    constructor. exact La. }
  eexists. exists st', (one (SMatch t kt ls)). split; [reflexivity|]. split.
  { apply one_text. replace (bs "::nbdl::match(" ++ t ++ _ ++ bs ", " ++ v ++ bs ");" ++ nl) with
      (bs "::nbdl::match(" ++ (t ++ match kt with None => [] | Some t => bs ", " ++ t end ++ bs ", " ++ v) ++ bs ");" ++ nl) by (rewrite <- !app_assoc; reflexivity).
    econstructor; [exact Vt|]. destruct kt as [u|]; cbn [with_key].
    - rewrite <- app_assoc. constructor; [exact comma_sp|discriminate|]. constructor; [exact comma_sp|discriminate|constructor].
    - cbn [app]. constructor; [exact comma_sp|discriminate|constructor]. }
  split; [exact X|]. split; [eapply inv_ext; eauto|]. split; [discriminate|].
  intros I env sc w G R. cbn [op_texts] in G. apply global_app in G. destruct G as [G1 G2]. apply global_app in G2. destruct G2 as [G2 G3].
  change (exec_op I (Match s k os) env w) with (given (operand_value I env s) w (fun x => given (key_value I env k) w (fun k =>
      then_ (i_match I x k w) (fun '(ty, y) w => then_ (exec_overloads I os ty y env w) (fun _ w => (Value env, w)))))).
  rewrite (F I env sc G1 R), (Fk I env sc G2 R). cbn [given].
  set (run := fun rest => _).
  assert (Er : forall rest, run rest = then_ (then_ (i_match I (i_text I sc t) (option_map (i_text I sc) kt) w) (fun '(ty, y) w =>
      let want := if Nat.eqb (asks ls ty) 0 then [] else ty in
      if Nat.eqb (asks ls want) 1 then then_ (run_lambda I ls want y sc w) (fun _ w => (Value sc, w)) else (IllFormed, w))) (fun sc w => run_stmts I rest sc w)) by reflexivity.
  destruct (i_match I (i_text I sc t) (option_map (i_text I sc) kt) w) as [[[ty y]| |] w']; cbn [then_] in *; try exact Er.
  rewrite (choose I os ty y env w' Ht). cbn zeta in *. rewrite !asks_cnt, Ty in Er.
  set (want := if Nat.eqb (cnt (types_of os) ty) 0 then [] else ty) in *.
  destruct (Nat.eqb (cnt (types_of os) want) 1); [|exact Er].
  rewrite (Sim I env sc w' want y G3 R) in Er. destruct (exec_exact I os want y env w') as [[[]| |] w'']; cbn [then_ follows] in *; try exact Er.
  exists sc. split; [split|exact Er]; [|reflexivity]. eapply rel_ext; eauto.
Qed.

Lemma match_if_spec c t e : block_spec t -> block_spec e -> op_spec (MatchIf c t e).
Proof.
  intros IHt IHe D st Hi (Hc & Ht & He & Ne & Se).
  destruct (write_expr_spec D c st Hi Hc) as (x & E & F).
  destruct (IHt D st Hi Ht) as (bt & st1 & sst & Et & Tt & Xt & _ & _ & Simt).
  destruct (IHe D st1 (inv_ext _ _ _ Hi Xt) He) as (be & st2 & sse & Ee & Te & Xe & _ & Se' & Sime).
  assert (Out : exists b, write_op (MatchIf c t e) st = Wrote (bs "if (" ++ x ++ bs ") {" ++ nl ++ bt ++ bs "} else " ++ b, st2) /\ else_text sse b).
  { change (write_op (MatchIf c t e) st) with (do x <- write_expr c st; do (bt, st1) <- write_block t st;
      match e with
      | BNil => Bad
      | BCons o _ =>
          if is_match_if o
          then do (be, st2) <- write_op o st1; Wrote (bs "if (" ++ x ++ bs ") {" ++ nl ++ bt ++ bs "} else " ++ be, st2)
          else do (be, st2) <- write_block e st1;
               Wrote (bs "if (" ++ x ++ bs ") {" ++ nl ++ bt ++ bs "} else " ++ bs "{" ++ nl ++ be ++ bs "}" ++ nl, st2)
      end).
    rewrite E. cbn [wbind]. rewrite Et. cbn [wbind]. destruct e as [|o r]; [congruence|]. destruct (is_match_if o) eqn:M.
    - assert (r = BNil) as -> by (destruct o; try discriminate M; exact Se).
      change (write_block (BCons o BNil) st1) with (do (t, st1) <- write_op o st1; do (u, st2) <- Wrote ([], st1); Wrote (t ++ u, st2)) in Ee.
      destruct (write_op o st1) as [[b st3]| |]; cbn [wbind] in Ee |- *; try discriminate Ee. injection Ee as E1 E2. rewrite app_nil_r in E1. subst b st3.
      exists be. split; [reflexivity|]. destruct (Se' o eq_refl M) as (c' & t' & e' & ->). inversion Te as [|s0 r0 a0 b0 A B]; subst. inversion B; subst. rewrite app_nil_r. constructor. exact A.
    - rewrite Ee. cbn [wbind]. eexists. split; [reflexivity|]. constructor. exact Te. }
  destruct Out as (b & Ew & Tb). eexists. exists st2, (one (SIf x sst sse)). split; [exact Ew|]. split; [apply one_text; constructor; assumption|].
  pose proof (ext_trans _ _ _ _ Xt Xe) as X. split; [exact X|]. split; [eapply inv_ext; eauto|]. split; [intros _; eauto|].
  intros I env sc w G R. cbn [op_texts] in G. apply global_app in G. destruct G as [G1 G2]. apply global_app in G2. destruct G2 as [G2 G3].
  change (exec_op I (MatchIf c t e) env w) with (given (operand_value I env c) w (fun x => then_ (if i_truth I x then exec_block I t env w else exec_block I e env w) (fun _ w => (Value env, w)))).
  rewrite (F I env sc G1 R). cbn [given].
  set (run := fun rest => _).
  assert (Er : forall rest, run rest = then_ (then_ (if i_truth I (i_text I sc x) then run_stmts I sst sc w else run_stmts I sse sc w) (fun _ w => (Value sc, w))) (fun sc w => run_stmts I rest sc w)) by reflexivity.
  pose proof (block_run _ _ _ _ _ _ _ (Simt I env sc w G2 R)) as Rt. pose proof (block_run _ _ _ _ _ _ _ (Sime I env sc w G3 (rel_ext _ _ _ _ _ _ R Xt))) as Re.
  rewrite Rt, Re in Er. destruct (if i_truth I (i_text I sc x) then exec_block I t env w else exec_block I e env w) as [[[]| |] w']; cbn [then_ follows] in *; try exact Er.
  exists sc. split; [split|exact Er]; [|reflexivity]. eapply rel_ext; eauto.
Qed.

Lemma scope_spec b : block_spec b -> op_spec (Scope b).
Proof.
  intros IH D st Hi Hb. destruct (IH D st Hi Hb) as (text & st' & ss & E & T & X & _ & _ & Sim).
  exists text, st', ss. split; [exact E|]. split; [exact T|]. split; [exact X|]. split; [eapply inv_ext; eauto|]. split; [discriminate|].
  intros I env sc w G R. specialize (Sim I env sc w G R). change (exec_op I (Scope b) env w) with (then_ (exec_block I b env w) (fun _ w => (Value env, w))).
  destruct (exec_block I b env w) as [[[]| |] w']; cbn [then_ follows] in *; try exact Sim.
  destruct Sim as (sc' & R' & S'). exists sc'. repeat split; auto; apply R'.
Qed.

Lemma block_cons_spec o r : op_spec o -> block_spec r -> block_spec (BCons o r).
Proof.
  intros IHo IHr D st Hi (Ho & Hr). destruct (IHo D st Hi Ho) as (t & st1 & ss & E & T & X & Hi1 & Mo & Sim).
  destruct (IHr _ st1 Hi1 Hr) as (u & st2 & us & Eu & Tu & Xu & Nu & _ & Simu).
  exists (t ++ u), st2, (sapp ss us). split.
  { change (write_block (BCons o r) st) with (do (t, st1) <- write_op o st; do (u, st2) <- write_block r st1; Wrote (t ++ u, st2)). rewrite E. cbn [wbind]. rewrite Eu. reflexivity. }
  split; [apply stmts_text_app; assumption|].
  assert (Xd : ext D st1 st2) by (eapply ext_incl; [|exact Xu]; intros v H; apply in_or_app; auto).
  split; [eapply ext_trans; eauto|]. split; [discriminate|]. split.
  { intros o' Eo M. injection Eo as -> ->. rewrite (Nu eq_refl), sapp_nil. auto. }
  intros I env sc w G R. cbn [block_texts] in G. apply global_app in G. destruct G as [G1 G2]. specialize (Sim I env sc w G1 R).
  change (exec_block I (BCons o r) env w) with (then_ (exec_op I o env w) (fun env w => exec_block I r env w)).
  destruct (exec_op I o env w) as [[env'| |] w']; cbn [then_ follows] in *.
  - destruct Sim as (sc' & (R' & Ag) & S'). specialize (Simu I env' sc' w' G2 R').
    destruct (exec_block I r env' w') as [[[]| |] w'']; cbn [follows] in *.
    + destruct Simu as (sc'' & R'' & S''). exists sc''. split.
      * eapply rel_incl; [|exact Ag|exact R'']. intros v H. apply in_or_app; auto.
      * intros rest. rewrite sapp_assoc, S', S''. reflexivity.
    + intros rest. rewrite sapp_assoc, S'. apply Simu.
    + intros rest. rewrite sapp_assoc, S'. apply Simu.
  - intros rest. rewrite sapp_assoc. apply Sim.
  - intros rest. rewrite sapp_assoc. apply Sim.
Qed.

Lemma block_nil_spec : block_spec BNil.
Proof.
  intros D st Hi _. exists [], st, SNil. repeat split; auto; try constructor; try (intros; discriminate); try lia.
  intros I env sc w _ R. cbn [exec_block follows]. exists sc. split; [exact R|reflexivity].
Qed.

Lemma overloads_nil_spec : overloads_spec ONil.
Proof. intros D st Hi _. exists [], st, LNil, []. repeat split; auto; try constructor; try lia; congruence. Qed.

Lemma overloads_cons_spec ty a b r : block_spec b -> overloads_spec r -> overloads_spec (OCons ty a b r).
Proof.
  intros IHb IHr D st Hi (Ha & Hb & Hr).
  set (st0 := snd (set_name a (bs "arg_") st)). set (n := fst (set_name a (bs "arg_") st)).
  assert (X0 : ext D st st0) by (apply set_name_ext; exact Ha).
  destruct (IHb (a :: D) st0 (set_name_inv _ _ _ _ Ha Hi) Hb) as (t & st1 & ss & E & T & X1 & _ & _ & Simb).
  assert (X01 : ext D st st1) by (eapply ext_trans; [exact X0|]; eapply ext_incl; [|exact X1]; intros v H; right; exact H).
  destruct (IHr D st1 (inv_ext _ _ _ Hi X01) Hr) as (u & st2 & ls & l & Er & Lt & Tu & X2 & Ty & Nn & Simr).
  set (lam := bs "[&]([[maybe_unused]] " ++ (match ty with [] => [] | _ => bs "::nbdl::SameAs<" ++ ty ++ bs "> " end) ++ bs "auto&& " ++ n ++ bs "){" ++ nl ++ t ++ bs "}").
  assert (La : lambda_text ty n ss lam).
  { destruct ty as [|c ty]; [exact (la_any n ss t T)|]. unfold lam.
    replace (bs "[&]([[maybe_unused]] " ++ (bs "::nbdl::SameAs<" ++ (c :: ty) ++ bs "> ") ++ bs "auto&& " ++ n ++ bs "){" ++ nl ++ t ++ bs "}") with
      (bs "[&]([[maybe_unused]] ::nbdl::SameAs<" ++ (c :: ty) ++ bs "> auto&& " ++ n ++ bs "){" ++ nl ++ t ++ bs "}").
    - apply la_same; [discriminate|exact T].
    - rewrite <- !app_assoc. reflexivity. }
  exists (lam ++ match r with ONil => [] | _ => (bs "," ++ nl) ++ u end), st2, (LCons ty n ss ls), (lam :: l). split.
  { change (write_overloads (OCons ty a b r) st) with (do (t, st1) <- write_block b st0; do (u, st2) <- write_overloads r st1;
      Wrote (bs "[&]([[maybe_unused]] " ++ (match ty with [] => [] | _ => bs "::nbdl::SameAs<" ++ ty ++ bs "> " end) ++ bs "auto&& " ++ n ++ bs "){" ++ nl ++ t ++ bs "}" ++
             (match r with ONil => [] | _ => bs "," ++ nl ++ u end), st2)).
    rewrite E. cbn [wbind]. rewrite Er. cbn [wbind]. unfold lam. rewrite <- !app_assoc. destruct r; reflexivity. }
  split; [constructor; assumption|]. split.
  { destruct r as [|ty' a' b' r'].
    - cbn in Er. injection Er as <- <-. destruct ls; [|discriminate Ty]. inversion Lt; subst. rewrite app_nil_r. constructor.
    - constructor; [exact comma_nl|apply Nn; discriminate|exact Tu]. }
  split; [eapply ext_trans; eauto|]. split; [cbn [ltypes types_of]; congruence|]. split; [discriminate|].
  intros I env sc w want y G R. cbn [overloads_texts] in G. apply global_app in G. destruct G as [G1 G2].
  rewrite exec_exact_cons. change (run_lambda I (LCons ty n ss ls) want y sc w) with (if bytes_eqb ty want then run_stmts I ss (declare I sc n y) w else run_lambda I ls want y sc w).
  destruct (bytes_eqb ty want).
  - eapply block_run, Simb; [exact G1|]. apply set_name_rel; auto. cbn. auto.
  - apply Simr; [exact G2|]. eapply rel_ext; eauto.
Qed.

Theorem all_specs : (forall o, op_spec o) /\ (forall b, block_spec b) /\ (forall os, overloads_spec os).
Proof.
  apply ir_ind.
  - apply nothing_spec. auto.
  - intros. apply get_spec.
  - intros. apply visit_spec.
  - apply nothing_spec. auto.
  - intros. apply noop_spec.
  - intros. apply match_spec. assumption.
  - intros. apply match_if_spec; assumption.
  - intros. apply compose_spec.
  - intros r a D st _ [].
  - intros. apply scope_spec. assumption.
  - exact block_nil_spec.
  - intros. apply block_cons_spec; assumption.
  - exact overloads_nil_spec.
  - intros. apply overloads_cons_spec; assumption.
Qed.

(* ---- parameters ---- *)

Lemma params_spec l : forall D st, inv D st -> NoDup l -> (forall v, In v l -> ~ In v D) -> exists t st' ns,
  write_params l st = (t, st') /\ list_text (map (fun x => bs "auto&& " ++ x) ns) t /\ length ns = length l /\ inv (l ++ D) st' /\ Forall generated ns /\ NoDup ns /\
  (forall n, In n ns -> exists k, n = var_name (bs "arg_") k /\ count st <= k) /\ count st <= count st' /\
  forall I env sc args, rel I D env sc st -> length args = length l -> rel I (l ++ D) (bind_params I l args env) (declare_all I ns args sc) st'.
Proof.
  induction l as [|v r IH]; intros D st Hi Nd Fr.
  - exists [], st, []. split; [reflexivity|]. split; [constructor|]. split; [reflexivity|]. split; [exact Hi|]. split; [constructor|]. split; [constructor|]. split; [intros ? []|]. split; [lia|].
    intros I env sc args R _. destruct args; exact R.
  - set (st1 := snd (set_name v (bs "arg_") st)). set (n := fst (set_name v (bs "arg_") st)). inversion Nd as [|? ? Nv Nr]; subst.
    assert (Hv : ~ In v D) by (apply Fr; left; reflexivity).
    destruct (IH (v :: D) st1 (set_name_inv _ _ _ _ Hv Hi) Nr) as (t & st' & ns & E & T & L & Hi' & Ge & Nn & Nk & Ck & Sim).
    { intros u Hu [->|K]; [contradiction|]. apply (Fr u); [right; exact Hu|exact K]. }
    assert (Inc : forall u, In u ((v :: r) ++ D) <-> In u (r ++ v :: D)). { intros u. cbn [app In]. rewrite !in_app_iff. cbn [In]. tauto. }
    exists (bs "auto&& " ++ n ++ match r with [] => [] | _ => bs ", " ++ t end), st', (n :: ns). split; [|split; [|split; [|split; [|split; [|split; [|split; [|split]]]]]]].
    + cbn [write_params]. change (set_name v (bs "arg_") st) with (n, st1). cbn iota. rewrite E. reflexivity.
    + destruct r as [|v' r].
      * destruct ns; [|discriminate L]. rewrite app_nil_r. constructor.
      * rewrite app_assoc. cbn [map]. constructor; [exact comma_sp|destruct ns; discriminate|exact T].
    + cbn. congruence.
    + intros u Hu. apply Hi', Inc, Hu.
    + constructor; [|exact Ge]. apply var_name_generated. cbn. auto.
    + constructor; [|exact Nn]. intros K. destruct (Nk n K) as (k & E1 & E2). apply var_name_inj in E1; [|cbn; auto|cbn; auto]. cbn in E2. lia.
    + intros m [<-|K]; [exists (count st); split; [reflexivity|lia]|]. destruct (Nk m K) as (k & E1 & E2). exists k. split; [exact E1|]. cbn in E2. lia.
    + cbn in Ck. lia.
    + intros I env sc args R La. destruct args as [|x args]; [discriminate La|]. cbn [bind_params declare_all]. injection La as La.
      destruct (Sim I (update env v x) (declare I sc n x) args) as [A B]; [apply set_name_rel; auto; cbn; auto|exact La|].
      split; [|exact B]. intros u Hu. apply A, Inc, Hu.
Qed.

Theorem translate f : func_ok f -> exists text p, write_func f = Wrote text /\ program_text p text /\ p_name p = f_name f /\ length (p_params p) = length (f_params f) /\ NoDup (p_params p) /\
  (p_void p = true <-> f_results f = 0%nat) /\
  forall I args w, global_texts I (block_texts (f_body f)) -> length args = length (f_params f) -> run_program I p args w = run_func I f args w.
Proof.
  intros (Nd & Hr & Hb). unfold write_func. destruct (Nat.ltb_spec 1 (f_results f)); [lia|].
  destruct (params_spec (f_params f) [] {| names := []; count := 0 |}) as (ps & st & ns & E & T & L & Hi & Ge & Nn & _ & _ & Sim); [intros ? []|exact Nd|intros ? ? []|].
  rewrite E. rewrite app_nil_r in *. destruct all_specs as (_ & Hs & _). destruct (Hs (f_body f) (f_params f) st Hi Hb) as (t & st' & ss & Et & Tt & _ & _ & _ & Simb).
  rewrite Et. cbn [wbind]. eexists. exists {| p_name := f_name f; p_params := ns; p_void := Nat.eqb (f_results f) 0; p_body := ss |}.
  split; [reflexivity|]. split; [exists ps, t; cbn; auto|]. repeat split; auto; cbn [p_void p_params].
  - apply Nat.eqb_eq.
  - apply Nat.eqb_eq.
  - intros I args w G La. unfold run_program, run_func. cbn [p_body p_params]. eapply block_run, Simb; [exact G|].
    specialize (Sim I (fun _ => None) (no_locals I) args). apply Sim; [|exact La]. split; [intros ? []|]. intros n H'. destruct (H' eq_refl).
Qed.
