(* C71: the text that the translation writes and the source locations it carries. *)
From Coq Require Import String.
From Verif Require Import Base LocModel.
Open Scope N_scope.

(* ---- specification: each character belongs to the innermost location around it ---- *)
Fixpoint act_chars (a : act) (l : loc) : list (loc * N) :=
  match a with Txt s => map (pair l) s | Fl => [] | At l' b => acts_chars b l' end
with acts_chars (b : acts) (l : loc) : list (loc * N) :=
  match b with ANil => [] | ACons a r => act_chars a l ++ acts_chars r l end.
Definition written (o : list (loc * list N)) : list (loc * N) := flat_map (fun p => map (pair (fst p)) (snd p)) o.
Fixpoint act_locs (a : act) : list loc := match a with Txt _ | Fl => [] | At l b => l :: acts_locs b end
with acts_locs (b : acts) : list loc := match b with ANil => [] | ACons a r => act_locs a ++ acts_locs r end.

Scheme act_ind2 := Induction for act Sort Prop with acts_ind2 := Induction for acts Sort Prop.
Combined Scheme act_acts_ind from act_ind2, acts_ind2.

Lemma flush_text s : map snd (written (out (flush s))) ++ buf (flush s) = map snd (written (out s)) ++ buf s.
Proof.
  unfold flush. destruct (buf s) as [|c b] eqn:E; [rewrite E; reflexivity|]. cbn [out buf]. unfold written. rewrite flat_map_app, map_app. cbn [flat_map fst snd]. rewrite !app_nil_r, map_map. cbn [snd].
  rewrite map_id. reflexivity.
Qed.
Lemma chars_text : (forall a l, map snd (act_chars a l) = map snd (act_chars a None)) /\ (forall b l, map snd (acts_chars b l) = map snd (acts_chars b None)).
Proof.
  apply act_acts_ind; cbn; intros; auto.
  - rewrite !map_map. reflexivity.
  - rewrite !map_app. rewrite H, H0. symmetry. f_equal.
Qed.
Lemma run_text : (forall a s, map snd (written (out (run_act a s))) ++ buf (run_act a s) = (map snd (written (out s)) ++ buf s) ++ map snd (act_chars a None)) /\
  (forall b s, map snd (written (out (run_acts b s))) ++ buf (run_acts b s) = (map snd (written (out s)) ++ buf s) ++ map snd (acts_chars b None)).
Proof.
  apply act_acts_ind.
  - intros t s. cbn. rewrite map_map. cbn. rewrite map_id, app_assoc. reflexivity.
  - intros s. cbn [run_act act_chars map]. rewrite app_nil_r. apply flush_text.
  - intros l b IH s. cbn [run_act act_chars]. rewrite flush_text. cbn [set_cur out buf]. rewrite IH. cbn [set_cur out buf]. rewrite (proj2 chars_text b l). reflexivity.
  - intros s. cbn. rewrite !app_nil_r. reflexivity.
  - intros a IHa b IHb s. cbn [run_acts acts_chars]. rewrite IHb, IHa, map_app, !app_assoc. reflexivity.
Qed.

(* Everything that is written for an operation is given to the lexer, in order, once. *)
Theorem C71_complete l b : let s := run_acts (visit_op l b) new_writer in
  buf s = [] /\ concat (map snd (out s)) = map snd (acts_chars b l).
Proof.
  cbn zeta. assert (E : buf (run_acts (visit_op l b) new_writer) = []).
  { unfold visit_op. cbn [run_acts run_act]. unfold flush at 1. destruct (buf (set_cur _ _)) eqn:E; [exact E|reflexivity]. }
  split; [exact E|]. pose proof (proj2 run_text (visit_op l b) new_writer) as H. rewrite E, app_nil_r in H. cbn [new_writer out buf written flat_map map app] in H.
  unfold visit_op in H at 2. cbn [acts_chars act_chars app] in H. rewrite app_nil_r in H. rewrite <- H. unfold written. clear H.
  induction (out (run_acts (visit_op l b) new_writer)) as [|[k t] r IH]; [reflexivity|]. cbn [map concat flat_map fst snd]. rewrite map_app, map_map. cbn. rewrite map_id. f_equal. exact IH.
Qed.
Print Assumptions C71_complete.

(* What is written last at a location carries the location around it. *)
Lemma run_cur : (forall a s, cur (run_act a s) = cur s) /\ (forall b s, cur (run_acts b s) = cur s).
Proof.
  assert (F : forall s, cur (flush s) = cur s) by (intros s; unfold flush; destruct (buf s); reflexivity).
  apply act_acts_ind; cbn; intros; auto. rewrite F. reflexivity. rewrite H0. apply H.
Qed.
Lemma run_app a b s : run_acts (ACons a b) s = run_acts b (run_act a s).
Proof. reflexivity. Qed.
Fixpoint aapp (a b : acts) : acts := match a with ANil => b | ACons x r => ACons x (aapp r b) end.
Lemma run_aapp a : forall b s, run_acts (aapp a b) s = run_acts b (run_acts a s).
Proof. induction a as [|x r IH]; intros b s; [reflexivity|]. cbn [aapp run_acts]. apply IH. Qed.

Theorem C71_outer_location l b t s : t <> [] -> exists t' o, out (run_act (At l (aapp b (ACons (Txt t) ANil))) s) = o ++ [(cur s, t' ++ t)].
Proof.
  intros Ht. cbn [run_act]. rewrite run_aapp. cbn [run_acts run_act]. set (s1 := run_acts b (set_cur l s)). unfold flush. cbn [set_cur buf out cur].
  destruct (buf s1 ++ t) as [|c r] eqn:E; [apply app_eq_nil in E; tauto|]. exists (buf s1), (out s1). rewrite E. reflexivity.
Qed.
Print Assumptions C71_outer_location.

(* So the location of a character is not the innermost: here a call, at line 7, in a function, at line 3, and the end of the
   function has no valid location. *)
Definition call_acts : acts := visit_op (Some 3) (ACons (Txt (bs "void f(){")) (aapp (visit_op (Some 7) (ACons (Txt (bs "go();")) ANil)) (ACons (Txt (bs "}")) ANil))).
Theorem C71_location_refuted : exists b, let s := run_acts b new_writer in written (out s) <> acts_chars b None /\
  ~ In (Some 7) (map fst (out s)) /\ In (Some 7) (acts_locs b) /\ In None (map fst (out s)).
Proof.
  exists call_acts. vm_compute. repeat split; try (intros H; discriminate H).
  - intros [H|[H|[H|[]]]]; discriminate H.
  - tauto.
  - tauto.
Qed.
Print Assumptions C71_location_refuted.
Example C71_ex : out (run_acts call_acts new_writer) = [(Some 3, bs "void f(){"); (Some 3, bs "go();"); (None, bs "}")].
Proof. vm_compute. reflexivity. Qed.

(* no location is made up *)
Lemma flush_locs s p : In p (map fst (out (flush s))) -> In p (map fst (out s)) \/ p = cur s.
Proof. unfold flush. destruct (buf s); [auto|]. cbn [out]. rewrite map_app, in_app_iff. cbn. intuition. Qed.
Theorem C71_locations : forall b s p, In p (map fst (out (run_acts b s))) -> In p (map fst (out s)) \/ p = cur s \/ In p (acts_locs b).
Proof.
  enough (H : (forall a s p, In p (map fst (out (run_act a s))) -> In p (map fst (out s)) \/ p = cur s \/ In p (act_locs a)) /\
              (forall b s p, In p (map fst (out (run_acts b s))) -> In p (map fst (out s)) \/ p = cur s \/ In p (acts_locs b))) by apply H.
  apply act_acts_ind; cbn [run_act run_acts act_locs acts_locs].
  - auto.
  - intros s p H. apply flush_locs in H. tauto.
  - intros l b IH s p H. apply flush_locs in H. cbn [set_cur out cur] in H. destruct H as [H|H]; [|auto]. apply IH in H. cbn [set_cur out cur] in H. cbn [In]. intuition.
  - auto.
  - intros a IHa b IHb s p H. apply IHb in H. rewrite (proj1 run_cur) in H. rewrite in_app_iff. destruct H as [H|[H|H]]; auto. apply IHa in H. tauto.
Qed.
Print Assumptions C71_locations.
