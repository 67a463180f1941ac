(** With the default resource check and hardware that prepares every switch, requests of the scripts are refused for
    shared resources only. *)
From Coq Require Import Lia.
From Verif Require Import HwTypes Lifecycle ConflictModel ConflictProofs CMModel CMSpec CMInv CMTrace CMLoad CMFinal HwSpec HwClaims ScriptModel ScriptSpec ScriptProofs ScriptMain.
Local Open Scope list_scope.

Lemma once_pos c r p q : claims_once c -> claim_at [c] p r -> claim_at [c] q r -> p = q.
Proof. intros H. apply (proj1 (claims_pos [c])). unfold all_claims. cbn. now rewrite app_nil_r. Qed.

Lemma claim_at_in infos i j k r : claim_at infos (i, j, k) r -> exists c, nth_error infos i = Some c /\ claims_resource c r /\ claim_at [c] (0%nat, j, k) r.
Proof.
  intros (c & f & H1 & H2 & H3). cbn in *. exists c. split; [exact H1|]. split; [exists f; split; eapply nth_error_In; eassumption|]. exists c, f. auto.
Qed.

Lemma conflict_pair (l : list (nat * cinfo)) : NoDup (map fst l) -> (forall c, In c l -> claims_once (snd c)) -> check_for_conflict (map snd l) = true ->
  exists c d r, In c l /\ In d l /\ c <> d /\ claims_resource (snd c) r /\ claims_resource (snd d) r.
Proof.
  intros N O H. apply conflict_exact in H as (r & [[i j] k] & [[i' j'] k'] & Hne & H1 & H2).
  apply claim_at_in in H1 as (c & E1 & R1 & P1). apply claim_at_in in H2 as (d & E2 & R2 & P2).
  rewrite nth_error_map in E1, E2. destruct (nth_error l i) as [x|] eqn:X; [|discriminate E1]. destruct (nth_error l i') as [y|] eqn:Y; [|discriminate E2].
  injection E1 as <-. injection E2 as <-. exists x, y, r.
  assert (Hx : In x l) by (eapply nth_error_In; eassumption). assert (Hy : In y l) by (eapply nth_error_In; eassumption).
  repeat (split; [assumption|]). split; [|auto]. intros ->.
  assert (i = i').
  { apply (proj1 (NoDup_nth_error (map fst l)) N).
    - rewrite map_length. apply nth_error_Some. congruence.
    - rewrite !nth_error_map, X, Y. reflexivity. }
  subst i'. apply Hne. assert (E : (0%nat, j, k) = (0%nat, j', k')) by (eapply once_pos; [apply O; exact Hy | exact P1 | exact P2]). congruence.
Qed.

Lemma trace_prefix ls h t : exists e, trace ls (h ++ t) = trace ls h ++ e.
Proof.
  induction t as [|o t IH] using rev_ind; [exists []; now rewrite !app_nil_r|].
  destruct IH as [e E]. rewrite app_assoc, trace_snoc, E. eexists. now rewrite <- app_assoc.
Qed.

Section Conflict.
  Variables (ls : list loader) (h h' : list op).
  Hypothesis NA : no_abandoned h'.
  Hypothesis CK : checks_with check_for_conflict h'.
  Hypothesis AG : agreeing h'.
  Hypothesis ON : forall c, In c (loads (trace ls h')) -> claims_once (snd c).

  Lemma objection_pair start stop : objection ls h h' start stop -> clash ls h h' start stop.
  Proof.
    intros (t & z & now & ck & pr & t' & E & O). cbv zeta in O. set (tr := trace ls (h ++ t)) in *.
    assert (M : In (Switch start stop z false 0 now ck pr) h') by (rewrite E; apply in_app_iff; right; now left).
    assert (P : forall x y, pr x y = true) by (exact (proj1 (Forall_forall _ _) AG _ M)).
    assert (K : forall l, ck l = check_for_conflict l) by (exact (proj1 (Forall_forall _ _) CK _ M)).
    destruct O as [O|O]; [|rewrite P in O; discriminate O]. rewrite K in O. unfold would_run in O.
    destruct (trace_prefix ls (h ++ t) (Switch start stop z false 0 now ck pr :: t')) as [e Ee]. rewrite <- E in Ee. fold tr in Ee.
    assert (NAt : no_abandoned (h ++ t)) by (unfold no_abandoned in *; rewrite E in NA; apply Forall_app in NA; tauto).
    assert (CKt : checks_with check_for_conflict (h ++ t)) by (unfold checks_with in *; rewrite E in CK; apply Forall_app in CK; tauto).
    destruct (distinct_at ls h' tr e Ee) as (_ & LF & ND).
    apply conflict_pair in O as (c & d & r & Hc & Hd & Hne & Rc & Rd).
    - apply filter_In in Hc as [Hc Fc], Hd as [Hd Fd].
      assert (D : forall x, In x (loaded tr) -> named start x || runsb tr (fst x) && negb (named stop x) = true ->
                In (ci_name (snd x)) start \/ runs tr (fst x) /\ ~ In (ci_name (snd x)) stop).
      { intros x _ F. apply orb_true_iff in F as [F|F]; [left; rewrite named_isin in F; now apply isin_spec in F|]. right.
        apply andb_true_iff in F as [F1 F2]. apply runsb_spec in F1. split; [exact F1|]. apply negb_true_iff in F2. rewrite named_isin in F2. now apply isin_false in F2. }
      destruct (D c Hc Fc) as [Sc|[Uc Nc]].
      + exists t, (Switch start stop z false 0 now ck pr :: t'), c, d, r. repeat (split; [assumption|]). auto.
      + destruct (D d Hd Fd) as [Sd|[Ud Nd]].
        * exists t, (Switch start stop z false 0 now ck pr :: t'), d, c, r. repeat (split; [solve [assumption | congruence]|]). auto.
        * exfalso. pose proof (exclusive_default ls (h ++ t) tr [] NAt CKt (eq_sym (app_nil_r _))) as X. destruct c as [i a], d as [j b]. cbn [fst snd] in *.
          assert (i = j) by (eapply (X i a j b r); eassumption). subst j. apply Hne. f_equal.
          rewrite LF in Hc, Hd. apply filter_In in Hc as [Hc _], Hd as [Hd _].
          assert (Q : (i, a) = (i, b)) by (apply (nodup_map_inj fst (loads tr)); auto). congruence.
    - rewrite LF. clear -ND. induction (loads tr) as [|x l IH]; [constructor|]. cbn [map] in ND. inversion ND as [|? ? N1 N2]; subst. cbn [filter].
      assert (S : forall f g, In (fst x) (map fst (filter f (filter g l))) -> In (fst x) (map fst l)).
      { intros f g Hx. apply in_map_iff in Hx as (y & Ey & Hy). apply filter_In in Hy as [Hy _]. apply filter_In in Hy as [Hy _]. apply in_map_iff. eauto. }
      destruct (negb _); [|auto]. cbn [filter]. destruct (_ || _); [|auto]. cbn [map]. constructor; [|auto]. intros Hx. apply N1. eapply S; exact Hx.
    - intros c Hc. apply filter_In in Hc as [Hc _]. apply ON. rewrite LF in Hc. apply filter_In in Hc as [Hc _].
      rewrite Ee. unfold loads in *. rewrite flat_map_app. apply in_app_iff. now left.
  Qed.
End Conflict.

Lemma refusal_reason ls h h' start stop : no_abandoned h' -> plain ls h' -> objection ls h h' start stop -> clash ls h h' start stop.
Proof. intros NA (CK & AG & ON). exact (objection_pair ls h h' NA CK AG ON start stop). Qed.

Lemma objection_start ls h h' n : no_abandoned h' -> plain ls h' -> objection ls h h' [n] [] -> in_the_way ls h h' n.
Proof.
  intros NA (CK & AG & ON) O. destruct (objection_pair ls h h' NA CK AG ON _ _ O) as (t & t' & c & d & r & E & Hc & Hd & Hne & Rc & Rd & Sc & Sd).
  destruct Sc as [Sc|[]]. exists t, t', c, d, r. split; [exact E|]. cbv zeta. repeat (split; [solve [assumption | congruence]|]).
  destruct Sd as [[Sd|[]]|[Sd _]]; [|auto 6]. exfalso. apply Hne. pose proof (board_names ls (h ++ t)) as N.
  unfold names, board in N. rewrite map_map in N. cbn [fst] in N. apply (nodup_map_inj (fun x => ci_name (snd x)) (loaded (trace ls (h ++ t)))); auto. congruence.
Qed.

Lemma objection_stop ls h h' s : no_abandoned h' -> plain ls h' -> ~ objection ls h h' [] s.
Proof. intros NA (CK & AG & ON) O. destruct (objection_pair ls h h' NA CK AG ON _ _ O) as (t & t' & c & d & r & _ & _ & _ & _ & _ & _ & [] & _). Qed.
