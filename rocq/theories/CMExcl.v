(** Running controllers never share a resource. *)
From Verif Require Import HwTypes Lifecycle CMModel CMSpec CMInv CMTrace CMCycle CMSwitch CMLife CMSession.
From Verif Require Import ConflictModel ConflictProofs.

Definition compat (tr : list event) (S : nat -> Prop) : Prop :=
  forall i a j b r, In (i, a) (loaded tr) -> In (j, b) (loaded tr) -> S i -> S j ->
    claims_resource a r -> claims_resource b r -> i = j.

Definition exP (past : list event) (e : event) : Prop := exclusive (past ++ [e]).

Lemma compat_sub tr tr' (S : nat -> Prop) : loaded tr' = loaded tr ->
  (forall i a, In (i, a) (loaded tr) -> runs tr' i -> S i) -> compat tr S -> exclusive tr'.
Proof.
  intros E H C i a j b r Hi Hj Ri Rj Ca Cb. rewrite E in *. eapply C; eauto.
Qed.

(** Events that start only members of [S]. *)
Definition starts_in (S : nat -> Prop) (e : event) : Prop :=
  match e with EvCb i CbStarting _ => S i | EvCb _ _ _ | EvDo _ _ => True | _ => False end.

Lemma starts_in_cyc S es : Forall (starts_in S) es -> Forall cyc_ev es.
Proof. apply Forall_impl. intros []; simpl; auto. Qed.

Lemma ex_events S es : forall tr,
  Forall (starts_in S) es -> (forall i a, In (i, a) (loaded tr) -> runs tr i -> S i) -> compat tr S ->
  along exP [] tr ->
  along exP [] (tr ++ es) /\ (forall i a, In (i, a) (loaded tr) -> runs (tr ++ es) i -> S i).
Proof.
  induction es as [|e es IH]; intros tr Hs Hr C A.
  - rewrite app_nil_r. auto.
  - inversion Hs as [|? ? He Hes]; subst.
    assert (El : loaded (tr ++ [e]) = loaded tr).
    { apply loaded_cyc. constructor; [destruct e; simpl in *; auto|constructor]. }
    assert (Hr' : forall i a, In (i, a) (loaded tr) -> runs (tr ++ [e]) i -> S i).
    { intros i a Hi Ri. unfold runs in Ri. rewrite phase_snoc in Ri.
      destruct e as [j c t| | | | | |]; simpl in *; try contradiction; try (eapply Hr; eauto; fail).
      destruct c; destruct (Nat.eqb_spec i j) as [->|]; try discriminate; try (eapply Hr; eauto; fail). exact He. }
    replace (tr ++ e :: es) with ((tr ++ [e]) ++ es) by (rewrite <- app_assoc; reflexivity).
    destruct (IH (tr ++ [e])) as [A1 A2]; auto.
    + rewrite El. exact Hr'.
    + intros i a j b r. rewrite El. apply C.
    + apply along_snoc. split; [exact A|]. eapply compat_sub; eauto.
    + split; [exact A1|]. rewrite El in A2. exact A2.
Qed.

(** Phases through callbacks. *)
Definition phase_cb (p : phase) (c : callback) : phase :=
  match c with CbStarting => PStarted | CbStopping => PStopped | CbWaiting => PWaiting | CbAborting => PAborted | CbUpdate _ => p end.
Lemma phase_callbacks tr e j : Forall cyc_ev e ->
  phase_of (tr ++ e) j = fold_left phase_cb (callbacks_of j e) (phase_of tr j).
Proof.
  rewrite phase_app. generalize (phase_of tr j) as p. induction e as [|x e IH]; intros p H; [reflexivity|].
  inversion H; subst. destruct x as [i c t| | | | | |]; simpl in *; try contradiction; [|apply IH; assumption].
  rewrite IH by assumption. destruct c, (Nat.eqb j i); reflexivity.
Qed.

Definition Aset (s : cm) (tr : list event) (i : nat) : Prop :=
  In i (cm_start s) \/ (runs tr i /\ ~ In i (cm_stop s)).

Record Ex (s : cm) (tr : list event) : Prop := {
  ex_along : along exP [] tr;
  ex_runs : compat tr (runs tr);
  ex_A : compat tr (Aset s tr) }.

Lemma compat_weaken tr tr' (S S' : nat -> Prop) : loaded tr' = loaded tr ->
  (forall i a, In (i, a) (loaded tr) -> S' i -> S i) -> compat tr S -> compat tr' S'.
Proof. intros E H C i a j b r Hi Hj Ri Rj Ca Cb. rewrite E in *. eapply C; eauto. Qed.

Lemma start_stage_events t hw s h :
  Forall (fun e => exists i cb, e = EvCb i cb t /\ In i (cm_start s)) (snd (fst (start_stage t hw s h))).
Proof.
  unfold start_stage. destruct (sw_asap _).
  - unfold start_controllers_asap. destruct (asap_touch t hw (cm_sw s) (cm_list s) 0 h (cm_start s)) as [_ H].
    destruct (asap_loop _ _ _ _ _ _ _); cbn [fst snd] in *. eapply Forall_impl; [|exact H].
    intros e (i & cb & -> & Hi & _). eauto.
  - assert (X : forall f, (forall h i, snd (f h i) = [] \/ exists c, snd (f h i) = [EvCb i c t]) ->
                Forall (fun e => exists i cb, e = EvCb i cb t /\ In i (cm_start s)) (snd (for_each f h (cm_start s)))).
    { intros f Hf. apply (for_each_ind f (fun _ e => Forall (fun e => exists i cb, e = EvCb i cb t /\ In i (cm_start s)) e)) with (e := []); [|constructor].
      intros i h0 e0 Hi H0. apply Forall_app; split; [exact H0|].
      destruct (Hf h0 i) as [->|(c & ->)]; constructor; [eauto|constructor]. }
    unfold start_controllers. destruct (swstate_eqb _ _); [|destruct (_ || _)]; cbn [fst snd]; apply X; intros h0 i.
    + unfold start_request. destruct (h0 i); cbn; eauto.
    + unfold abort_request. destruct (h0 i); cbn; eauto.
    + unfold wait_request. destruct (h0 i); cbn; eauto.
Qed.

Lemma ex_update t p r hw s tr : Inv s tr -> Ex s tr ->
  Ex (fst (update t p r hw s)) (tr ++ snd (update t p r hw s)).
Proof.
  intros HI [EA ER EC].
  destruct (update_frame t p r hw s) as (El & _ & Ea & Eb & _).
  pose proof (update_cyc t p r hw s) as Hcyc. pose proof (loaded_cyc tr _ Hcyc) as Elo.
  assert (Hrl : forall c, In c (filter (fun c => is_running (cm_heap s) (sp_inst c)) (cm_list s)) -> runs tr (sp_inst c)).
  { intros c Hc. apply filter_In in Hc as [Hc Hr]. rewrite (inv_running _ _ _ HI Hc) in Hr. apply runsb_spec; exact Hr. }
  assert (Hpre : Forall (starts_in (runs tr)) ((if r then reset_events t (cm_heap s) (cm_list s) else []) ++ upd_events t p (cm_heap s) (cm_list s))).
  { apply Forall_app; split.
    - destruct r; [|constructor]. unfold reset_events. apply Forall_forall. intros e He.
      apply in_flat_map in He as (c & Hc & [<-|[<-|[]]]); simpl; auto.
    - unfold upd_events. apply Forall_forall. intros e He. apply in_map_iff in He as (c & <- & Hc). simpl. exact I. }
  destruct (sw_do (cm_sw s)) eqn:Hd.
  - destruct (cycle_decomp t p r hw s Hd) as (h1 & H1 & Hh & Hsw & e1 & He1 & He).
    assert (Hst : Forall (fun e => is_stopping e = true) e1 /\ snd (update t p r hw s) =
       (((if r then reset_events t (cm_heap s) (cm_list s) else []) ++ upd_events t p (cm_heap s) (cm_list s)) ++ hwdo s ++ e1) ++ snd (fst (start_stage t hw s h1))).
    { split; [|rewrite He, <- !app_assoc; reflexivity].
      (* only stopping events have been emitted *)
      destruct (update_decomp t p r hw s) as (h & Hh' & E). rewrite Hd in E. 
      destruct (manage_decomp t hw (set_heap s h)) as (_ & _ & E3).
      destruct (stop_stage t h (cm_stop s)) as (_ & _ & F3).
      assert (Hcb : forall e, In e e1 -> exists i c t', e = EvCb i c t' /\ c = CbStopping).
      { intros e Hin.
        assert (Hce : cyc_ev e).
        { rewrite Forall_forall in Hcyc. apply Hcyc. rewrite He. rewrite !in_app_iff. auto. }
        assert (Hdo : forall a b, e <> EvDo a b).
        { intros a b ->. rewrite E in He. cbn [snd] in He. rewrite E3 in He.
          apply app_inv_head in He. change (hwdo (set_heap s h)) with (hwdo s) in He. apply app_inv_head in He.
          assert (Hx : In (EvDo a b) (e1 ++ snd (fst (start_stage t hw s h1)))) by (apply in_app_iff; auto).
          rewrite <- He in Hx. apply in_app_iff in Hx as [Hx|Hx].
          - rewrite Forall_forall in F3. destruct (F3 _ Hx) as (i & X & _). discriminate.
          - pose proof (start_stage_events t hw (set_heap s h) (fst (stop_controllers t (cm_heap (set_heap s h)) (cm_stop (set_heap s h))))) as F4.
            rewrite Forall_forall in F4. destruct (F4 _ Hx) as (i & cb & X & _). discriminate. }
        destruct e as [i c t'|i x|i|x y z|x y|x|x]; simpl in Hce; try contradiction; [|exfalso; eapply Hdo; reflexivity].
        exists i, c, t'. split; [reflexivity|].
        assert (Hci : In c (callbacks_of i e1)).
        { clear - Hin. induction e1 as [|x l IH]; simpl in *; [contradiction|]. destruct Hin as [->|Hin].
          - rewrite Nat.eqb_refl. left; reflexivity.
          - destruct x; auto. destruct (Nat.eqb i i0); simpl; auto. }
        rewrite He1 in Hci. destruct (_ && _); simpl in Hci; [destruct Hci as [<-|[]]; reflexivity|contradiction]. }
      apply Forall_forall. intros e Hin. destruct (Hcb e Hin) as (i & c & t' & -> & ->). reflexivity. }
    destruct Hst as [Hst He2]. rewrite He2 in *.
    set (X := ((if r then reset_events t (cm_heap s) (cm_list s) else []) ++ upd_events t p (cm_heap s) (cm_list s)) ++ hwdo s ++ e1) in *.
    assert (HX : Forall (starts_in (runs tr)) X).
    { unfold X. apply Forall_app; split; [exact Hpre|]. apply Forall_app; split.
      - unfold hwdo. destruct (sw_started _); repeat constructor.
      - eapply Forall_impl; [|exact Hst]. intros [i c t'| | | | | |]; simpl; try discriminate. destruct c; auto; discriminate. }
    destruct (ex_events (runs tr) X tr HX (fun _ _ _ H => H) ER EA) as [A1 R1].
    pose proof (loaded_cyc tr X (starts_in_cyc _ _ HX)) as ElX.
    (* after the stops only members of A run *)
    assert (R2 : forall i a, In (i, a) (loaded tr) -> runs (tr ++ X) i -> Aset s tr i).
    { intros i a Hi Ri. pose proof (R1 i a Hi Ri) as R0.
      right. split; [exact R0|]. intros Hs.
      rewrite <- (inv_list _ _ HI) in Hi. apply in_map_iff in Hi as (c & E & Hc). injection E as <- <-.
      assert (Hrun : is_running (cm_heap s) (sp_inst c) = true).
      { rewrite (inv_running _ _ _ HI Hc). apply runsb_spec; exact R0. }
      unfold runs in Ri. unfold X in Ri. rewrite !app_assoc in Ri.
      assert (Ce1 : Forall cyc_ev e1).
      { eapply Forall_impl; [|exact Hst]. intros []; simpl; auto; discriminate. }
      rewrite phase_callbacks in Ri by exact Ce1. rewrite He1 in Ri.
      apply mem_spec in Hs. rewrite Hs, Hrun in Ri. simpl in Ri. discriminate. }
    assert (HS : Forall (starts_in (Aset s tr)) (snd (fst (start_stage t hw s h1)))).
    { eapply Forall_impl; [|apply start_stage_events]. intros e (i & cb & -> & Hi). simpl. destruct cb; auto. left; exact Hi. }
    destruct (ex_events (Aset s tr) _ (tr ++ X) HS) as [A2 R3].
    + rewrite ElX. exact R2.
    + eapply compat_weaken; [exact ElX| |exact EC]. auto.
    + exact A1.
    + rewrite ElX in R3. rewrite <- app_assoc in A2, R3. split; [exact A2| |].
      * eapply compat_weaken; [exact Elo| |exact EC]. exact R3.
      * eapply compat_weaken; [exact Elo| |exact EC]. intros i a Hi [H|[H _]].
        -- left. rewrite <- Ea. exact H.
        -- eapply R3; eauto.
  - destruct (update_decomp t p r hw s) as (h & Hh & E). rewrite Hd in E. cbv zeta in E. rewrite E in *. cbn [fst snd] in *.
    destruct (ex_events (runs tr) _ tr Hpre (fun _ _ _ H => H) ER EA) as [A1 R1].
    split; [exact A1| |].
    + eapply compat_weaken; [exact Elo|exact R1|exact ER].
    + eapply compat_weaken; [exact Elo| |exact EC]. intros i a Hi [H|[H H']]; [left; exact H|right; eauto].
Qed.

(** Events other than callbacks. *)
Lemma ex_nocb tr e : Forall no_cb e -> compat tr (runs tr) -> along exP [] tr ->
  along exP [] (tr ++ e) /\ compat (tr ++ e) (runs (tr ++ e)).
Proof.
  intros H. revert tr. induction H as [|x e Hx He IH]; intros tr C A; [rewrite app_nil_r; auto|].
  replace (tr ++ x :: e) with ((tr ++ [x]) ++ e) by (rewrite <- app_assoc; reflexivity).
  assert (C' : compat (tr ++ [x]) (runs (tr ++ [x]))).
  { assert (Y : forall i a, In (i, a) (loaded (tr ++ [x])) -> runs (tr ++ [x]) i -> In (i, a) (loaded tr) /\ runs tr i).
    { intros i a Hi Ri. unfold runs in *. rewrite phase_snoc in Ri. rewrite loaded_app in Hi. simpl in Hi.
      destruct x as [j c t|j x|j| | | |]; simpl in *; try contradiction; auto.
      - destruct (Nat.eqb_spec i j) as [->|Hne]; [discriminate|]. apply in_app_iff in Hi as [Hi|[[= <- <-]|[]]]; [auto|congruence].
      - destruct (Nat.eqb_spec i j) as [->|Hne]; [discriminate|]. apply filter_In in Hi as [Hi _]. auto. }
    intros i a j b r Hi Hj Ri Rj Ca Cb. destruct (Y _ _ Hi Ri), (Y _ _ Hj Rj). eapply C; eauto. }
  apply IH; [exact C'|]. apply along_snoc. split; [exact A|]. exact C'.
Qed.

Lemma default_check_sound : sound_check check_for_conflict.
Proof.
  intros l H. apply conflict_iff in H. unfold all_claims in H.
  induction l as [|c l IH]; constructor.
  - apply Forall_forall. intros d Hd r Hc Hr. simpl in H.
    eapply nodup_app_disjoint; [exact H| |].
    + apply claims_in. exact Hc.
    + apply in_flat_map. exists d. split; [exact Hd|]. apply claims_in. exact Hr.
  - apply IH. simpl in H. eapply nodup_app_r; exact H.
Qed.

Lemma ord_pairs_map_filter (l : list (nat * cinfo)) f :
  ForallOrdPairs disjoint_claims (map snd (filter f l)) ->
  forall x y, In x l -> In y l -> f x = true -> f y = true -> x <> y ->
  forall r, claims_resource (snd x) r -> claims_resource (snd y) r -> False.
Proof.
  induction l as [|c l IH]; intros H x y Hx Hy Fx Fy Hne r Cx Cy; [contradiction|]. simpl in *.
  assert (Hl : ForallOrdPairs disjoint_claims (map snd (filter f l))).
  { destruct (f c); [inversion H; assumption|exact H]. }
  assert (Hc : f c = true -> forall d, In d l -> f d = true -> disjoint_claims (snd c) (snd d)).
  { intros Fc d Hd Fd. rewrite Fc in H. simpl in H. inversion H as [|? ? F _]; subst.
    rewrite Forall_forall in F. apply F. apply in_map. apply filter_In; auto. }
  destruct Hx as [->|Hx], Hy as [->|Hy]; [congruence| | |eauto].
  - eapply Hc; eauto.
  - eapply (Hc Fy x); eauto.
Qed.

Lemma would_run_compat s tr a b ck : Inv s tr -> sound_check ck -> ck (would_run tr a b) = false ->
  forall s', cm_start s' = resolve (cm_list s) a -> cm_stop s' = resolve (cm_list s) b -> compat tr (Aset s' tr).
Proof.
  intros HI Hs Hc s' E1 E2 i x j y r Hi Hj Ai Aj Cx Cy.
  assert (Hf : forall i x, In (i, x) (loaded tr) -> Aset s' tr i ->
            (fun c => named a c || (runsb tr (fst c) && negb (named b c))) (i, x) = true).
  { clear - HI E1 E2. intros i x Hi Ai. rewrite <- (inv_list _ _ HI) in Hi. apply in_map_iff in Hi as (c & E & Hc). injection E as <- <-.
    apply orb_true_iff. destruct Ai as [H|[H1 H2]].
    - left. rewrite E1 in H. apply mem_spec in H. rewrite (mem_named s tr HI a c Hc) in H. exact H.
    - right. apply andb_true_iff. split; [apply runsb_spec; exact H1|]. apply negb_true_iff.
      rewrite E2 in H2. apply mem_false in H2. rewrite (mem_named s tr HI b c Hc) in H2. exact H2. }
  apply Hs in Hc. unfold would_run in Hc.
  destruct (Nat.eq_dec i j) as [|Hne]; [assumption|exfalso].
  eapply (ord_pairs_map_filter _ _ Hc (i, x) (j, y)); eauto; congruence.
Qed.

Lemma compat_runs_A s tr : compat tr (runs tr) -> cm_start s = [] -> compat tr (Aset s tr).
Proof.
  intros C E. eapply compat_weaken; [reflexivity| |exact C]. intros i a _ [H|[H _]]; [rewrite E in H; contradiction|exact H].
Qed.

Lemma switch_begin_ex a b st asap tmo now ck pr k s tr :
  Inv s tr -> Ex s tr -> sound_check ck -> cm_start s = [] -> cm_stop s = [] ->
  let r := switch_begin a b st asap tmo now ck pr k s in
  Ex (fst (fst r)) (tr ++ snd (fst r)).
Proof.
  intros HI [EA ER EC] Hs E1 E2. cbv zeta.
  destruct (switch_begin_spec s tr HI a b st asap tmo now ck pr k E1 E2) as (s' & E & H).
  pose proof (switch_begin_prepare a b st asap tmo now ck pr k s) as Hp.
  rewrite E. set (e := snd (fst (switch_begin a b st asap tmo now ck pr k s))) in *.
  assert (Hn : Forall neutral e) by (eapply Forall_impl; [|exact Hp]; intros []; simpl; tauto).
  assert (Hnc : Forall no_cb e) by (apply switch_begin_no_cb).
  destruct (ex_nocb tr e Hnc ER EA) as [A C]. split; [exact A|exact C|].
  destruct (valid s a b (is_strict st) && negb (ck (would_run tr a b))) eqn:Ev.
  - apply andb_true_iff in Ev as [_ Ev]. apply negb_true_iff in Ev.
    destruct H as (_ & _ & _ & _ & H). destruct (pr _ _).
    + destruct H as (H1 & H2 & _).
      eapply compat_weaken; [apply loaded_neutral; exact Hn| |eapply (would_run_compat s tr a b ck HI Hs Ev s' H1 H2)].
      intros i x _ [Hi|[Hi Hj]]; [left; exact Hi|right]. split; [|exact Hj]. unfold runs in *. rewrite phase_neutral in Hi by exact Hn. exact Hi.
    + destruct H as (H1 & H2 & _). apply compat_runs_A; assumption.
  - destruct H as (_ & _ & H1 & _). apply compat_runs_A; assumption.
Qed.

Lemma switch_return_start b k s : cm_start (fst (fst (switch_return b true k s))) = [].
Proof.
  unfold switch_return. destruct k as [|names]; [reflexivity|]. destruct b; [|reflexivity].
  unfold reload_tail. set (s1 := set_switch _ _ _ _ _ _ _).
  assert (X : forall s1, cm_start s1 = [] -> cm_start (fst (fst (unload_all names s1))) = []).
  { induction names as [|n names IH]; intros s2 H; simpl; [exact H|].
    assert (Y : cm_start (fst (fst (unload_controller n s2))) = []).
    { unfold unload_controller. destruct (unload_scan _ _ _) as [[? [|]]|]; exact H. }
    destruct (unload_controller n s2) as [[s3 e3] ok]; cbn [fst] in *. destruct ok; [|exact Y].
    specialize (IH s3 Y). destruct (unload_all names s3) as [[? ?] ?]; exact IH. }
  specialize (X s1 eq_refl). destruct (unload_all names s1) as [[s2 e2] ok]; cbn [fst] in *.
  destruct ok; [|exact X]. destruct (cm_list s2); exact X.
Qed.

Lemma reload_tail_start s : cm_start s = [] -> cm_start (fst (fst (reload_tail [] s))) = [].
Proof. unfold reload_tail; cbn. destruct (cm_list s); auto. Qed.

Lemma ex_step s o tr : not_abandon o -> Inv s tr -> Inv2 s tr -> Ex s tr ->
  (forall a b st asap tmo now ck pr, o = Switch a b st asap tmo now ck pr -> sound_check ck) ->
  (forall f now ck pr, o = Reload f now ck pr -> sound_check ck) ->
  Ex (fst (fst (step s o))) (tr ++ snd (fst (step s o))).
Proof.
  intros Hna HI HI2 HE Hs1 Hs2.
  assert (Hsame : Ex s (tr ++ [])) by (rewrite app_nil_r; exact HE).
  assert (Hempty : (forall t p r hw, o <> Cycle t p r hw) -> cm_start (fst (fst (step s o))) = [] ->
             Ex (fst (fst (step s o))) (tr ++ snd (fst (step s o)))).
  { intros Ho E. destruct (ex_nocb tr _ (step_no_cb s o Ho) (ex_runs _ _ HE) (ex_along _ _ HE)) as [A C].
    split; [exact A|exact C|]. apply compat_runs_A; assumption. }
  destruct (cm_call s) as [|tmo' k] eqn:Hc.
  - destruct (inv_idle _ _ HI2 Hc) as [E1 E2].
    destruct o as [n env|n|a b st asap tmo now ck pr|w o1 o2|t p r hw| | |force now ck pr|l].
    + apply Hempty; [discriminate|]. unfold step. rewrite Hc. unfold load_controller.
      destruct (existsb _ _); [exact E1|]. destruct (negb _); [exact E1|]. destruct (le_type env); [|exact E1].
      destruct (construct _ _ _) as [c ec]; destruct c; [|exact E1]. destruct (le_init env); exact E1.
    + apply Hempty; [discriminate|]. unfold step. rewrite Hc. unfold unload_controller.
      destruct (unload_scan _ _ _) as [[? [|]]|]; exact E1.
    + unfold step. rewrite Hc.
      pose proof (switch_begin_ex a b st asap tmo now ck pr KReturn s tr HI HE (Hs1 _ _ _ _ _ _ _ _ eq_refl) E1 E2).
      cbv zeta in H. destruct (switch_begin _ _ _ _ _ _ _ _ _ _) as [[? ?] ?]; exact H.
    + unfold step. rewrite Hc. exact Hsame.
    + unfold step. pose proof (ex_update t p r hw s tr HI HE). destruct (update t p r hw s); exact H.
    + unfold step. rewrite Hc. exact Hsame.
    + unfold step. rewrite Hc. exact Hsame.
    + unfold step. rewrite Hc. destruct (controller_names s) eqn:En.
      * assert (X := Hempty ltac:(discriminate)). unfold step in X. rewrite Hc, En in X. apply X. apply reload_tail_start; exact E1.
      * destruct (negb force); [exact Hsame|].
        pose proof (switch_begin_ex [] (s0 :: l) BEST_EFFORT false 0 now ck pr (KReload (s0 :: l)) s tr HI HE (Hs2 _ _ _ _ eq_refl) E1 E2).
        cbv zeta in H. destruct (switch_begin _ _ _ _ _ _ _ _ _ _) as [[? ?] ?]; exact H.
    + apply Hempty; [discriminate|]. exact E1.
  - destruct o as [n env|n|a b st asap tmo now ck pr|w o1 o2|t p r hw| | |force now ck pr|l];
    try (unfold step; rewrite Hc; exact Hsame).
    + assert (X : forall b, fst (fst (step s (Poll w o1 o2))) = fst (fst (switch_return b true k s)) ->
                   Ex (fst (fst (step s (Poll w o1 o2)))) (tr ++ snd (fst (step s (Poll w o1 o2))))).
      { intros b E. apply Hempty; [discriminate|]. rewrite E. apply switch_return_start. }
      unfold step in *. rewrite Hc in *. unfold poll in *.
      destruct (o1 && _) eqn:Eo; [destruct o2; cbn [negb] in *; [destruct (_ || _)|]|].
      * exact Hsame.
      * apply (X false); reflexivity.
      * apply andb_true_iff in Eo as [-> _]. destruct Hna.
      * apply (X true); reflexivity.
    + unfold step. pose proof (ex_update t p r hw s tr HI HE). destruct (update t p r hw s); exact H.
    + unfold step. cbn [fst snd]. rewrite app_nil_r. destruct HE as [A B C]. split; [exact A|exact B|exact C].
Qed.

Lemma ex_reach ls ops : no_abandoned ops -> sound_checks ops -> Ex (reach ls ops) (trace ls ops).
Proof.
  induction ops as [|o ops IH] using rev_ind; intros H1 H2.
  - split; cbn; auto; intros i a j b r [].
  - apply no_abandoned_app in H1 as [H1 H1']. apply Forall_app in H2 as [H2 H2']. inversion H2' as [|? ? Ho _]; subst.
    destruct (reach_snoc ls ops o) as [-> ->].
    apply ex_step; auto using inv_reach, inv2_reach.
    + intros; subst; exact Ho.
    + intros; subst; exact Ho.
Qed.

Lemma checks_sound ck ops : sound_check ck -> checks_with ck ops -> sound_checks ops.
Proof.
  intros Hs. apply Forall_impl. intros o. destruct o; auto; intros H l Hl; apply Hs; rewrite <- H; exact Hl.
Qed.

Lemma exclusive_always ls ops pre post : no_abandoned ops -> sound_checks ops ->
  trace ls ops = pre ++ post -> exclusive pre.
Proof.
  intros H1 H2 E. pose proof (ex_along _ _ (ex_reach ls ops H1 H2)) as A.
  destruct pre as [|x0 pre0] using rev_ind.
  - intros i a j b r [].
  - rewrite E, <- app_assoc in A. apply along_app in A as [_ A]. simpl in A. apply A.
Qed.
