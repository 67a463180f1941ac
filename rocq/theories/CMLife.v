(** The shape of a control cycle. *)
From Verif Require Import HwTypes Lifecycle CMModel CMSpec CMInv CMTrace CMCycle CMSwitch.

Lemma cycle_emits ls ops t p r hw : emits ls ops (Cycle t p r hw) = snd (update t p r hw (reach ls ops)).
Proof. unfold emits, step. destruct (update t p r hw (reach ls ops)), (cm_call (reach ls ops)); reflexivity. Qed.
Lemma cycle_state ls ops t p r hw : fst (fst (step (reach ls ops) (Cycle t p r hw))) = fst (update t p r hw (reach ls ops)).
Proof. unfold step. destruct (update t p r hw (reach ls ops)), (cm_call (reach ls ops)); reflexivity. Qed.

Lemma filter_map_pair {A B C} (g : A -> B) (f : B -> bool) (u : B -> C) (v : A -> C) (q : A -> bool) l :
  (forall a, In a l -> f (g a) = q a) -> (forall a, u (g a) = v a) ->
  map u (filter f (map g l)) = map v (filter q l).
Proof.
  intros H1 H2. induction l as [|a l IH]; simpl; [reflexivity|]. rewrite H1 by (left; reflexivity).
  destruct (q a); simpl; rewrite IH, ?H2 by (intros; apply H1; right; assumption); reflexivity.
Qed.

Lemma upd_events_trace s tr t p : Inv s tr ->
  upd_events t p (cm_heap s) (cm_list s) =
  map (fun c => EvCb (fst c) (CbUpdate p) t) (filter (fun c => runsb tr (fst c)) (loaded tr)).
Proof.
  intros HI. rewrite <- (inv_list _ _ HI). unfold upd_events. symmetry. apply filter_map_pair; [|reflexivity].
  intros c Hc. symmetry. apply (inv_running _ _ _ HI Hc).
Qed.

Lemma flat_map_concat {A B} (f : A -> list B) l : flat_map f l = concat (map f l).
Proof. induction l; simpl; congruence. Qed.

Lemma reset_events_trace s tr t : Inv s tr ->
  reset_events t (cm_heap s) (cm_list s) =
  flat_map (fun c => [EvCb (fst c) CbStopping t; EvCb (fst c) CbStarting t]) (filter (fun c => runsb tr (fst c)) (loaded tr)).
Proof.
  intros HI. rewrite <- (inv_list _ _ HI). unfold reset_events. rewrite !flat_map_concat. f_equal. symmetry.
  apply filter_map_pair; [|reflexivity].
  intros c Hc. symmetry. apply (inv_running _ _ _ HI Hc).
Qed.

(** The events of a switch stage, by kind. *)
Lemma manage_shape t hw s :
  exists st sa, snd (manage_switch t hw s) = hwdo s ++ st ++ sa /\
    Forall (fun e => is_stopping e = true) st /\ Forall (fun e => start_like e = true) sa.
Proof.
  destruct (manage_decomp t hw s) as (_ & _ & ->).
  eexists; eexists; split; [reflexivity|]. split.
  - destruct (stop_stage t (cm_heap s) (cm_stop s)) as (_ & _ & H).
    eapply Forall_impl; [|exact H]. intros e (i & -> & _). reflexivity.
  - set (h := fst (stop_controllers t (cm_heap s) (cm_stop s))). unfold start_stage.
    assert (X : forall f g, (forall h i, snd (f h i) = [] \/ exists c, snd (f h i) = [EvCb i c t] /\ start_like (EvCb i c t) = true) ->
                Forall (fun e => start_like e = true) (snd (for_each f h g))).
    { intros f g Hf. apply (for_each_ind f (fun _ e => Forall (fun e => start_like e = true) e)) with (e := []); [|constructor].
      intros i h0 e0 _ H0. apply Forall_app; split; [exact H0|].
      destruct (Hf h0 i) as [->|(c & -> & Hc)]; repeat constructor; exact Hc. }
    destruct (sw_asap _).
    + unfold start_controllers_asap.
      destruct (asap_touch t hw (cm_sw s) (cm_list s) 0 h (cm_start s)) as [_ H].
      destruct (asap_loop _ _ _ _ _ _ _) as [h1 e1]; cbn [fst snd] in *.
      eapply Forall_impl; [|exact H]. intros e (i & cb & -> & _ & [->|[->| ->]]); reflexivity.
    + unfold start_controllers. destruct (swstate_eqb _ _); [|destruct (_ || _)]; cbn [fst snd]; apply X; intros h0 i.
      * unfold start_request. destruct (h0 i); cbn; eauto.
      * unfold abort_request. destruct (h0 i); cbn; eauto.
      * unfold wait_request. destruct (h0 i); cbn; eauto.
Qed.

(** C02, C11, C23 at once. *)
Lemma cycle_shape ls ops t p r hw :
  let tr := trace ls ops in
  exists d st sa,
    emits ls ops (Cycle t p r hw) =
      (if r then flat_map (fun c => [EvCb (fst c) CbStopping t; EvCb (fst c) CbStarting t]) (running_list tr) else []) ++
      map (fun c => EvCb (fst c) (CbUpdate p) t) (running_list tr) ++ d ++ st ++ sa /\
    (d = [] \/ exists a b, d = [EvDo a b]) /\
    Forall (fun e => is_stopping e = true) st /\ Forall (fun e => start_like e = true) sa.
Proof.
  cbv zeta. rewrite cycle_emits. pose proof (inv_reach ls ops) as HI.
  destruct (update_decomp t p r hw (reach ls ops)) as (h & Hh & ->).
  rewrite (upd_events_trace _ _ _ _ HI), (reset_events_trace _ _ _ HI). fold (running_list (trace ls ops)).
  destruct (sw_do _); cbn [fst snd].
  - destruct (manage_shape t hw (set_heap (reach ls ops) h)) as (st & sa & -> & H1 & H2).
    exists (hwdo (set_heap (reach ls ops) h)), st, sa. split; [destruct r; rewrite ?app_assoc; reflexivity|].
    split; [|auto]. unfold hwdo. destruct (sw_started _); eauto.
  - exists [], [], []. rewrite !app_nil_r. split; [destruct r; reflexivity|]. auto.
Qed.

(** ** the reset flag *)
Definition respects {A} (f : heap -> A -> heap * list event) : Prop :=
  forall h h' a, heq h h' -> heq (fst (f h a)) (fst (f h' a)) /\ snd (f h a) = snd (f h' a).

Lemma for_each_respects {A} (f : heap -> A -> heap * list event) l h h' :
  respects f -> heq h h' -> heq (fst (for_each f h l)) (fst (for_each f h' l)) /\ snd (for_each f h l) = snd (for_each f h' l).
Proof.
  intros Hf. revert h h'; induction l as [|a l IH]; intros h h' E; simpl; [auto|].
  destruct (Hf h h' a E) as [E1 E2]. destruct (f h a) as [h1 e1], (f h' a) as [h1' e1']; cbn [fst snd] in *.
  destruct (IH _ _ E1) as [E3 E4]. destruct (for_each f h1 l), (for_each f h1' l); cbn [fst snd] in *.
  split; [exact E3|congruence].
Qed.

Lemma heq_upd h h' i s : heq h h' -> heq (upd h i s) (upd h' i s).
Proof. intros E j. unfold upd. destruct (Nat.eqb j i); auto. Qed.
Lemma respects_start t : respects (start_request t).
Proof. intros h h' i E. unfold start_request. rewrite (E i). destruct (h' i); cbn; auto using heq_upd. Qed.
Lemma respects_stop t : respects (stop_request t).
Proof. intros h h' i E. unfold stop_request. rewrite (E i). destruct (h' i); cbn; auto using heq_upd. Qed.
Lemma respects_wait t : respects (wait_request t).
Proof. intros h h' i E. unfold wait_request. rewrite (E i). destruct (h' i); cbn; auto using heq_upd. Qed.
Lemma respects_abort t : respects (abort_request t).
Proof. intros h h' i E. unfold abort_request. rewrite (E i). destruct (h' i); cbn; auto using heq_upd. Qed.
Lemma respects_stop_body t : respects (stop_body t).
Proof.
  intros h h' i E. unfold stop_body, is_running. rewrite (E i). destruct (h' i); cbn; auto. apply respects_stop; exact E.
Qed.
Lemma respects_asap_inner t hw sw k i : respects (asap_inner t hw sw k i).
Proof.
  intros h h' c E. unfold asap_inner. destruct (Nat.eqb _ _); [|cbn; auto].
  destruct (swstate_eqb _ _); [apply respects_start; exact E|]. destruct (_ || _); [apply respects_abort|apply respects_wait]; exact E.
Qed.
Lemma respects_asap_outer t hw sw l : respects (asap_outer t hw sw l).
Proof.
  intros h h' ki E. unfold asap_outer, is_running. rewrite (E (snd ki)).
  destruct (h' (snd ki)); cbn [fst snd]; auto; apply for_each_respects; auto using respects_asap_inner.
Qed.

Lemma manage_respects t hw s h h' : heq h h' ->
  heq (cm_heap (fst (manage_switch t hw (set_heap s h)))) (cm_heap (fst (manage_switch t hw (set_heap s h')))) /\
  cm_sw (fst (manage_switch t hw (set_heap s h))) = cm_sw (fst (manage_switch t hw (set_heap s h'))) /\
  snd (manage_switch t hw (set_heap s h)) = snd (manage_switch t hw (set_heap s h')).
Proof.
  intros E. destruct (manage_decomp t hw (set_heap s h)) as (-> & -> & ->).
  destruct (manage_decomp t hw (set_heap s h')) as (-> & -> & ->).
  cbn [set_heap cm_heap cm_stop cm_sw]. unfold hwdo; cbn [set_heap cm_sw cm_hwstart cm_hwstop].
  destruct (for_each_respects (stop_body t) (cm_stop s) h h' (respects_stop_body t) E) as [E1 E2].
  unfold stop_controllers. rewrite E2. set (h1 := fst (for_each _ h _)) in *. set (h1' := fst (for_each _ h' _)) in *.
  assert (X : let a := start_stage t hw (set_heap s h) h1 in let b := start_stage t hw (set_heap s h') h1' in
              heq (fst (fst a)) (fst (fst b)) /\ snd (fst a) = snd (fst b) /\ snd a = snd b).
  { unfold start_stage; cbn [set_heap cm_sw cm_list cm_start]. destruct (sw_asap _).
    - unfold start_controllers_asap. rewrite !asap_loop_for_each.
      destruct (for_each_respects (asap_outer t hw (cm_sw s) (cm_list s)) (combine (seq 0 (length (cm_start s))) (cm_start s)) h1 h1'
                  (respects_asap_outer _ _ _ _) E1) as [E3 E4].
      destruct (for_each _ h1 _) as [h2 e2], (for_each _ h1' _) as [h2' e2']; cbn [fst snd] in *.
      split; [exact E3|]. split; [exact E4|].
      replace (forallb (fun i => is_running h2 i || is_aborted h2 i) (cm_start s))
         with (forallb (fun i => is_running h2' i || is_aborted h2' i) (cm_start s)); [reflexivity|].
      clear - E3. induction (cm_start s) as [|i l IH]; simpl; [reflexivity|].
      unfold is_running, is_aborted. rewrite (E3 i). f_equal. exact IH.
    - unfold start_controllers. destruct (swstate_eqb _ _); [|destruct (_ || _)]; cbn [fst snd].
      + destruct (for_each_respects (start_request t) (cm_start s) h1 h1' (respects_start t) E1); auto.
      + destruct (for_each_respects (abort_request t) (cm_start s) h1 h1' (respects_abort t) E1); auto.
      + destruct (for_each_respects (wait_request t) (cm_start s) h1 h1' (respects_wait t) E1); auto. }
  destruct X as (X1 & X2 & X3). rewrite X2, X3. auto.
Qed.

Lemma phase_pairs tr t (l : list (nat * cinfo)) i :
  (forall c, In c l -> runs tr (fst c)) ->
  phase_of (tr ++ flat_map (fun c => [EvCb (fst c) CbStopping t; EvCb (fst c) CbStarting t]) l) i = phase_of tr i.
Proof.
  intros H. rewrite phase_app.
  assert (X : forall p, (forall c, In c l -> i = fst c -> p = PStarted) ->
     fold_left (phase_step i) (flat_map (fun c => [EvCb (fst c) CbStopping t; EvCb (fst c) CbStarting t]) l) p = p).
  { clear H. induction l as [|c l IH]; intros p Hp; simpl; [reflexivity|].
    destruct (Nat.eqb_spec i (fst c)) as [E|E].
    - rewrite (Hp c) by (auto; left; reflexivity). apply IH. auto.
    - apply IH. intros d Hd; apply Hp; right; exact Hd. }
  apply X. intros c Hc ->. apply H; exact Hc.
Qed.

Lemma running_list_runs tr c : In c (running_list tr) -> runs tr (fst c).
Proof. intros H. apply filter_In in H as [_ H]. apply runsb_spec; exact H. Qed.

Lemma reset_cycle ls ops t p hw :
  let tr := trace ls ops in
  emits ls ops (Cycle t p true hw) =
    flat_map (fun c => [EvCb (fst c) CbStopping t; EvCb (fst c) CbStarting t]) (running_list tr) ++
    emits ls ops (Cycle t p false hw) /\
  (forall i, phase_of (trace ls (ops ++ [Cycle t p true hw])) i = phase_of (trace ls (ops ++ [Cycle t p false hw])) i).
Proof.
  cbv zeta.
  assert (A : emits ls ops (Cycle t p true hw) =
    flat_map (fun c => [EvCb (fst c) CbStopping t; EvCb (fst c) CbStarting t]) (running_list (trace ls ops)) ++
    emits ls ops (Cycle t p false hw)).
  { rewrite !cycle_emits. pose proof (inv_reach ls ops) as HI.
    destruct (update_decomp t p true hw (reach ls ops)) as (h & Hh & ->).
    destruct (update_decomp t p false hw (reach ls ops)) as (h' & Hh' & ->).
    rewrite (upd_events_trace _ _ _ _ HI), (reset_events_trace _ _ _ HI). fold (running_list (trace ls ops)).
    destruct (sw_do _); cbn [fst snd]; [|reflexivity].
    destruct (manage_respects t hw (reach ls ops) h h') as (_ & _ & ->).
    { intros i. rewrite Hh, Hh'. reflexivity. }
    rewrite <- !app_assoc. reflexivity. }
  split; [exact A|]. intros i.
  destruct (reach_snoc ls ops (Cycle t p true hw)) as [_ ->]. destruct (reach_snoc ls ops (Cycle t p false hw)) as [_ ->].
  fold (emits ls ops (Cycle t p true hw)) (emits ls ops (Cycle t p false hw)). rewrite A.
  rewrite app_assoc, !(phase_app (_ ++ _)). rewrite phase_pairs by (apply running_list_runs). rewrite phase_app. reflexivity.
Qed.
