(** One accepted switch request, from acceptance to reply. *)
From Verif Require Import HwTypes Lifecycle CMModel CMSpec CMInv CMTrace CMCycle CMSwitch CMLife.

Lemma lifecycle_app i a b : lifecycle_of i (a ++ b) = lifecycle_of i a ++ lifecycle_of i b.
Proof. unfold lifecycle_of. rewrite callbacks_app. apply filter_app. Qed.

(** ** one cycle of a pending switch *)
Lemma cycle_decomp t p r hw s : sw_do (cm_sw s) = true ->
  exists h1,
    (forall j, h1 j = if mem j (cm_stop s) && is_running (cm_heap s) j then STOPPED else cm_heap s j) /\
    let st := start_stage t hw s h1 in
    cm_heap (fst (update t p r hw s)) = fst (fst st) /\
    cm_sw (fst (update t p r hw s)) =
      mkSw (snd st) true (sw_init (cm_sw s)) (sw_strict (cm_sw s)) (sw_asap (cm_sw s)) (sw_timeout (cm_sw s)) /\
    exists e1,
      (forall j, callbacks_of j e1 = if mem j (cm_stop s) && is_running (cm_heap s) j then [CbStopping] else []) /\
      snd (update t p r hw s) =
        ((if r then reset_events t (cm_heap s) (cm_list s) else []) ++ upd_events t p (cm_heap s) (cm_list s)) ++
        hwdo s ++ e1 ++ snd (fst st).
Proof.
  intros Hd. destruct (update_decomp t p r hw s) as (h & Hh & ->). rewrite Hd. cbn [fst snd].
  destruct (manage_decomp t hw (set_heap s h)) as (-> & -> & ->).
  destruct (stop_stage t h (cm_stop s)) as (H1 & H2 & H3).
  change (cm_heap (set_heap s h)) with h. change (cm_stop (set_heap s h)) with (cm_stop s).
  change (cm_sw (set_heap s h)) with (cm_sw s). change (hwdo (set_heap s h)) with (hwdo s).
  change (start_stage t hw (set_heap s h)) with (start_stage t hw s).
  destruct (stop_controllers t h (cm_stop s)) as [h1 e1]; cbn [fst snd] in *.
  exists h1. split.
  - intros j. rewrite H1. unfold is_running. rewrite (Hh j). reflexivity.
  - cbv zeta. split; [reflexivity|]. split; [reflexivity|]. exists e1. split; [|reflexivity].
    intros j. rewrite H2. unfold is_running. rewrite (Hh j). reflexivity.
Qed.

Lemma asap_all (V : cstate -> Prop) t hw sw l : V RUNNING -> NoDup (map sp_inst l) ->
  (forall k c, In c l -> V (snd (asap_dec t hw sw k (sp_info c)))) ->
  forall start k h, (forall i, In i start -> In i (map sp_inst l) /\ h i <> CONSTRUCTED) ->
  forall j, In j start \/ V (h j) -> V (fst (asap_loop t hw sw l k h start) j).
Proof.
  intros HR Hn HV. induction start as [|i start IH]; intros k h Hs j Hj; simpl.
  - destruct Hj as [[]|Hj]; exact Hj.
  - destruct (Hs i (or_introl eq_refl)) as [Hi Hc]. apply in_map_iff in Hi as (c & Ei & Hc').
    set (r1 := if is_running h i then _ else _).
    assert (Hr1 : r1 = if is_running h i then (h, []) else
               (upd h i (snd (asap_dec t hw sw k (sp_info c))), [EvCb i (fst (asap_dec t hw sw k (sp_info c))) t])).
    { unfold r1. destruct (is_running h i); [reflexivity|]. apply asap_inner_stage; auto. }
    clearbody r1. destruct r1 as [h1 e1].
    assert (H1i : V (h1 i) /\ h1 i <> CONSTRUCTED).
    { destruct (is_running h i) eqn:Er; inversion Hr1; subst h1 e1.
      - apply is_running_spec in Er. rewrite Er. split; [exact HR|discriminate].
      - rewrite upd_same. split; [apply HV; exact Hc'|]. unfold asap_dec. destruct (swstate_eqb _ _); [discriminate|].
        destruct (_ || _); discriminate. }
    assert (Hoth : forall j, j <> i -> h1 j = h j).
    { intros j' Hj'. destruct (is_running h i); inversion Hr1; subst h1 e1; [reflexivity|apply upd_other; exact Hj']. }
    assert (X : V (fst (asap_loop t hw sw l (S k) h1 start) j)).
    { apply IH.
      - intros i' Hi'. destruct (Hs i' (or_intror Hi')) as [A B]. split; [exact A|].
        destruct (Nat.eq_dec i' i) as [->|Hne]; [tauto|]. rewrite Hoth by exact Hne. exact B.
      - destruct (Nat.eq_dec j i) as [->|Hne]; [tauto|]. rewrite Hoth by exact Hne. destruct Hj as [[|]|]; auto; congruence. }
    destruct (asap_loop t hw sw l (S k) h1 start) as [h2 e2]; exact X.
Qed.

Lemma swstate_eqb_spec a b : swstate_eqb a b = true <-> a = b.
Proof. destruct a, b; simpl; split; congruence. Qed.
Lemma swstate_eqb_false a b : swstate_eqb a b = false <-> a <> b.
Proof. rewrite <- swstate_eqb_spec. destruct (swstate_eqb a b); split; congruence. Qed.
Lemma timed_out_spec sw t : timed_out sw t = true <-> overdue (sw_init sw) (sw_timeout sw) t.
Proof. unfold timed_out, overdue. rewrite andb_true_iff, !Z.ltb_lt. tauto. Qed.

Section Stage.
  Variables (t : Z) (hw : hw_answers) (s : cm) (h1 : heap).
  Hypothesis Hnd : NoDup (map sp_inst (cm_list s)).
  Hypothesis Hin : forall i, In i (cm_start s) -> In i (map sp_inst (cm_list s)) /\ h1 i <> CONSTRUCTED.
  Let st := start_stage t hw s h1.

  Lemma stage_other j : ~ In j (cm_start s) -> fst (fst st) j = h1 j.
  Proof.
    intros Hj. unfold st, start_stage. destruct (sw_asap _).
    - unfold start_controllers_asap.
      destruct (asap_touch t hw (cm_sw s) (cm_list s) 0 h1 (cm_start s)) as [H _]. specialize (H j (or_introl Hj)).
      destruct (asap_loop _ _ _ _ _ _ _); cbn [fst snd] in *. apply H.
    - assert (X : forall cb v f, uniform cb v f t -> fst (for_each f h1 (cm_start s)) j = h1 j).
      { intros cb v f U. destruct (uniform_stage cb v f t h1 (cm_start s) U) as [A _]; [intros; apply Hin; assumption|].
        rewrite A. apply mem_false in Hj. rewrite Hj. reflexivity. }
      unfold start_controllers. destruct (swstate_eqb _ _); [|destruct (_ || _)]; cbn [fst snd]; eapply X.
      + apply uniform_start.
      + apply uniform_abort.
      + apply uniform_wait.
  Qed.

  Lemma stage_nonasap : sw_asap (cm_sw s) = false ->
    let d := if swstate_eqb (hw_all hw 0%nat) DONE then (CbStarting, RUNNING, false)
             else if swstate_eqb (hw_all hw 1%nat) ERROR || timed_out (cm_sw s) t then (CbAborting, ABORTED, false)
             else (CbWaiting, WAITING, true) in
    (forall j, In j (cm_start s) -> fst (fst st) j = snd (fst d)) /\ snd st = snd d /\
    snd (fst st) = map (fun i => EvCb i (fst (fst d)) t) (cm_start s).
  Proof.
    intros Ha. unfold st, start_stage. rewrite Ha. unfold start_controllers.
    assert (X : forall cb v f, uniform cb v f t ->
       (forall j, In j (cm_start s) -> fst (for_each f h1 (cm_start s)) j = v) /\
       snd (for_each f h1 (cm_start s)) = map (fun i => EvCb i cb t) (cm_start s)).
    { intros cb v f U. destruct (uniform_stage cb v f t h1 (cm_start s) U) as [A B]; [intros; apply Hin; assumption|].
      split; [|exact B]. intros j Hj. rewrite A. apply mem_spec in Hj. rewrite Hj. reflexivity. }
    destruct (swstate_eqb _ _); [|destruct (_ || _)]; cbn [fst snd].
    - destruct (X _ _ _ (uniform_start t)); auto.
    - destruct (X _ _ _ (uniform_abort t)); auto.
    - destruct (X _ _ _ (uniform_wait t)); auto.
  Qed.

  Lemma stage_asap (V : cstate -> Prop) : sw_asap (cm_sw s) = true -> V RUNNING ->
    (forall k c, In c (cm_list s) -> V (snd (asap_dec t hw (cm_sw s) k (sp_info c)))) ->
    forall j, In j (cm_start s) -> V (fst (fst st) j).
  Proof.
    intros Ha HR HV j Hj. unfold st, start_stage. rewrite Ha. unfold start_controllers_asap.
    pose proof (asap_all V t hw (cm_sw s) (cm_list s) HR Hnd HV (cm_start s) 0%nat h1 Hin j (or_introl Hj)).
    destruct (asap_loop _ _ _ _ _ _ _); cbn [fst snd] in *. assumption.
  Qed.

  Lemma stage_asap_do : sw_asap (cm_sw s) = true ->
    snd st = if forallb (fun i => is_running (fst (fst st)) i || is_aborted (fst (fst st)) i) (cm_start s) then false else sw_do (cm_sw s).
  Proof.
    intros Ha. unfold st, start_stage. rewrite Ha. unfold start_controllers_asap.
    destruct (asap_loop _ _ _ _ _ _ _); cbn [fst snd] in *. reflexivity.
  Qed.

  (** [F]: aborting is possible. *)
  Definition decided (F : Prop) (x : cstate) : Prop := x = RUNNING \/ x = WAITING \/ (F /\ x = ABORTED).

  Lemma stage_decided (F : Prop) : (may_fail hw \/ overdue (sw_init (cm_sw s)) (sw_timeout (cm_sw s)) t -> F) ->
    forall j, In j (cm_start s) -> decided F (fst (fst st) j).
  Proof.
    intros HF j Hj. destruct (sw_asap (cm_sw s)) eqn:Ha.
    - apply (stage_asap (decided F) Ha); [left; reflexivity| |exact Hj].
      intros k c Hc. unfold asap_dec, decided. destruct (swstate_eqb _ _); cbn; auto.
      destruct (swstate_eqb (hw_one hw k 1%nat (sp_info c)) ERROR) eqn:Ee; cbn.
      + apply swstate_eqb_spec in Ee. right; right; split; [|reflexivity]. apply HF. left; right; eauto.
      + destruct (timed_out _ _) eqn:Et; cbn; auto. apply timed_out_spec in Et. right; right; split; [apply HF; right; exact Et|reflexivity].
    - destruct (stage_nonasap Ha) as (H & _ & _). rewrite (H j Hj).
      unfold decided. destruct (swstate_eqb _ _); cbn; auto.
      destruct (swstate_eqb (hw_all hw 1%nat) ERROR) eqn:Ee; cbn.
      + apply swstate_eqb_spec in Ee. right; right; split; [|reflexivity]. apply HF. left; left; exact Ee.
      + destruct (timed_out _ _) eqn:Et; cbn; auto. apply timed_out_spec in Et. right; right; split; [apply HF; right; exact Et|reflexivity].
  Qed.

  Lemma stage_end : sw_do (cm_sw s) = true -> snd st = false ->
    forall j, In j (cm_start s) -> fst (fst st) j = RUNNING \/ fst (fst st) j = ABORTED.
  Proof.
    intros Hd He j Hj. destruct (sw_asap (cm_sw s)) eqn:Ha.
    - rewrite (stage_asap_do Ha) in He. destruct (forallb _ _) eqn:Ef; [|congruence].
      rewrite forallb_forall in Ef. specialize (Ef j Hj). apply orb_true_iff in Ef as [E|E].
      + left. apply is_running_spec; exact E.
      + right. unfold is_aborted in E. destruct (fst (fst st) j); congruence.
    - destruct (stage_nonasap Ha) as (H & He' & _). rewrite (H j Hj). rewrite He' in He.
      destruct (swstate_eqb _ _); cbn; auto. destruct (_ || _); cbn in *; auto. discriminate.
  Qed.

  Lemma stage_done : hw_done hw -> (forall j, In j (cm_start s) -> fst (fst st) j = RUNNING) /\ snd st = false.
  Proof.
    intros [H1 H2]. destruct (sw_asap (cm_sw s)) eqn:Ha.
    - assert (A : forall j, In j (cm_start s) -> fst (fst st) j = RUNNING).
      { apply (stage_asap (fun x => x = RUNNING) Ha eq_refl). intros k c Hc. unfold asap_dec. rewrite H2. reflexivity. }
      split; [exact A|]. rewrite (stage_asap_do Ha).
      assert (forallb (fun i => is_running (fst (fst st)) i || is_aborted (fst (fst st)) i) (cm_start s) = true) as ->; [|reflexivity].
      apply forallb_forall. intros j Hj. apply orb_true_iff. left. apply is_running_spec; auto.
    - destruct (stage_nonasap Ha) as (A & B & _). rewrite H1 in *. cbn in *. auto.
  Qed.

  Lemma stage_overdue : overdue (sw_init (cm_sw s)) (sw_timeout (cm_sw s)) t -> snd st = false.
  Proof.
    intros Ho. apply timed_out_spec in Ho. destruct (sw_asap (cm_sw s)) eqn:Ha.
    - rewrite (stage_asap_do Ha).
      assert (forallb (fun i => is_running (fst (fst st)) i || is_aborted (fst (fst st)) i) (cm_start s) = true) as ->; [|reflexivity].
      apply forallb_forall. intros j Hj.
      apply (stage_asap (fun x => (match x with RUNNING => true | _ => false end || match x with ABORTED => true | _ => false end) = true) Ha);
      [reflexivity| |exact Hj].
      intros k c Hc. unfold asap_dec. destruct (swstate_eqb _ _); [reflexivity|]. rewrite Ho, orb_true_r. reflexivity.
    - destruct (stage_nonasap Ha) as (_ & -> & _). rewrite Ho, orb_true_r. destruct (swstate_eqb _ _); reflexivity.
  Qed.
End Stage.

(** ** the session invariant *)
Record Sess (F : Prop) (h0 : heap) (s : cm) : Prop := {
  se_before : sw_started (cm_sw s) = false -> sw_do (cm_sw s) = true /\ heq (cm_heap s) h0;
  se_other : sw_started (cm_sw s) = true -> forall j, ~ In j (cm_start s) ->
    cm_heap s j = if mem j (cm_stop s) && is_running h0 j then STOPPED else h0 j;
  se_start : sw_started (cm_sw s) = true -> forall j, In j (cm_start s) -> decided F (cm_heap s j);
  se_end : sw_do (cm_sw s) = false -> forall j, In j (cm_start s) -> cm_heap s j = RUNNING \/ cm_heap s j = ABORTED }.

Lemma sess_ext F h0 s h : heq h (cm_heap s) -> Sess F h0 s -> Sess F h0 (set_heap s h).
Proof.
  intros E [A B C D]. split; cbn.
  - intros H; destruct (A H) as [A1 A2]; split; [exact A1|]. intros i; rewrite E; apply A2.
  - intros H j Hj; rewrite E. apply B; assumption.
  - intros H j Hj; rewrite E. apply C; assumption.
  - intros H j Hj; rewrite E. apply D; assumption.
Qed.

(** The part of the invariant about the list. *)
Definition wf_req (s : cm) : Prop :=
  NoDup (map sp_inst (cm_list s)) /\
  (forall i, In i (cm_start s) -> In i (map sp_inst (cm_list s))) /\
  (forall i, In i (map sp_inst (cm_list s)) -> cm_heap s i <> CONSTRUCTED).

Lemma wf_req_in s h1 : wf_req s ->
  (forall j, h1 j = if mem j (cm_stop s) && is_running (cm_heap s) j then STOPPED else cm_heap s j) ->
  forall i, In i (cm_start s) -> In i (map sp_inst (cm_list s)) /\ h1 i <> CONSTRUCTED.
Proof.
  intros (_ & W2 & W3) H i Hi. split; [auto|]. rewrite H. destruct (_ && _); [discriminate|]. auto.
Qed.

Lemma sess_cycle (F : Prop) h0 t p r hw s :
  wf_req s -> Sess F h0 s -> (may_fail hw \/ overdue (sw_init (cm_sw s)) (sw_timeout (cm_sw s)) t -> F) ->
  Sess F h0 (fst (update t p r hw s)).
Proof.
  intros W S HF. destruct (sw_do (cm_sw s)) eqn:Hd.
  - destruct (cycle_decomp t p r hw s Hd) as (h1 & H1 & Hh & Hsw & _). cbv zeta in *.
    destruct (update_frame t p r hw s) as (El & _ & Ea & Eb & _).
    pose proof (wf_req_in s h1 W H1) as Hin. destruct W as (W1 & W2 & W3).
    split; rewrite ?Ea, ?Eb, ?Hsw, ?Hh; cbn [sw_do sw_started].
    + discriminate.
    + intros _ j Hj. rewrite (stage_other t hw s h1 Hin) by exact Hj. rewrite H1.
      destruct (sw_started (cm_sw s)) eqn:Es.
      * rewrite (se_other _ _ _ S Es j Hj). unfold is_running. rewrite (se_other _ _ _ S Es j Hj). fold (is_running h0 j).
        destruct (mem j (cm_stop s)), (is_running h0 j) eqn:Er; cbn; try reflexivity.
        unfold is_running in Er. destruct (h0 j); congruence.
      * destruct (se_before _ _ _ S Es) as [_ E]. unfold is_running. rewrite !E. reflexivity.
    + intros _ j Hj. apply stage_decided; auto.
    + intros He j Hj. eapply stage_end; eauto.
  - destruct (update_decomp t p r hw s) as (h & Hh & ->). rewrite Hd. cbn [fst]. apply sess_ext; assumption.
Qed.

Lemma wf_req_cycle t p r hw s : wf_req s -> wf_req (fst (update t p r hw s)).
Proof.
  intros (W1 & W2 & W3). destruct (update_frame t p r hw s) as (El & _ & Ea & _).
  unfold wf_req. rewrite El, Ea. split; [exact W1|]. split; [exact W2|]. intros i Hi.
  refine (update_prim t p (fun h _ => h i <> CONSTRUCTED) (fun _ => True) (fun _ => True) _ _ _ _ _ _ hw r s [] _ _ _ _ _); auto;
  intros h e j _ H; unfold update_request, start_request, stop_request, wait_request, abort_request;
  destruct (h j); cbn; auto; unfold upd; destruct (Nat.eqb i j); congruence.
Qed.

(** While the caller waits, a step is a cycle or does nothing. *)
Lemma waiting_step s o tmo k :
  cm_call s = WaitSwitch tmo k -> (snd (step s o) = ANone \/ snd (step s o) = ABlocked) ->
  ((exists ls, fst (fst (step s o)) = set_loaders s ls) /\ snd (fst (step s o)) = [] /\ forall t p r hw, o <> Cycle t p r hw) \/
  exists t p r hw, o = Cycle t p r hw /\ fst (fst (step s o)) = fst (update t p r hw s) /\ snd (fst (step s o)) = snd (update t p r hw s).
Proof.
  intros Hc Ho.
  assert (Hself : exists ls, s = set_loaders s ls) by (exists (cm_loaders s); destruct s; reflexivity).
  unfold step in *. rewrite Hc in *.
  destruct o; cbn [fst snd] in *; try (left; split; [exact Hself|split; [reflexivity|discriminate]]).
  - unfold poll in *. destruct (_ && _); [destruct (negb _); [|destruct (_ || _)]|];
      try (left; split; [exact Hself|split; [reflexivity|discriminate]]).
    + exfalso. unfold switch_return in Ho. destruct k; cbn in Ho; destruct Ho; discriminate.
    + exfalso. unfold switch_return in Ho. destruct k; cbn in Ho; destruct Ho; discriminate.
    + exfalso. unfold switch_return in Ho. destruct k; cbn [fst snd] in Ho; [destruct Ho; discriminate|].
      unfold reload_tail in Ho. destruct (unload_all _ _) as [[? ?] [|]]; cbn in Ho; [|destruct Ho; discriminate].
      destruct (cm_list c); cbn in Ho; destruct Ho; discriminate.
  - right. exists time, period, reset, hw. destruct (update time period reset hw s); auto.
  - left. split; [eexists; reflexivity|split; [reflexivity|discriminate]].
Qed.

Lemma sess_loaders F h0 s ls : Sess F h0 s -> Sess F h0 (set_loaders s ls).
Proof. intros []; split; cbn; assumption. Qed.

Lemma sess_run (F : Prop) h0 now tmo k mid : forall s,
  cm_call s = WaitSwitch tmo k -> sw_init (cm_sw s) = now -> sw_timeout (cm_sw s) = tmo ->
  no_reply s mid -> wf_req s -> Sess F h0 s ->
  Forall (fun o => match o with Cycle t _ _ hw => may_fail hw \/ overdue now tmo t -> F | _ => True end) mid ->
  wf_req (fst (run s mid)) /\ Sess F h0 (fst (run s mid)).
Proof.
  induction mid as [|o mid IH]; intros s Hc Hi Ht Hn W S HF; simpl; [auto|].
  destruct Hn as [Ho Hn]. inversion HF as [|? ? Ho' HF']; subst.
  assert (Hno : no_reply s [o]) by (simpl; auto).
  destruct (no_reply_frame [o] s _ k Hc Hno) as (_ & _ & _ & _ & _ & _ & Hc1 & Hi1 & _ & Ht1 & _).
  simpl in Hc1, Hi1, Ht1.
  destruct (waiting_step s o _ k Hc Ho) as [((ls' & E1) & E2 & _)|(t & p & r & hw & -> & E1 & E2)];
  destruct (step s _) as [[s1 e1] a]; cbn [fst snd] in *; subst s1.
  - specialize (IH (set_loaders s ls') Hc eq_refl eq_refl Hn W (sess_loaders F h0 s ls' S) HF'). destruct (run (set_loaders s ls') mid); exact IH.
  - assert (W' := wf_req_cycle t p r hw s W).
    assert (S' := sess_cycle F h0 t p r hw s W S Ho').
    specialize (IH _ Hc1 Hi1 Ht1 Hn W' S' HF'). destruct (run _ mid); exact IH.
Qed.

(** ** histories *)
Lemma st_of_inj p q : p <> PGone -> p <> PAbsent -> q <> PGone -> q <> PAbsent -> st_of p = st_of q -> p = q.
Proof. destruct p, q; simpl; congruence. Qed.

Lemma reach_app ls ops ops2 :
  reach ls (ops ++ ops2) = fst (run (reach ls ops) ops2) /\
  trace ls (ops ++ ops2) = trace ls ops ++ snd (run (reach ls ops) ops2).
Proof.
  unfold reach, trace. rewrite run_app. destruct (run (cm_init ls) ops) as [s1 e1]; cbn [fst snd].
  destruct (run s1 ops2) as [s2 e2]; cbn; auto.
Qed.

Section Session.
  Variables (ls : list loader) (ops : list op).
  Variables (a b : list string) (z : Z) (asap : bool) (tmo now : Z).
  Variables (ck : list cinfo -> bool) (pr : list cinfo -> list cinfo -> bool).
  Let sw := Switch a b z asap tmo now ck pr.
  Variable mid : list op.
  Hypothesis Hclean : no_abandoned ops.
  Hypothesis Hidle : idle ls ops.
  Hypothesis Hacc : reply ls ops sw = ANone.
  Hypothesis Hwait : still_waiting ls (ops ++ [sw]) mid.

  Let s := reach ls ops.
  Let tr := trace ls ops.
  Let s2 := reach ls ((ops ++ [sw]) ++ mid).
  Let tr2 := trace ls ((ops ++ [sw]) ++ mid).

  Lemma session_frame :
    cm_list s2 = cm_list s /\ cm_start s2 = resolve (cm_list s) a /\ cm_stop s2 = resolve (cm_list s) b /\
    cm_hwstart s2 = to_start tr a /\ cm_hwstop s2 = to_stop tr b /\
    cm_call s2 = WaitSwitch tmo KReturn /\ sw_init (cm_sw s2) = now /\ sw_asap (cm_sw s2) = asap /\
    sw_timeout (cm_sw s2) = tmo /\ loaded tr2 = loaded tr.
  Proof.
    destruct (accepted_state ls ops Hclean Hidle a b z asap tmo now ck pr Hacc) as (_ & A1 & A2 & A3 & A4 & A5 & A6 & A7 & A8).
    fold sw in A1, A2, A3, A4, A5, A6, A7, A8.
    destruct (no_reply_frame mid _ tmo KReturn A7 Hwait) as (B1 & B2 & B3 & B4 & B5 & B6 & B7 & B8 & B9 & B10 & _).
    destruct (reach_app ls (ops ++ [sw]) mid) as [Er Et]. fold s2 in Er. fold tr2 in Et. rewrite <- Er in *.
    fold s tr in A1, A2, A3, A4, A5, A6.
    rewrite A8 in *. cbn in B8, B9, B10.
    assert (loaded tr2 = loaded tr).
    { unfold tr2, tr. rewrite <- (inv_list _ _ (inv_reach ls ((ops ++ [sw]) ++ mid))). rewrite <- (inv_list _ _ (inv_reach ls ops)).
      fold s2 s. rewrite B1, A1. reflexivity. }
    repeat split; congruence.
  Qed.

  Lemma session_inv (F : Prop) :
    Forall (fun o => match o with Cycle t _ _ hw => may_fail hw \/ overdue now tmo t -> F | _ => True end) mid ->
    wf_req s2 /\ Sess F (cm_heap s) s2.
  Proof.
    destruct (accepted_state ls ops Hclean Hidle a b z asap tmo now ck pr Hacc) as (_ & A1 & A2 & A3 & A4 & A5 & A6 & A7 & A8).
    fold sw in A1, A2, A3, A4, A5, A6, A7, A8. fold s in A1, A2, A3, A4.
    intros HF. unfold s2. destruct (reach_app ls (ops ++ [sw]) mid) as [-> _].
    apply (sess_run F (cm_heap s) now tmo KReturn); auto.
    - rewrite A8; reflexivity.
    - rewrite A8; reflexivity.
    - pose proof (inv_reach ls ops) as HI. fold s in HI. unfold wf_req. rewrite A1, A2, A3. split; [apply HI|]. split.
      + intros i Hi. apply (resolve_in _ _ _ Hi).
      + intros i Hi. apply in_map_iff in Hi as (c & <- & Hc). rewrite (inv_heap _ _ _ HI Hc).
        destruct (inv_live _ _ HI c Hc). destruct (phase_of _ _); simpl; congruence.
    - split; rewrite A8; cbn; try discriminate. intros _. rewrite A2. split; [reflexivity|intros i; reflexivity].
  Qed.

  (** Being pending is [do_switch]. *)
  Lemma pending_do : pending ls ((ops ++ [sw]) ++ mid) -> sw_do (cm_sw s2) = true.
  Proof.
    intros [w H]. destruct session_frame as (_ & _ & _ & _ & _ & Hc & _). unfold reply, step in H. fold s2 in H.
    rewrite Hc in H. unfold poll in H. cbn [andb] in H. destruct (sw_do (cm_sw s2)); [reflexivity|]. cbn in H. discriminate.
  Qed.
  Lemma finished_not_do : sw_do (cm_sw s2) = false -> finished ls ((ops ++ [sw]) ++ mid) true.
  Proof.
    intros H w o1 o2. destruct session_frame as (_ & _ & _ & _ & _ & Hc & _). unfold reply, step. fold s2.
    rewrite Hc. unfold poll. rewrite H, andb_false_r. reflexivity.
  Qed.
  Lemma do_pending : sw_do (cm_sw s2) = true -> pending ls ((ops ++ [sw]) ++ mid).
  Proof.
    intros H. exists tmo. destruct session_frame as (_ & _ & _ & _ & _ & Hc & _). unfold reply, step. fold s2.
    rewrite Hc. unfold poll. rewrite H. cbn [andb negb]. assert (tmo <? tmo + 1000000000 = true) as -> by (apply Z.ltb_lt; lia).
    reflexivity.
  Qed.
  Lemma not_finished_do : reply ls ((ops ++ [sw]) ++ mid) (Poll 0 true true) = ABool true -> sw_do (cm_sw s2) = false.
  Proof.
    intros H. destruct session_frame as (_ & _ & _ & _ & _ & Hc & _). unfold reply, step in H. fold s2 in H.
    rewrite Hc in H. unfold poll in H. destruct (sw_do (cm_sw s2)); [|reflexivity]. cbn [andb negb] in H.
    destruct (_ || _); cbn in H; discriminate.
  Qed.

  (** Names and instances. *)
  Lemma named_start c : In c (cm_list s) -> In (sp_inst c) (cm_start s2) <-> named a (sp_inst c, sp_info c) = true.
  Proof.
    intros Hc. destruct session_frame as (_ & -> & _). rewrite <- mem_spec.
    rewrite (mem_named s tr (inv_reach ls ops)) by exact Hc. tauto.
  Qed.
  Lemma named_stop c : In c (cm_list s) -> mem (sp_inst c) (cm_stop s2) = named b (sp_inst c, sp_info c).
  Proof.
    intros Hc. destruct session_frame as (_ & _ & -> & _).
    rewrite (mem_named s tr (inv_reach ls ops)) by exact Hc. reflexivity.
  Qed.

  (** From heaps to phases. *)
  Lemma phase_is (ops' : list op) c p : In c (cm_list s) ->
    cm_list (reach ls ops') = cm_list s -> p <> PGone -> p <> PAbsent ->
    cm_heap (reach ls ops') (sp_inst c) = st_of p -> phase_of (trace ls ops') (sp_inst c) = p.
  Proof.
    intros Hc El H1 H2 H. pose proof (inv_reach ls ops') as HI. rewrite <- El in Hc.
    rewrite (inv_heap _ _ _ HI Hc) in H. destruct (inv_live _ _ HI c Hc). apply st_of_inj; auto.
  Qed.
  Lemma phase_same (ops' : list op) c : In c (cm_list s) ->
    cm_list (reach ls ops') = cm_list s ->
    cm_heap (reach ls ops') (sp_inst c) = cm_heap s (sp_inst c) ->
    phase_of (trace ls ops') (sp_inst c) = phase_of tr (sp_inst c).
  Proof.
    intros Hc El H. pose proof (inv_reach ls ops) as HI. destruct (inv_live _ _ HI c Hc).
    apply phase_is; auto. rewrite H. apply (inv_heap _ _ _ HI Hc).
  Qed.

  Definition after_cycle t p r hw := ((ops ++ [sw]) ++ mid) ++ [Cycle t p r hw].

  (** One more cycle while pending. *)
  Lemma pending_cycle t p r hw : pending ls ((ops ++ [sw]) ++ mid) ->
    let s3 := reach ls (after_cycle t p r hw) in
    exists h1,
      (forall j, h1 j = if mem j (cm_stop s2) && is_running (cm_heap s2) j then STOPPED else cm_heap s2 j) /\
      (forall i, In i (cm_start s2) -> In i (map sp_inst (cm_list s2)) /\ h1 i <> CONSTRUCTED) /\
      cm_list s3 = cm_list s /\ cm_start s3 = cm_start s2 /\ cm_stop s3 = cm_stop s2 /\
      cm_call s3 = WaitSwitch tmo KReturn /\
      cm_heap s3 = fst (fst (start_stage t hw s2 h1)) /\ sw_do (cm_sw s3) = snd (start_stage t hw s2 h1) /\
      (forall j, ~ In j (cm_start s2) ->
         cm_heap s3 j = if mem j (cm_stop s2) && is_running (cm_heap s) j then STOPPED else cm_heap s j) /\
      exists e1,
      (forall j, callbacks_of j e1 = if mem j (cm_stop s2) && is_running (cm_heap s2) j then [CbStopping] else []) /\
      emits ls ((ops ++ [sw]) ++ mid) (Cycle t p r hw) =
        ((if r then reset_events t (cm_heap s2) (cm_list s2) else []) ++ upd_events t p (cm_heap s2) (cm_list s2)) ++
        hwdo s2 ++ e1 ++ snd (fst (start_stage t hw s2 h1)).
  Proof.
    intros Hp. cbv zeta. pose proof (pending_do Hp) as Hd.
    destruct (session_inv True) as [W S]. { apply Forall_forall. intros []; auto. }
    destruct session_frame as (B1 & B2 & B3 & B4 & B5 & B6 & B7 & B8 & B9 & B10).
    unfold after_cycle. destruct (reach_snoc ls ((ops ++ [sw]) ++ mid) (Cycle t p r hw)) as [-> _].
    rewrite cycle_state, cycle_emits. fold s2.
    destruct (cycle_decomp t p r hw s2 Hd) as (h1 & H1 & Hh & Hsw & e1 & He1 & He). cbv zeta in *.
    destruct (update_frame t p r hw s2) as (El & _ & Ea & Eb & _ & _ & _ & Ec).
    exists h1. split; [exact H1|]. split; [apply wf_req_in; assumption|].
    split; [congruence|]. split; [exact Ea|]. split; [exact Eb|]. split; [congruence|]. split; [exact Hh|].
    split; [rewrite Hsw; reflexivity|]. split; [|exists e1; auto].
    pose proof (sess_cycle True (cm_heap s) t p r hw s2 W S (fun _ => I)) as S3.
    intros j Hj. rewrite <- Eb. apply (se_other _ _ _ S3); [rewrite Hsw; reflexivity|rewrite Ea; exact Hj].
  Qed.

  Lemma final_poll t p r hw : pending ls ((ops ++ [sw]) ++ mid) ->
    sw_do (cm_sw (reach ls (after_cycle t p r hw))) = false -> finished ls (after_cycle t p r hw) true.
  Proof.
    intros Hp H w o1 o2. destruct (pending_cycle t p r hw Hp) as (h1 & _ & _ & _ & _ & _ & Hc & _).
    unfold reply, step. rewrite Hc. unfold poll. rewrite H, andb_false_r. reflexivity.
  Qed.

  Lemma loaded_list c : In c (loaded tr) -> exists d, In d (cm_list s) /\ c = (sp_inst d, sp_info d).
  Proof.
    intros Hc. unfold tr in Hc. rewrite <- (inv_list _ _ (inv_reach ls ops)) in Hc. apply in_map_iff in Hc as (d & <- & Hd). exists d; auto.
  Qed.

  Lemma start_dec c : In c (cm_list s) -> In (sp_inst c) (cm_start s2) \/ ~ In (sp_inst c) (cm_start s2).
  Proof. intros Hc. destruct (in_dec Nat.eq_dec (sp_inst c) (cm_start s2)); auto. Qed.

  (** Everything not named in the start list. *)
  Lemma cycle_others t p r hw : pending ls ((ops ++ [sw]) ++ mid) ->
    forall c, In c (loaded tr) -> named a c = false ->
      phase_of (trace ls (after_cycle t p r hw)) (fst c) =
      if named b c && runsb tr (fst c) then PStopped else phase_of tr (fst c).
  Proof.
    intros Hp c Hc Hn. destruct (loaded_list c Hc) as (d & Hd & ->). cbn [fst].
    destruct (pending_cycle t p r hw Hp) as (h1 & _ & _ & El & _ & _ & _ & _ & _ & Ho & _).
    specialize (Ho (sp_inst d)). rewrite (named_start d Hd), Hn in Ho. specialize (Ho ltac:(discriminate)).
    rewrite (named_stop d Hd), (inv_running s tr d (inv_reach ls ops) Hd) in Ho. fold tr in Ho.
    destruct (_ && _).
    - apply phase_is; auto; discriminate.
    - apply phase_same; auto.
  Qed.

  (** C03 *)
  Lemma one_step t p r hw : pending ls ((ops ++ [sw]) ++ mid) -> hw_done hw ->
    (forall c, In c (loaded tr) ->
      phase_of (trace ls (after_cycle t p r hw)) (fst c) =
      if named a c then PStarted else if named b c && runsb tr (fst c) then PStopped else phase_of tr (fst c)) /\
    finished ls (after_cycle t p r hw) true.
  Proof.
    intros Hp Hw. destruct (pending_cycle t p r hw Hp) as (h1 & _ & Hin & El & _ & _ & _ & Hh & Hdo & _).
    pose proof (proj1 (session_inv True ltac:(apply Forall_forall; intros []; auto))) as (W1 & _).
    destruct (stage_done t hw s2 h1 W1 Hin Hw) as [A B].
    split; [|apply final_poll; [exact Hp|congruence]].
    intros c Hc. destruct (named a c) eqn:Ea; [|apply cycle_others; assumption].
    destruct (loaded_list c Hc) as (d & Hd & ->). cbn [fst].
    apply phase_is; auto; try discriminate. rewrite Hh. apply A. apply (named_start d Hd). exact Ea.
  Qed.

  (** C12 *)
  Lemma failed_cycle t p r hw : pending ls ((ops ++ [sw]) ++ mid) -> asap = false ->
    hw_all hw 0%nat <> DONE -> (hw_all hw 1%nat = ERROR \/ overdue now tmo t) ->
    (forall c, In c (loaded tr) ->
      phase_of (trace ls (after_cycle t p r hw)) (fst c) =
      if named a c then PAborted else if named b c && runsb tr (fst c) then PStopped else phase_of tr (fst c)) /\
    finished ls (after_cycle t p r hw) true.
  Proof.
    intros Hp Hna Hw Hf. destruct (pending_cycle t p r hw Hp) as (h1 & _ & Hin & El & _ & _ & _ & Hh & Hdo & _).
    destruct session_frame as (B1 & B2 & B3 & B4 & B5 & B6 & B7 & B8 & B9 & B10).
    destruct (stage_nonasap t hw s2 h1 Hin) as (A & B & _); [congruence|].
    apply swstate_eqb_false in Hw. rewrite Hw in A, B.
    assert (Hx : swstate_eqb (hw_all hw 1) ERROR || timed_out (cm_sw s2) t = true).
    { apply orb_true_iff. destruct Hf as [Hf|Hf]; [left; apply swstate_eqb_spec; exact Hf|right; apply timed_out_spec; congruence]. }
    rewrite Hx in A, B. cbn in A, B.
    split; [|apply final_poll; [exact Hp|congruence]].
    intros c Hc. destruct (named a c) eqn:Ea; [|apply cycle_others; assumption].
    destruct (loaded_list c Hc) as (d & Hd & ->). cbn [fst].
    apply phase_is; auto; try discriminate. rewrite Hh. apply A. apply (named_start d Hd). exact Ea.
  Qed.

  (** C14 *)
  Lemma undecided_cycle t p r hw : pending ls ((ops ++ [sw]) ++ mid) -> asap = false ->
    hw_all hw 0%nat <> DONE -> hw_all hw 1%nat <> ERROR -> ~ overdue now tmo t ->
    (forall c, In c (loaded tr) ->
      phase_of (trace ls (after_cycle t p r hw)) (fst c) =
      if named a c then PWaiting else if named b c && runsb tr (fst c) then PStopped else phase_of tr (fst c)) /\
    (forall c, In c (loaded tr) -> named a c = true ->
      In (EvCb (fst c) CbWaiting t) (emits ls ((ops ++ [sw]) ++ mid) (Cycle t p r hw))) /\
    pending ls (after_cycle t p r hw).
  Proof.
    intros Hp Hna Hw Hf Hov. destruct (pending_cycle t p r hw Hp) as (h1 & _ & Hin & El & _ & _ & Hc & Hh & Hdo & _ & e1 & _ & He).
    destruct session_frame as (B1 & B2 & B3 & B4 & B5 & B6 & B7 & B8 & B9 & B10).
    destruct (stage_nonasap t hw s2 h1 Hin) as (A & B & C); [congruence|].
    apply swstate_eqb_false in Hw, Hf. rewrite Hw, Hf in A, B, C.
    assert (Hx : timed_out (cm_sw s2) t = false).
    { destruct (timed_out (cm_sw s2) t) eqn:E; [|reflexivity]. apply timed_out_spec in E. rewrite B7, B9 in E. contradiction. }
    rewrite Hx in A, B, C. cbn in A, B, C.
    split; [|split].
    - intros c Hc'. destruct (named a c) eqn:Ea; [|apply cycle_others; assumption].
      destruct (loaded_list c Hc') as (d & Hd & ->). cbn [fst].
      apply phase_is; auto; try discriminate. rewrite Hh. apply A. apply (named_start d Hd). exact Ea.
    - intros c Hc' Ea. destruct (loaded_list c Hc') as (d & Hd & ->). cbn [fst].
      rewrite He, C. apply in_app_iff; right. apply in_app_iff; right. apply in_app_iff; right.
      apply in_map_iff. exists (sp_inst d). split; [reflexivity|]. apply (named_start d Hd). exact Ea.
    - exists tmo. unfold reply, step. rewrite Hc. unfold poll. rewrite Hdo, B. cbn [andb negb].
      assert (tmo <? tmo + 1000000000 = true) as -> by (apply Z.ltb_lt; lia). reflexivity.
  Qed.

  Lemma waits_app i x y : waits_of i (x ++ y) = waits_of i x ++ waits_of i y.
  Proof. unfold waits_of. rewrite callbacks_app, filter_app. reflexivity. Qed.
  Lemma waits_map l i : NoDup l -> In i l -> forall t, waits_of i (map (fun j => EvCb j CbWaiting t) l) = [CbWaiting].
  Proof.
    intros Hn Hi t. induction l as [|j l IH]; [contradiction|]. inversion Hn as [|? ? Hx Hy]; subst. unfold waits_of in *. simpl.
    destruct (Nat.eqb_spec i j) as [->|Hne].
    - simpl. f_equal. clear - Hx. induction l as [|k l IH]; simpl in *; [reflexivity|].
      destruct (Nat.eqb_spec j k) as [->|]; [exfalso; auto|]. apply IH. tauto.
    - destruct Hi as [->|Hi]; [congruence|]. auto.
  Qed.
  Lemma waits_none i e : Forall (fun x => match x with EvCb _ CbWaiting _ => False | _ => True end) e -> waits_of i e = [].
  Proof.
    unfold waits_of. induction 1 as [|x e Hx He IH]; [reflexivity|]. destruct x as [j c t| | | | | |]; simpl; auto.
    destruct (Nat.eqb i j); auto. destruct c; simpl; auto; contradiction.
  Qed.
  Lemma undecided_once t p r hw : pending ls ((ops ++ [sw]) ++ mid) -> asap = false ->
    hw_all hw 0%nat <> DONE -> hw_all hw 1%nat <> ERROR -> ~ overdue now tmo t -> NoDup a ->
    forall c, In c (loaded tr) -> named a c = true ->
      waits_of (fst c) (emits ls ((ops ++ [sw]) ++ mid) (Cycle t p r hw)) = [CbWaiting].
  Proof.
    intros Hp Hna Hw Hf Hov Hnd c Hc' Ea. destruct (pending_cycle t p r hw Hp) as (h1 & _ & Hin & El & _ & _ & Hc & Hh & Hdo & _ & e1 & He1 & He).
    destruct session_frame as (B1 & B2 & B3 & B4 & B5 & B6 & B7 & B8 & B9 & B10).
    destruct (stage_nonasap t hw s2 h1 Hin) as (A & B & C); [congruence|].
    apply swstate_eqb_false in Hw, Hf. rewrite Hw, Hf in A, B, C.
    assert (Hx : timed_out (cm_sw s2) t = false).
    { destruct (timed_out (cm_sw s2) t) eqn:E; [|reflexivity]. apply timed_out_spec in E. rewrite B7, B9 in E. contradiction. }
    rewrite Hx in A, B, C. cbn in A, B, C.
    destruct (loaded_list c Hc') as (d & Hd & ->). cbn [fst].
    rewrite He, C, !waits_app.
    rewrite (waits_none _ (if r then _ else _)) by
      (destruct r; [|constructor]; unfold reset_events; apply Forall_forall; intros e Hin'; apply in_flat_map in Hin' as (x & _ & [<-|[<-|[]]]); exact I).
    rewrite (waits_none _ (upd_events _ _ _ _)) by
      (unfold upd_events; apply Forall_forall; intros e Hin'; apply in_map_iff in Hin' as (x & <- & _); exact I).
    rewrite (waits_none _ (hwdo _)) by (unfold hwdo; destruct (sw_started _); repeat constructor).
    assert (waits_of (sp_inst d) e1 = []) as -> by (unfold waits_of; rewrite He1; destruct (_ && _); reflexivity).
    cbn [app]. apply waits_map; [|apply (named_start d Hd); exact Ea].
    fold s2. pose proof (inv_nodup _ _ (inv_reach ls ops)) as Hnl.
    rewrite B2. apply resolve_nodup; assumption.
  Qed.

  (** C77 *)
  Lemma overdue_cycle t p r hw : pending ls ((ops ++ [sw]) ++ mid) -> overdue now tmo t ->
    finished ls (after_cycle t p r hw) true.
  Proof.
    intros Hp Ho. destruct (pending_cycle t p r hw Hp) as (h1 & _ & Hin & El & _ & _ & _ & Hh & Hdo & _).
    destruct session_frame as (B1 & B2 & B3 & B4 & B5 & B6 & B7 & B8 & B9 & B10).
    pose proof (proj1 (session_inv True ltac:(apply Forall_forall; intros []; auto))) as (W1 & _).
    apply final_poll; [exact Hp|]. rewrite Hdo. apply stage_overdue; auto. congruence.
  Qed.

  (** C13 *)
  Lemma true_reply w ok2 : reply ls ((ops ++ [sw]) ++ mid) (Poll w true ok2) = ABool true ->
    (forall c, In c (loaded tr) -> named a c = true ->
      phase_of tr2 (fst c) = PStarted \/ (phase_of tr2 (fst c) = PAborted /\ ~ no_failure now tmo mid)) /\
    (forall c, In c (loaded tr) -> named a c = false ->
      phase_of tr2 (fst c) = if named b c && runsb tr (fst c) then PStopped else phase_of tr (fst c)).
  Proof.
    intros H. destruct session_frame as (B1 & B2 & B3 & B4 & B5 & B6 & B7 & B8 & B9 & B10).
    assert (Hd : sw_do (cm_sw s2) = false).
    { unfold reply, step in H. fold s2 in H. rewrite B6 in H. unfold poll in H.
      destruct (sw_do (cm_sw s2)); [|reflexivity]. cbn [andb] in H. destruct (negb ok2); [discriminate|].
      destruct (_ || _); cbn in H; discriminate. }
    assert (Hs : forall F, Sess F (cm_heap s) s2 -> sw_started (cm_sw s2) = true).
    { intros F S. destruct (sw_started (cm_sw s2)) eqn:E; [reflexivity|]. destruct (se_before _ _ _ S E); congruence. }
    split; intros c Hc Hn; destruct (loaded_list c Hc) as (d & Hd' & ->); cbn [fst] in *.
    - assert (HF : Forall (fun o => match o with Cycle t _ _ hw => may_fail hw \/ overdue now tmo t -> ~ no_failure now tmo mid | _ => True end) mid).
      { apply Forall_forall. intros o Ho. destruct o; auto. intros Hf Hnf. unfold no_failure in Hnf.
        rewrite Forall_forall in Hnf. specialize (Hnf _ Ho). cbn in Hnf. tauto. }
      destruct (session_inv _ HF) as [W S]. apply (named_start d Hd') in Hn.
      pose proof (se_start _ _ _ S (Hs _ S) _ Hn) as D. pose proof (se_end _ _ _ S Hd _ Hn) as E.
      destruct D as [D|[D|[HF' D]]].
      + left. apply phase_is; auto; discriminate.
      + destruct E; congruence.
      + right. split; [|exact HF']. apply phase_is; auto; discriminate.
    - destruct (session_inv True) as [W S]. { apply Forall_forall. intros []; auto. }
      pose proof (se_other _ _ _ S (Hs _ S) (sp_inst d)) as D.
      rewrite (named_start d Hd'), Hn in D. specialize (D ltac:(discriminate)).
      rewrite (named_stop d Hd'), (inv_running s tr d (inv_reach ls ops) Hd') in D. fold tr in D.
      destruct (_ && _).
      + apply phase_is; auto; discriminate.
      + apply phase_same; auto.
  Qed.

  (** C15 *)
  Lemma asap_cycle t p r hw (ans : nat -> cinfo -> swstate) : pending ls ((ops ++ [sw]) ++ mid) -> asap = true ->
    NoDup a -> (forall k n info, hw_one hw k n info = ans n info) ->
    (forall c, In c (loaded tr) -> named a c = true -> named b c = false ->
      (r = false -> lifecycle_of (fst c) (emits ls ((ops ++ [sw]) ++ mid) (Cycle t p r hw)) =
         if runsb tr2 (fst c) then []
         else if swstate_eqb (ans 0%nat (snd c)) DONE then [CbStarting]
         else if swstate_eqb (ans 1%nat (snd c)) ERROR || ((0 <? tmo) && (tmo <? t - now)) then [CbAborting] else [CbWaiting]) /\
      phase_of (trace ls (after_cycle t p r hw)) (fst c) =
         if runsb tr2 (fst c) then PStarted
         else if swstate_eqb (ans 0%nat (snd c)) DONE then PStarted
         else if swstate_eqb (ans 1%nat (snd c)) ERROR || ((0 <? tmo) && (tmo <? t - now)) then PAborted else PWaiting) /\
    (pending ls (after_cycle t p r hw) <->
     exists c, In c (loaded tr) /\ named a c = true /\
       phase_of (trace ls (after_cycle t p r hw)) (fst c) <> PStarted /\
       phase_of (trace ls (after_cycle t p r hw)) (fst c) <> PAborted).
  Proof.
    intros Hp Hna Hnd Hans.
    destruct (pending_cycle t p r hw Hp) as (h1 & H1 & Hin & El & Ea & _ & Hc & Hh & Hdo & _ & e1 & He1 & He).
    destruct session_frame as (B1 & B2 & B3 & B4 & B5 & B6 & B7 & B8 & B9 & B10).
    pose proof (proj1 (session_inv True ltac:(apply Forall_forall; intros []; auto))) as (W1 & W2 & W3).
    pose proof (inv_reach ls ops) as HI. fold s tr in HI.
    pose proof (inv_reach ls ((ops ++ [sw]) ++ mid)) as HI2. fold s2 tr2 in HI2.
    assert (Hnd' : NoDup (cm_start s2)) by (rewrite B2; apply resolve_nodup; [apply HI|exact Hnd]).
    assert (Hst : start_stage t hw s2 h1 =
              (asap_loop t hw (cm_sw s2) (cm_list s2) 0 h1 (cm_start s2),
               if forallb (fun i => is_running (fst (asap_loop t hw (cm_sw s2) (cm_list s2) 0 h1 (cm_start s2))) i ||
                                    is_aborted (fst (asap_loop t hw (cm_sw s2) (cm_list s2) 0 h1 (cm_start s2))) i) (cm_start s2)
               then false else sw_do (cm_sw s2))).
    { unfold start_stage. rewrite B8, Hna. unfold start_controllers_asap. destruct (asap_loop _ _ _ _ _ _ _); reflexivity. }
    destruct (asap_stage t hw (cm_sw s2) (cm_list s2) 0 h1 (cm_start s2) W1 Hnd') as [S1 S2].
    { intros i Hi. destruct (Hin i Hi) as [X Y]. apply in_map_iff in X as (c & E & Hc'). exists c; auto. }
    split.
    - intros c Hc' HA HB. destruct (loaded_list c Hc') as (d & Hd & ->). cbn [fst snd] in *.
      assert (Hi : In (sp_inst d) (cm_start s2)) by (apply (named_start d Hd); exact HA).
      assert (Hd2 : In d (cm_list s2)) by (rewrite B1; exact Hd).
      destruct (In_nth_error _ _ Hi) as (n & Hn). specialize (S2 n d Hn Hd2).
      assert (Hr : is_running h1 (sp_inst d) = runsb tr2 (sp_inst d)).
      { rewrite <- (inv_running _ _ _ HI2 Hd2). unfold is_running. rewrite H1, (named_stop d Hd), HB. reflexivity. }
      rewrite Hr in S2. unfold asap_dec, timed_out in S2. rewrite !Hans, B7, B9 in S2.
      assert (Hpre : lifecycle_of (sp_inst d) (upd_events t p (cm_heap s2) (cm_list s2)) = []).
      { unfold lifecycle_of, upd_events. generalize (filter (fun c => is_running (cm_heap s2) (sp_inst c)) (cm_list s2)) as l.
        induction l as [|x l IH]; simpl; [reflexivity|]. destruct (Nat.eqb _ _); simpl; exact IH. }
      assert (Hdo' : lifecycle_of (sp_inst d) (hwdo s2) = []).
      { unfold hwdo. destruct (sw_started _); reflexivity. }
      assert (He1' : lifecycle_of (sp_inst d) e1 = []).
      { unfold lifecycle_of. rewrite He1, (named_stop d Hd), HB. reflexivity. }
      split.
      + intros ->. rewrite He. cbn [app]. rewrite !lifecycle_app, Hpre, Hdo', He1'. cbn [app]. rewrite Hst. cbn [fst].
        unfold lifecycle_of. destruct (runsb tr2 (sp_inst d)); [destruct S2 as [_ ->]; reflexivity|].
        destruct S2 as [_ ->]. destruct (swstate_eqb _ _); [reflexivity|]. destruct (_ || _); reflexivity.
      + rewrite Hst in Hh. cbn [fst] in Hh.
        destruct (runsb tr2 (sp_inst d)).
        * apply phase_is; auto; try discriminate. rewrite Hh. apply S2.
        * destruct S2 as [S2 _]. destruct (swstate_eqb _ _); [|destruct (_ || _)];
          (apply phase_is; auto; try discriminate; rewrite Hh; exact S2).
    - assert (Hpd : pending ls (after_cycle t p r hw) <-> sw_do (cm_sw (reach ls (after_cycle t p r hw))) = true).
      { split.
        - intros [w H]. unfold reply, step in H. rewrite Hc in H. unfold poll in H. cbn [andb] in H.
          destruct (sw_do _); [reflexivity|]. cbn in H. discriminate.
        - intros H. exists tmo. unfold reply, step. rewrite Hc. unfold poll. rewrite H. cbn [andb negb].
          assert (tmo <? tmo + 1000000000 = true) as -> by (apply Z.ltb_lt; lia). reflexivity. }
      rewrite Hpd, Hdo, Hst. cbn [snd].
      rewrite Hst in Hh. cbn [fst] in Hh. rewrite <- Hh.
      pose proof (inv_reach ls (after_cycle t p r hw)) as HI3.
      assert (Hph : forall d, In d (cm_list s) -> cm_heap (reach ls (after_cycle t p r hw)) (sp_inst d) =
                              st_of (phase_of (trace ls (after_cycle t p r hw)) (sp_inst d))).
      { intros d Hd. apply (inv_heap _ _ _ HI3). rewrite El. exact Hd. }
      rewrite (pending_do Hp). split.
      + match goal with |- (if ?x then _ else _) = true -> _ => destruct x eqn:Ef end; [discriminate|]. intros _.
        assert (exists i, In i (cm_start s2) /\ is_running (cm_heap (reach ls (after_cycle t p r hw))) i
                  || is_aborted (cm_heap (reach ls (after_cycle t p r hw))) i = false) as (i & Hi & Hx).
        { clear - Ef. induction (cm_start s2) as [|i l IH]; simpl in *; [discriminate|].
          apply andb_false_iff in Ef as [E|E]; [exists i; auto|]. destruct (IH E) as (j & ? & ?); exists j; auto. }
        destruct (Hin i Hi) as [X _]. apply in_map_iff in X as (d & <- & Hd). rewrite B1 in Hd.
        exists (sp_inst d, sp_info d). split; [eapply in_loaded; eauto|]. split; [apply (named_start d Hd); exact Hi|].
        cbn [fst]. unfold is_running, is_aborted in Hx. rewrite (Hph d Hd) in Hx.
        split; intros E; rewrite E in Hx; simpl in Hx; discriminate.
      + intros (c & Hc' & HA & N1 & N2). destruct (loaded_list c Hc') as (d & Hd & ->). cbn [fst] in *.
        assert (Hi : In (sp_inst d) (cm_start s2)) by (apply (named_start d Hd); exact HA).
        match goal with |- (if ?x then _ else _) = true => destruct x eqn:Ef end; [|reflexivity]. exfalso. rewrite forallb_forall in Ef. specialize (Ef _ Hi).
        unfold is_running, is_aborted in Ef. rewrite (Hph d Hd) in Ef.
        destruct (phase_of (trace ls (after_cycle t p r hw)) (sp_inst d)); simpl in Ef; try discriminate; congruence.
  Qed.
End Session.
