(** Order of the hardware hooks and of the life-cycle callbacks. *)
From Verif Require Import HwTypes Lifecycle CMModel CMSpec CMInv CMTrace CMCycle CMSwitch CMLife CMSession CMExcl.

(* ---------------------------------------------------------------- hooks *)

Definition hook_step (h : hooks) (e : event) : hooks :=
  match e with
  | EvPrepare a b true => HPrepared a b
  | EvPrepare _ _ false => HIdle
  | EvDo _ _ => HDone
  | _ => h
  end.
Definition hook_after (h : hooks) (tr : list event) : hooks := fold_left hook_step tr h.

Lemma hooks_app st h a b : hooks_ok st h (a ++ b) <-> hooks_ok st h a /\ hooks_ok st (hook_after h a) b.
Proof.
  revert h; induction a as [|e a IH]; intros h; simpl; [tauto|].
  destruct e as [i c t|i x|i|x y [|]|x y|x|x]; simpl; rewrite ?IH; try tauto.
  destruct c; simpl; rewrite IH; tauto.
Qed.
Lemma hook_after_app h a b : hook_after h (a ++ b) = hook_after (hook_after h a) b.
Proof. apply fold_left_app. Qed.

Definition no_hook (e : event) : Prop := match e with EvPrepare _ _ _ | EvDo _ _ => False | _ => True end.
Lemma hook_after_none h e : Forall no_hook e -> hook_after h e = h.
Proof. induction 1 as [|x e Hx He IH]; [reflexivity|]. destruct x; simpl in *; try contradiction; exact IH. Qed.
Lemma hooks_none st h e : Forall no_hook e -> (st = true -> h = HDone \/ Forall (fun x => is_lifecycle x = false) e) -> hooks_ok st h e.
Proof.
  induction 1 as [|x e Hx He IH]; intros Hs; [exact I|].
  assert (X : hooks_ok st h e).
  { apply IH. intros E. destruct (Hs E) as [|F]; [auto|]. inversion F; auto. }
  destruct x as [i c t| | | | | |]; simpl in *; try contradiction; auto.
  destruct c; auto; (split; [|exact X]; intros E; destruct (Hs E) as [|F]; [assumption|]; inversion F; discriminate).
Qed.

Record HookInv (st : bool) (s : cm) (tr : list event) : Prop := {
  hi_ok : hooks_ok st HIdle tr;
  hi_prep : sw_do (cm_sw s) = true -> sw_started (cm_sw s) = false ->
            hook_after HIdle tr = HPrepared (cm_hwstart s) (cm_hwstop s);
  hi_done : sw_do (cm_sw s) = true -> sw_started (cm_sw s) = true -> hook_after HIdle tr = HDone }.

Lemma stop_events_cb t h l : Forall no_hook (snd (stop_controllers t h l)).
Proof.
  destruct (stop_stage t h l) as (_ & _ & H). eapply Forall_impl; [|exact H]. intros e (i & -> & _). exact I.
Qed.
Lemma start_events_cb t hw s h : Forall no_hook (snd (fst (start_stage t hw s h))).
Proof. eapply Forall_impl; [|apply start_stage_events]. intros e (i & c & -> & _). exact I. Qed.

Lemma hook_cycle st t p (r : bool) hw s tr : (st = true -> r = false) -> HookInv st s tr ->
  HookInv st (fst (update t p r hw s)) (tr ++ snd (update t p r hw s)).
Proof.
  intros Hr [H1 H2 H3].
  destruct (update_frame t p r hw s) as (_ & _ & _ & _ & Ehs & Eht & _).
  set (e0 := (if r then reset_events t (cm_heap s) (cm_list s) else []) ++ upd_events t p (cm_heap s) (cm_list s)).
  assert (N0 : Forall no_hook e0).
  { unfold e0. apply Forall_app; split.
    - destruct r; [|constructor]. unfold reset_events. apply Forall_forall. intros e He.
      apply in_flat_map in He as (c & Hc & [<-|[<-|[]]]); simpl; auto.
    - unfold upd_events. apply Forall_forall. intros e He. apply in_map_iff in He as (c & <- & Hc). simpl. exact I. }
  assert (L0 : st = true -> Forall (fun x => is_lifecycle x = false) e0).
  { intros E. unfold e0. rewrite (Hr E). simpl. unfold upd_events. apply Forall_forall. intros e He. apply in_map_iff in He as (c & <- & Hc). reflexivity. }
  assert (O0 : hooks_ok st HIdle (tr ++ e0)).
  { apply hooks_app; split; [exact H1|]. apply hooks_none; [exact N0|]. intros E. right. apply L0; exact E. }
  assert (A0 : hook_after HIdle (tr ++ e0) = hook_after HIdle tr).
  { rewrite hook_after_app. apply hook_after_none; exact N0. }
  destruct (update_decomp t p r hw s) as (h & Hh & E). cbv zeta in E. fold e0 in E.
  destruct (sw_do (cm_sw s)) eqn:Hd.
  - destruct (manage_decomp t hw (set_heap s h)) as (_ & Esw & Eev).
    cbv zeta in Esw, Eev. cbn [cm_sw cm_heap cm_stop set_heap] in Esw, Eev. change (hwdo (set_heap s h)) with (hwdo s) in Eev.
    rewrite E in *. cbn [fst snd] in *.
    rewrite Eev. set (e1 := snd (stop_controllers _ _ _)) in *. set (e2 := snd (fst _)).
    assert (N12 : Forall no_hook (e1 ++ e2)) by (apply Forall_app; split; [apply stop_events_cb|apply start_events_cb]).
    assert (Edo : hooks_ok st (hook_after HIdle tr) (hwdo s) /\ hook_after (hook_after HIdle tr) (hwdo s) = HDone).
    { unfold hwdo. destruct (sw_started (cm_sw s)) eqn:Es; simpl; [auto|]. auto. }
    destruct Edo as [D1 D2].
    assert (Aall : hook_after HIdle (tr ++ e0 ++ hwdo s ++ e1 ++ e2) = HDone).
    { rewrite app_assoc, hook_after_app, A0, hook_after_app, D2. apply hook_after_none; exact N12. }
    split.
    + rewrite app_assoc. apply hooks_app; split; [exact O0|]. rewrite A0.
      apply hooks_app; split; [exact D1|]. rewrite D2. apply hooks_none; auto.
    + rewrite Esw. cbn. discriminate.
    + intros _ _. exact Aall.
  - rewrite E in *. cbn [fst snd] in *. split; [exact O0| |]; cbn; congruence.
Qed.

Lemma hook_other st s' s tr e : HookInv st s tr -> Forall no_hook e -> Forall no_cb e ->
  cm_sw s' = cm_sw s -> cm_hwstart s' = cm_hwstart s -> cm_hwstop s' = cm_hwstop s -> HookInv st s' (tr ++ e).
Proof.
  intros [H1 H2 H3] N C E1 E2 E3. split; rewrite ?hook_after_app, ?(hook_after_none _ _ N), ?E1, ?E2, ?E3; auto.
  apply hooks_app; split; [exact H1|]. apply hooks_none; [exact N|]. intros _. right.
  eapply Forall_impl; [|exact C]. intros []; simpl; auto; contradiction.
Qed.

Lemma unload_frame n s : let s' := fst (fst (unload_controller n s)) in
  cm_sw s' = cm_sw s /\ cm_hwstart s' = cm_hwstart s /\ cm_hwstop s' = cm_hwstop s /\ cm_heap s' = cm_heap s /\
  cm_start s' = cm_start s /\ cm_stop s' = cm_stop s /\ cm_loaders s' = cm_loaders s /\ cm_call s' = cm_call s /\
  Forall (fun e => match e with EvDestroyed _ => True | _ => False end) (snd (fst (unload_controller n s))).
Proof.
  cbv zeta. unfold unload_controller. destruct (unload_scan _ _ _) as [[? [|]]|]; cbn; repeat split; try constructor.
  unfold dropped. induction (filter _ _); simpl; constructor; simpl; auto.
Qed.

Lemma unload_all_frame names : forall s, let s' := fst (fst (unload_all names s)) in
  cm_sw s' = cm_sw s /\ cm_hwstart s' = cm_hwstart s /\ cm_hwstop s' = cm_hwstop s /\ cm_heap s' = cm_heap s /\
  cm_start s' = cm_start s /\ cm_stop s' = cm_stop s /\ cm_loaders s' = cm_loaders s /\ cm_call s' = cm_call s /\
  Forall (fun e => match e with EvDestroyed _ => True | _ => False end) (snd (fst (unload_all names s))).
Proof.
  induction names as [|n names IH]; intros s; simpl; [repeat split; constructor|].
  destruct (unload_frame n s) as (A1 & A2 & A3 & A4 & A5 & A6 & A7 & A8 & A9).
  destruct (unload_controller n s) as [[s1 e1] ok]; cbn [fst snd] in *.
  destruct ok; [|cbn; repeat split; auto].
  destruct (IH s1) as (B1 & B2 & B3 & B4 & B5 & B6 & B7 & B8 & B9).
  destruct (unload_all names s1) as [[s2 e2] ok2]; cbn [fst snd] in *.
  repeat split; try congruence. apply Forall_app; auto.
Qed.

Definition quiet_ev (e : event) : Prop := match e with EvDestroyed _ | EvReload _ => True | _ => False end.
Lemma reload_tail_frame names s : let s' := fst (fst (reload_tail names s)) in
  cm_sw s' = cm_sw s /\ cm_hwstart s' = cm_hwstart s /\ cm_hwstop s' = cm_hwstop s /\ cm_heap s' = cm_heap s /\
  cm_start s' = cm_start s /\ cm_stop s' = cm_stop s /\ cm_loaders s' = cm_loaders s /\ cm_call s' = cm_call s /\
  Forall quiet_ev (snd (fst (reload_tail names s))).
Proof.
  unfold reload_tail. destruct (unload_all_frame names s) as (A1 & A2 & A3 & A4 & A5 & A6 & A7 & A8 & A9).
  destruct (unload_all names s) as [[s1 e1] ok]; cbn [fst snd] in *.
  assert (Q : Forall quiet_ev e1) by (eapply Forall_impl; [|exact A9]; intros []; simpl; auto).
  destruct ok; [destruct (cm_list s1)|]; cbn; repeat split; auto.
  apply Forall_app; split; [exact Q|]. clear. generalize 0%nat. induction (cm_loaders s1); intros k; simpl; constructor; simpl; auto.
Qed.

Lemma quiet_no_hook e : Forall quiet_ev e -> Forall no_hook e /\ Forall no_cb e.
Proof. intros H; split; (eapply Forall_impl; [|exact H]); intros []; simpl; auto. Qed.

Lemma switch_return_frame b clear k s : let s' := fst (fst (switch_return b clear k s)) in
  cm_sw s' = cm_sw s /\ cm_hwstart s' = cm_hwstart s /\ cm_hwstop s' = cm_hwstop s /\ cm_heap s' = cm_heap s /\
  cm_start s' = (if clear then [] else cm_start s) /\ cm_stop s' = (if clear then [] else cm_stop s) /\
  cm_loaders s' = cm_loaders s /\ cm_call s' = Idle /\
  Forall quiet_ev (snd (fst (switch_return b clear k s))).
Proof.
  unfold switch_return. destruct k as [|names]; [cbn; repeat split; constructor|].
  destruct b; [|cbn; repeat split; constructor].
  set (s1 := set_switch _ _ _ _ _ _ _). destruct (reload_tail_frame names s1) as (A1 & A2 & A3 & A4 & A5 & A6 & A7 & A8 & A9).
  cbv zeta. rewrite A1, A2, A3, A4, A5, A6, A7, A8. repeat split; auto.
Qed.

Lemma load_frame n env s : let s' := fst (fst (load_controller n env s)) in
  cm_sw s' = cm_sw s /\ cm_hwstart s' = cm_hwstart s /\ cm_hwstop s' = cm_hwstop s /\
  cm_start s' = cm_start s /\ cm_stop s' = cm_stop s /\ cm_loaders s' = cm_loaders s /\ cm_call s' = cm_call s /\
  (cm_heap s' = cm_heap s \/ cm_heap s' = upd (cm_heap s) (cm_next s) INITIALIZED) /\
  Forall (fun e => match e with EvLoaded _ _ | EvCreate _ => True | _ => False end) (snd (fst (load_controller n env s))).
Proof.
  cbv zeta. unfold load_controller.
  destruct (existsb _ _); [cbn; repeat split; auto|]. destruct (negb _); [cbn; repeat split; auto|].
  destruct (le_type env) as [ty|]; [|cbn; repeat split; auto].
  pose proof (construct_create ty 0 (cm_loaders s)) as Hc.
  destruct (construct ty 0 (cm_loaders s)) as [c ec]; simpl in Hc.
  assert (X : Forall (fun e => match e with EvLoaded _ _ | EvCreate _ => True | _ => False end) ec)
    by (eapply Forall_impl; [|exact Hc]; intros []; simpl; auto; discriminate).
  destruct c; [|cbn; repeat split; auto]. destruct (le_init env); cbn; repeat split; auto.
  apply Forall_app; split; [exact X|]. repeat constructor.
Qed.

(** What [switch_begin] does to the fields, from any state. *)
Lemma switch_begin_cases a b st asap tmo now ck pr k s :
  let r := switch_begin a b st asap tmo now ck pr k s in
  let s' := fst (fst r) in
  cm_list s' = cm_list s /\ cm_heap s' = cm_heap s /\
  ((snd r = false /\ cm_sw s' = sw_default /\ cm_call s' = Idle /\
    (snd (fst r) = [] \/ exists x y, snd (fst r) = [EvPrepare x y false])) \/
   (snd r = true /\ exists z, cm_sw s' = mkSw true false now z asap tmo /\ cm_call s' = WaitSwitch tmo k /\
    snd (fst r) = [EvPrepare (cm_hwstart s') (cm_hwstop s') true])).
Proof.
  cbv zeta. unfold switch_begin.
  destruct (collect _ _ b _); [|cbn; split; [reflexivity|split; [reflexivity|left; repeat split; auto]]].
  destruct (collect _ _ a _); [|cbn; split; [reflexivity|split; [reflexivity|left; repeat split; auto]]].
  destruct (scan _ _ _ _ _ _ _ _) as [hs ht|infos start stop]; [cbn; split; [reflexivity|split; [reflexivity|left; repeat split; auto]]|].
  destruct (ck infos); [cbn; split; [reflexivity|split; [reflexivity|left; repeat split; auto]]|]. destruct (pr start stop) eqn:Ep; cbn; (split; [reflexivity|split; [reflexivity|]]).
  - right. split; [reflexivity|]. eexists; repeat split.
  - left. split; [reflexivity|]. split; [reflexivity|]. split; [reflexivity|]. right; eauto.
Qed.

Lemma hook_begin hst a b st asap tmo now ck pr k s tr : HookInv hst s tr ->
  let r := switch_begin a b st asap tmo now ck pr k s in HookInv hst (fst (fst r)) (tr ++ snd (fst r)).
Proof.
  intros [H1 H2 H3]. destruct (switch_begin_cases a b st asap tmo now ck pr k s) as (_ & _ & H).
  destruct (switch_begin a b st asap tmo now ck pr k s) as [[s' e] ok]. cbn [fst snd] in *.
  destruct H as [(_ & E & _ & He)|(_ & z & E & _ & He)].
  - split; rewrite ?E; try discriminate. destruct He as [->|(x & y & ->)]; apply hooks_app; simpl; auto.
  - subst e. split; rewrite ?E; try discriminate.
    + apply hooks_app; simpl; auto.
    + intros _ _. rewrite hook_after_app. reflexivity.
Qed.

Lemma hook_step_ok st s o tr : (st = true -> forall t p hw, o <> Cycle t p true hw) -> HookInv st s tr ->
  HookInv st (fst (fst (step s o))) (tr ++ snd (fst (step s o))).
Proof.
  intros Hr H.
  assert (Hsame : HookInv st s (tr ++ [])) by (rewrite app_nil_r; exact H).
  destruct o as [n env|n|a b z asap tmo now ck pr|w o1 o2|t p r hw| | |force now ck pr|l];
  [| | | |
   unfold step; pose proof (hook_cycle st t p r hw s tr) as X; destruct (update t p r hw s); apply X; [|exact H];
   intros E; destruct r; [exfalso; eapply Hr; eauto|reflexivity] | | | |unfold step; cbn [fst snd]; eapply hook_other; eauto];
  (destruct (cm_call s) as [|tmo' k] eqn:Hc; unfold step; rewrite Hc; try exact Hsame).
  - destruct (load_frame n env s) as (A1 & A2 & A3 & _ & _ & _ & _ & _ & A9).
    destruct (load_controller n env s) as [[s' e] ok]; cbn [fst snd] in *.
    eapply hook_other; eauto; (eapply Forall_impl; [|exact A9]); intros []; simpl; auto.
  - destruct (unload_frame n s) as (A1 & A2 & A3 & _ & _ & _ & _ & _ & A9).
    destruct (unload_controller n s) as [[s' e] ok]; cbn [fst snd] in *.
    eapply hook_other; eauto; (eapply Forall_impl; [|exact A9]); intros []; simpl; auto.
  - pose proof (hook_begin st a b z asap tmo now ck pr KReturn s tr H) as X. cbv zeta in X.
    destruct (switch_begin _ _ _ _ _ _ _ _ _ _) as [[? ?] ?]; exact X.
  - assert (Y : forall b clear, HookInv st (fst (fst (switch_return b clear k s))) (tr ++ snd (fst (switch_return b clear k s)))).
    { intros b clear. destruct (switch_return_frame b clear k s) as (A1 & A2 & A3 & _ & _ & _ & _ & _ & A9).
      destruct (quiet_no_hook _ A9). eapply hook_other; eauto. }
    unfold poll. destruct (o1 && _); [destruct (negb o2); [|destruct (_ || _)]|]; auto.
  - destruct (controller_names s) eqn:En.
    + destruct (reload_tail_frame [] s) as (A1 & A2 & A3 & _ & _ & _ & _ & _ & A9).
      destruct (quiet_no_hook _ A9). eapply hook_other; eauto.
    + destruct (negb force); [exact Hsame|].
      pose proof (hook_begin st [] (s0 :: l) BEST_EFFORT false 0 now ck pr (KReload (s0 :: l)) s tr H) as X. cbv zeta in X.
      destruct (switch_begin _ _ _ _ _ _ _ _ _ _) as [[? ?] ?]; exact X.
Qed.

Lemma hook_reach st ls ops : (st = true -> no_reset ops) -> HookInv st (reach ls ops) (trace ls ops).
Proof.
  induction ops as [|o ops IH] using rev_ind; intros H.
  - split; cbn; auto; discriminate.
  - destruct (reach_snoc ls ops o) as [-> ->]. apply hook_step_ok.
    + intros E t p hw ->. specialize (H E). apply Forall_app in H as [_ H]. inversion H; contradiction.
    + apply IH. intros E. specialize (H E). apply Forall_app in H as [H _]. exact H.
Qed.

(* ---------------------------------------------------------------- alternation *)

Section AltInd.
  Variables (t p : Z) (P : heap -> list event -> Prop) (Q : nat -> Prop).
  Hypothesis Hupdate : forall h e i, Q i -> P h e -> P (fst (update_request t p h i)) (e ++ snd (update_request t p h i)).
  Hypothesis Hstart : forall h e i, Q i -> h i <> RUNNING -> P h e -> P (fst (start_request t h i)) (e ++ snd (start_request t h i)).
  Hypothesis Hstop : forall h e i, Q i -> h i = RUNNING -> P h e -> P (fst (stop_request t h i)) (e ++ snd (stop_request t h i)).
  Hypothesis Hwait : forall h e i, Q i -> h i <> RUNNING -> P h e -> P (fst (wait_request t h i)) (e ++ snd (wait_request t h i)).
  Hypothesis Habort : forall h e i, Q i -> h i <> RUNNING -> P h e -> P (fst (abort_request t h i)) (e ++ snd (abort_request t h i)).
  Hypothesis Hdo : forall h e a b, P h e -> P h (e ++ [EvDo a b]).

  Lemma alt_nodup f h e l : (forall h i, fst (f h i) = h \/ exists v, fst (f h i) = upd h i v) ->
    (forall h e i, Q i -> h i <> RUNNING -> P h e -> P (fst (f h i)) (e ++ snd (f h i))) ->
    (forall i, In i l -> Q i) -> NoDup l -> (forall i, In i l -> h i <> RUNNING) -> P h e ->
    P (fst (for_each f h l)) (e ++ snd (for_each f h l)).
  Proof.
    intros Hf Hp. revert h e. induction l as [|i l IH]; intros h e HQ Hn Hr H; simpl; [rewrite app_nil_r; exact H|].
    inversion Hn; subst. pose proof (Hp h e i (HQ i (or_introl eq_refl)) (Hr i (or_introl eq_refl)) H) as H1.
    assert (Hr1 : forall j, In j l -> fst (f h i) j <> RUNNING).
    { intros j Hj. destruct (Hf h i) as [->|(v & ->)]; [apply Hr; right; exact Hj|].
      rewrite upd_other by congruence. apply Hr; right; exact Hj. }
    destruct (f h i) as [h1 e1]; cbn [fst snd] in *.
    specialize (IH h1 (e ++ e1) (fun j Hj => HQ j (or_intror Hj)) ltac:(assumption) Hr1 H1).
    destruct (for_each f h1 l) as [h2 e2]; cbn [fst snd] in *. rewrite app_assoc. exact IH.
  Qed.

  Lemma asap_once hw sw k i h e l : NoDup (map sp_inst l) -> (forall c, In c l -> Q (sp_inst c)) ->
    h i <> RUNNING -> P h e -> P (fst (for_each (asap_inner t hw sw k i) h l)) (e ++ snd (for_each (asap_inner t hw sw k i) h l)).
  Proof.
    intros Hn HQ Hr H. induction l as [|c l IH]; [simpl; rewrite app_nil_r; exact H|].
    simpl in *. inversion Hn; subst.
    destruct (Nat.eqb_spec i (sp_inst c)) as [->|Hne].
    - pose proof (fun h => asap_inner_miss t hw sw k (sp_inst c) h l ltac:(assumption)) as Hm.
      unfold asap_inner at 1 3. rewrite Nat.eqb_refl. specialize (HQ c (or_introl eq_refl)).
      destruct (swstate_eqb _ _); [|destruct (_ || _)].
      + pose proof (Hstart h e (sp_inst c) HQ Hr H) as X. destruct (start_request t h (sp_inst c)) as [h1 e1]. rewrite Hm. cbn [fst snd] in *. rewrite app_nil_r. exact X.
      + pose proof (Habort h e (sp_inst c) HQ Hr H) as X. destruct (abort_request t h (sp_inst c)) as [h1 e1]. rewrite Hm. cbn [fst snd] in *. rewrite app_nil_r. exact X.
      + pose proof (Hwait h e (sp_inst c) HQ Hr H) as X. destruct (wait_request t h (sp_inst c)) as [h1 e1]. rewrite Hm. cbn [fst snd] in *. rewrite app_nil_r. exact X.
    - unfold asap_inner at 1 3. apply Nat.eqb_neq in Hne. rewrite Hne.
      specialize (IH ltac:(assumption) (fun c Hc => HQ c (or_intror Hc))).
      destruct (for_each _ h l) as [h1 e1]. exact IH.
  Qed.

  Lemma alt_update hw (r : bool) s e :
    NoDup (map sp_inst (cm_list s)) -> (forall c, In c (cm_list s) -> Q (sp_inst c)) ->
    (forall i, In i (cm_start s) -> Q i) -> (forall i, In i (cm_stop s) -> Q i) ->
    (sw_do (cm_sw s) = true -> sw_asap (cm_sw s) = false ->
       NoDup (cm_start s) /\ forall i, In i (cm_start s) -> cm_heap s i <> RUNNING) ->
    P (cm_heap s) e ->
    P (cm_heap (fst (update t p r hw s))) (e ++ snd (update t p r hw s)).
  Proof.
    intros HND HQ1 HQ2 HQ3 HA H. unfold update.
    assert (H0 : let x := if r then for_each (reset_body t) (cm_heap s) (cm_list s) else (cm_heap s, []) in
                 P (fst x) (e ++ snd x) /\ heq (fst x) (cm_heap s)).
    { destruct r; cbv zeta; [|simpl; rewrite app_nil_r; split; [exact H|intros i; reflexivity]].
      split; [|apply (reset_stage t (cm_heap s) (cm_list s))].
      apply for_each_ind; [|exact H]. intros c h0 e0 Hin H0. unfold reset_body.
      destruct (is_running h0 (sp_inst c)) eqn:Er; simpl; [|rewrite app_nil_r; exact H0].
      apply is_running_spec in Er.
      pose proof (Hstop h0 e0 (sp_inst c) (HQ1 c Hin) Er H0) as H1.
      unfold stop_request in *. rewrite Er in *. cbn [fst snd] in H1.
      pose proof (Hstart (upd h0 (sp_inst c) STOPPED) _ (sp_inst c) (HQ1 c Hin) ltac:(rewrite upd_same; discriminate) H1) as H2.
      destruct (start_request t (upd h0 (sp_inst c) STOPPED) (sp_inst c)) as [h2 e2]. cbn [fst snd] in *.
      rewrite <- app_assoc in H2. exact H2. }
    cbv zeta in H0. destruct (if r then _ else _) as [h1 e1]; cbn [fst snd] in H0. destruct H0 as [H0 Hh1].
    rewrite update_stage.
    assert (H2 : P h1 ((e ++ e1) ++ upd_events t p h1 (cm_list s))).
    { pose proof (for_each_ind (update_body t p) P (cm_list s) (fun c h e Hc => Hupdate h e (sp_inst c) (HQ1 c Hc)) h1 (e ++ e1) H0) as X.
      rewrite update_stage in X. exact X. }
    destruct (sw_do (cm_sw (set_heap s h1))) eqn:Hd; cbn [fst snd]; [|rewrite app_assoc; exact H2].
    cbn [set_heap cm_sw] in Hd.
    destruct (manage_decomp t hw (set_heap s h1)) as (E1 & _ & E3). cbv zeta in E1, E3.
    destruct (manage_switch t hw (set_heap s h1)) as [s3 e3]; cbn [fst snd] in *. subst e3. rewrite E1. clear E1.
    change (cm_heap (set_heap s h1)) with h1. change (cm_stop (set_heap s h1)) with (cm_stop s).
    set (ev := upd_events t p h1 (cm_list s)) in *.
    assert (H3 : P h1 (((e ++ e1) ++ ev) ++ hwdo s)).
    { unfold hwdo. destruct (sw_started _); [rewrite app_nil_r; exact H2|apply Hdo; exact H2]. }
    assert (H4 : P (fst (stop_controllers t h1 (cm_stop s))) ((((e ++ e1) ++ ev) ++ hwdo s) ++ snd (stop_controllers t h1 (cm_stop s)))).
    { unfold stop_controllers. apply for_each_ind; [|exact H3]. intros i h0 e0 Hi H'. unfold stop_body.
      destruct (is_running h0 i) eqn:Er; [|simpl; rewrite app_nil_r; exact H'].
      apply is_running_spec in Er. apply Hstop; auto. }
    destruct (stop_stage t h1 (cm_stop s)) as (F1 & _ & _).
    destruct (stop_controllers t h1 (cm_stop s)) as [h2 e2]; cbn [fst snd] in *.
    set (past := (((e ++ e1) ++ ev) ++ hwdo s) ++ e2) in *.
    change (start_stage t hw (set_heap s h1) h2) with (start_stage t hw s h2).
    assert (H5 : P (fst (fst (start_stage t hw s h2))) (past ++ snd (fst (start_stage t hw s h2)))).
    { unfold start_stage. destruct (sw_asap (cm_sw s)) eqn:Ha.
      - unfold start_controllers_asap. rewrite asap_loop_for_each.
        assert (X : P (fst (for_each (asap_outer t hw (cm_sw s) (cm_list s)) h2 (combine (seq 0 (length (cm_start s))) (cm_start s))))
                      (past ++ snd (for_each (asap_outer t hw (cm_sw s) (cm_list s)) h2 (combine (seq 0 (length (cm_start s))) (cm_start s))))).
        { apply for_each_ind; [|exact H4]. intros [k i] h0 e0 Hki H'. unfold asap_outer; simpl.
          destruct (is_running h0 i) eqn:Er; simpl; [rewrite app_nil_r; exact H'|].
          apply is_running_false in Er.
          apply asap_once; auto. }
        destruct (for_each _ _ _) as [h3 e3]; exact X.
      - destruct (HA Hd eq_refl) as [Hn Hnr].
        assert (Hr2 : forall i, In i (cm_start s) -> h2 i <> RUNNING).
        { intros i Hi. rewrite F1. destruct (_ && _); [discriminate|]. rewrite Hh1. apply Hnr; exact Hi. }
        unfold start_controllers.
        destruct (swstate_eqb _ _); [|destruct (_ || _)]; cbn [fst snd]; apply alt_nodup; auto;
        intros h0 i; [unfold start_request|unfold abort_request|unfold wait_request]; destruct (h0 i); cbn; eauto. }
    unfold past in H5. rewrite <- !app_assoc in *. exact H5.
  Qed.
End AltInd.

Record AltInv (s : cm) (tr : list event) : Prop := {
  ai_along : along alternates [] tr;
  ai_start : sw_do (cm_sw s) = true -> sw_asap (cm_sw s) = false ->
    NoDup (cm_start s) /\ forall i, In i (cm_start s) -> cm_heap s i <> RUNNING }.

Lemma alt_cycle t p r hw s tr : Inv s tr -> Inv2 s tr -> AltInv s tr ->
  AltInv (fst (update t p r hw s)) (tr ++ snd (update t p r hw s)).
Proof.
  intros HI HI2 [HA HS].
  set (L := fun i => In i (map sp_inst (cm_list s))).
  assert (Hlive : forall i, L i -> phase_of tr i <> PGone).
  { intros i Hi. apply in_map_iff in Hi as (c & <- & Hc). apply (inv_live _ _ HI c Hc). }
  assert (Hcyc : forall (e1 e2 : list event), Forall cyc_ev e2 ->
            (forall i, L i -> phase_of e1 i <> PGone) -> forall i, L i -> phase_of (e1 ++ e2) i <> PGone).
  { intros e1 e2 Hc H i Hi Hg. apply phase_cyc_gone in Hg; auto. eapply H; eauto. }
  set (P := fun h e => sim h e /\ (forall i, L i -> phase_of e i <> PGone) /\ along alternates [] e).
  assert (Hnr : forall h e i, P h e -> L i -> h i <> RUNNING -> ~ runs e i).
  { intros h e i (H1 & H2 & _) Hi Hh Hr. apply Hh. rewrite (H1 i (H2 i Hi)), Hr. reflexivity. }
  assert (X : P (cm_heap (fst (update t p r hw s))) (tr ++ snd (update t p r hw s))).
  { destruct (sim_prims t p) as (S1 & S2 & S3 & S4 & S5 & S6).
    apply alt_update with (Q := L).
    - intros h e i Hi (H1 & H2 & H3). split; [auto|]. unfold update_request.
      destruct (h i) eqn:E; simpl; rewrite ?app_nil_r; auto.
      split; [apply Hcyc; repeat constructor; auto|]. apply along_snoc; simpl; auto.
    - intros h e i Hi Hh HP. pose proof (Hnr h e i HP Hi Hh) as N. destruct HP as (H1 & H2 & H3). split; [auto|]. unfold start_request.
      destruct (h i) eqn:E; simpl; rewrite ?app_nil_r; auto;
      (split; [apply Hcyc; repeat constructor; auto|apply along_snoc; simpl; auto]).
    - intros h e i Hi Hh (H1 & H2 & H3). pose proof (sim_live_run h e i H1 (H2 i Hi) Hh) as N. split; [auto|]. unfold stop_request.
      destruct (h i) eqn:E; simpl; rewrite ?app_nil_r; auto;
      (split; [apply Hcyc; repeat constructor; auto|apply along_snoc; simpl; auto]).
    - intros h e i Hi Hh HP. pose proof (Hnr h e i HP Hi Hh) as N. destruct HP as (H1 & H2 & H3). split; [auto|]. unfold wait_request.
      destruct (h i) eqn:E; simpl; rewrite ?app_nil_r; auto;
      (split; [apply Hcyc; repeat constructor; auto|apply along_snoc; simpl; auto]).
    - intros h e i Hi Hh HP. pose proof (Hnr h e i HP Hi Hh) as N. destruct HP as (H1 & H2 & H3). split; [auto|]. unfold abort_request.
      destruct (h i) eqn:E; simpl; rewrite ?app_nil_r; auto;
      (split; [apply Hcyc; repeat constructor; auto|apply along_snoc; simpl; auto]).
    - intros h e a b (H1 & H2 & H3). split; [auto|].
      split; [apply Hcyc; repeat constructor; auto|apply along_snoc; simpl; auto].
    - apply (inv_nodup _ _ HI).
    - intros c Hc; apply in_map; exact Hc.
    - apply (inv_start _ _ HI2).
    - apply (inv_stop _ _ HI2).
    - exact HS.
    - split; [apply HI|]. split; [exact Hlive|exact HA]. }
  split; [apply X|].
  destruct (update_frame t p r hw s) as (_ & _ & Ea & _). rewrite Ea.
  destruct (sw_do (cm_sw s)) eqn:Hd.
  - destruct (cycle_decomp t p r hw s Hd) as (h1 & H1 & Hh & Hsw & _). cbv zeta in Hh, Hsw. rewrite Hsw, Hh. cbn [sw_do sw_asap].
    intros Hdo Ha. split; [apply HS; auto|].
    assert (Hin : forall i, In i (cm_start s) -> In i (map sp_inst (cm_list s)) /\ h1 i <> CONSTRUCTED).
    { intros i Hi. pose proof (inv_start _ _ HI2 i Hi) as Hl. split; [exact Hl|].
      rewrite H1. destruct (_ && _); [discriminate|]. intros Hc.
      apply in_map_iff in Hl as (c & <- & Hc'). destruct (inv_live _ _ HI c Hc') as [G1 G2].
      rewrite (inv_sim _ _ HI _ G1) in Hc. destruct (phase_of tr (sp_inst c)); simpl in Hc; congruence. }
    destruct (stage_nonasap t hw s h1 Hin Ha) as (F1 & F2 & _).
    intros i Hi. rewrite (F1 i Hi). rewrite F2 in Hdo. destruct (swstate_eqb _ _); [discriminate Hdo|].
    destruct (_ || _); [discriminate Hdo|]. discriminate.
  - destruct (update_decomp t p r hw s) as (h & Hh & E). cbv zeta in E. rewrite Hd in E. rewrite E. cbn [fst cm_sw set_heap]. congruence.
Qed.

Lemma no_hook_alt tr e : Forall no_cb e -> along alternates [] tr -> along alternates [] (tr ++ e).
Proof.
  intros He A. revert tr A. induction He as [|x e Hx He IH]; intros tr A; [rewrite app_nil_r; exact A|].
  replace (tr ++ x :: e) with ((tr ++ [x]) ++ e) by (rewrite <- app_assoc; reflexivity).
  apply IH. apply along_snoc. split; [exact A|]. destruct x; simpl; auto; contradiction.
Qed.

Lemma alt_step s o tr : not_abandon o -> careful tr o -> Inv s tr -> Inv2 s tr -> AltInv s tr ->
  AltInv (fst (fst (step s o))) (tr ++ snd (fst (step s o))).
Proof.
  intros Hna Hca HI HI2 HA.
  assert (Hsame : AltInv s (tr ++ [])) by (rewrite app_nil_r; exact HA).
  assert (Hother : (forall t p r hw, o <> Cycle t p r hw) ->
     (sw_do (cm_sw (fst (fst (step s o)))) = true -> sw_asap (cm_sw (fst (fst (step s o)))) = false ->
        NoDup (cm_start (fst (fst (step s o)))) /\ forall i, In i (cm_start (fst (fst (step s o)))) -> cm_heap (fst (fst (step s o))) i <> RUNNING) ->
     AltInv (fst (fst (step s o))) (tr ++ snd (fst (step s o)))).
  { intros Ho H. split; [|exact H]. apply no_hook_alt; [apply step_no_cb; exact Ho|apply HA]. }
  destruct o as [n env|n|a b z asap tmo now ck pr|w o1 o2|t p r hw| | |force now ck pr|l];
  [| | | |unfold step; pose proof (alt_cycle t p r hw s tr HI HI2 HA) as X; destruct (update t p r hw s); exact X| | | |unfold step; cbn [fst snd]; rewrite app_nil_r; destruct HA; split; assumption];
  (destruct (cm_call s) as [|tmo' k] eqn:Hc; [|unfold step; rewrite Hc; try exact Hsame]).
  - apply Hother; [discriminate|]. unfold step; rewrite Hc.
    destruct (inv_idle _ _ HI2 Hc) as [E1 E2].
    destruct (load_frame n env s) as (A1 & _ & _ & A4 & _). destruct (load_controller n env s) as [[s' e] ok]; cbn [fst snd] in *.
    rewrite A4, E1. intros _ _. split; [constructor|intros i []].
  - apply Hother; [discriminate|]. unfold step; rewrite Hc.
    destruct (inv_idle _ _ HI2 Hc) as [E1 E2].
    destruct (unload_frame n s) as (A1 & _ & _ & _ & A4 & _). destruct (unload_controller n s) as [[s' e] ok]; cbn [fst snd] in *.
    rewrite A4, E1. intros _ _. split; [constructor|intros i []].
  - apply Hother; [discriminate|]. unfold step; rewrite Hc.
    destruct (inv_idle _ _ HI2 Hc) as [E1 E2].
    destruct (switch_begin_spec s tr HI a b z asap tmo now ck pr KReturn E1 E2) as (s' & E & H).
    destruct (switch_begin_cases a b z asap tmo now ck pr KReturn s) as (Q1 & Q2 & _).
    destruct (switch_begin a b z asap tmo now ck pr KReturn s) as [[s1 e] ok]; cbn [fst snd] in *. subst s1.
    destruct (valid s a b (is_strict z) && negb (ck _)) eqn:Ev.
    + destruct H as (_ & _ & _ & _ & H). apply andb_true_iff in Ev as [Ev _].
      destruct (pr _ _); [|destruct H as (-> & _ & _ & ->); discriminate].
      destruct H as (Es & _ & _ & Esw). rewrite Esw. cbn. intros _ ->. rewrite Es.
      destruct Hca as [|[Hn Hz]]; [discriminate|].
      split; [apply resolve_nodup; [apply (inv_nodup _ _ HI)|exact Hn]|].
      intros i Hi Hr. rewrite Q2 in Hr.
      assert (Hex : exists c, In c (cm_list s) /\ sp_inst c = i) by (apply resolve_in in Hi; apply in_map_iff in Hi as (c & ? & ?); eauto).
      destruct Hex as (c & Hcl & <-).
      pose proof (mem_named s tr HI a c Hcl) as Hm. apply mem_spec in Hi. rewrite Hi in Hm. symmetry in Hm.
      assert (Hrun : runs tr (sp_inst c)).
      { apply runsb_spec. rewrite <- (inv_running _ _ _ HI Hcl). apply is_running_spec. exact Hr. }
      destruct Hz as [->|Hz].
      * change (is_strict STRICT) with true in Ev. apply (valid_strict s tr HI a b) in Ev as (_ & _ & Ev).
        eapply (Ev (sp_inst c, sp_info c)); [eapply in_loaded; eauto|exact Hm|exact Hrun].
      * eapply (Hz (sp_inst c, sp_info c)); [eapply in_loaded; eauto|exact Hm|exact Hrun].
    + destruct H as (_ & _ & _ & _ & _ & ->). discriminate.
  - unfold step. rewrite Hc. exact Hsame.
  - assert (Hother' := Hother ltac:(discriminate)). unfold step in Hother'. rewrite Hc in Hother'. unfold poll in *.
    assert (Y : forall b, let x := fst (fst (switch_return b true k s)) in sw_do (cm_sw x) = true -> sw_asap (cm_sw x) = false ->
                 NoDup (cm_start x) /\ forall i, In i (cm_start x) -> cm_heap x i <> RUNNING).
    { intros b'. cbv zeta. destruct (switch_return_frame b' true k s) as (_ & _ & _ & _ & -> & _).
      intros _ _. split; [constructor|intros i []]. }
    destruct (o1 && _) eqn:Eo; [destruct o2; cbn [negb] in *; [destruct (_ || _)|]|].
    + exact Hsame.
    + apply Hother'. apply Y.
    + apply andb_true_iff in Eo as [-> _]. destruct Hna.
    + apply Hother'. apply Y.
  - unfold step. rewrite Hc. exact Hsame.
  - unfold step. rewrite Hc. exact Hsame.
  - assert (Hother' := Hother ltac:(discriminate)). unfold step in *. rewrite Hc in *.
    destruct (inv_idle _ _ HI2 Hc) as [E1 E2].
    destruct (controller_names s) eqn:En.
    + apply Hother'. destruct (reload_tail_frame [] s) as (_ & _ & _ & _ & -> & _). rewrite E1.
      intros _ _. split; [constructor|intros i []].
    + destruct (negb force); [exact Hsame|].
      apply Hother'. clear Hother Hother'.
      destruct (switch_begin_spec s tr HI [] (s0 :: l) BEST_EFFORT false 0 now ck pr (KReload (s0 :: l)) E1 E2) as (s' & E & H).
      destruct (switch_begin [] _ _ _ _ _ _ _ _ _) as [[s1 e] ok]; cbn [fst snd] in *. subst s1.
      destruct (_ && negb (ck _)).
      * destruct H as (_ & _ & _ & _ & H). destruct (pr _ _); destruct H as (-> & _); intros _ _; (split; [constructor|intros i []]).
      * destruct H as (_ & _ & -> & _). intros _ _. split; [constructor|intros i []].
Qed.

Lemma all_careful_snoc ls ops o : all_careful ls (ops ++ [o]) -> all_careful ls ops /\ careful (trace ls ops) o.
Proof.
  intros H. split.
  - intros pre x post ->. apply (H pre x (post ++ [o])). rewrite <- app_assoc. reflexivity.
  - apply (H ops o []). reflexivity.
Qed.

Lemma alt_reach ls ops : no_abandoned ops -> all_careful ls ops -> AltInv (reach ls ops) (trace ls ops).
Proof.
  induction ops as [|o ops IH] using rev_ind; intros H1 H2.
  - split; cbn; auto; discriminate.
  - apply no_abandoned_app in H1 as [H1 H1']. apply all_careful_snoc in H2 as [H2 H2'].
    destruct (reach_snoc ls ops o) as [-> ->].
    apply alt_step; auto using inv_reach, inv2_reach.
Qed.

Lemma alternates_at ls ops pre e post : no_abandoned ops -> all_careful ls ops ->
  trace ls ops = pre ++ e :: post -> alternates pre e.
Proof.
  intros H1 H2 E. pose proof (ai_along _ _ (alt_reach ls ops H1 H2)) as A.
  apply along_spec with (2 := E) in A. exact A.
Qed.
