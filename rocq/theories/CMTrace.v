(** Safety of the event trace of the controller manager model. *)
From Verif Require Import HwTypes Lifecycle CMModel CMSpec CMInv.

(** [P] holds at every event of [tr], given the events before it. *)
Fixpoint along (P : list event -> event -> Prop) (past tr : list event) : Prop :=
  match tr with
  | [] => True
  | e :: tr' => P past e /\ along P (past ++ [e]) tr'
  end.

Lemma along_app P past a b : along P past (a ++ b) <-> along P past a /\ along P (past ++ a) b.
Proof.
  revert past; induction a as [|e a IH]; intros past; simpl.
  - rewrite app_nil_r; tauto.
  - rewrite IH, <- app_assoc; simpl; tauto.
Qed.

Lemma along_spec P past tr :
  along P past tr <-> forall pre e post, tr = pre ++ e :: post -> P (past ++ pre) e.
Proof.
  revert past; induction tr as [|x tr IH]; intros past; simpl.
  - split; [|tauto]. intros _ pre e post E; destruct pre; discriminate E.
  - rewrite IH. split.
    + intros [H1 H2] [|y pre] e post E; injection E as <- E2; subst; [rewrite app_nil_r; exact H1|].
      change (x :: pre) with ([x] ++ pre). rewrite app_assoc. eapply H2; reflexivity.
    + intros H; split; [specialize (H [] x tr eq_refl); rewrite app_nil_r in H; exact H|].
      intros pre e post E. subst. rewrite <- app_assoc. apply (H (x :: pre) e post eq_refl).
Qed.

Lemma along_snoc P past tr e : along P past (tr ++ [e]) <-> along P past tr /\ P (past ++ tr) e.
Proof. rewrite along_app; simpl; tauto. Qed.

(** ** Properties of every history *)

Definition ok1 (past : list event) (e : event) : Prop :=
  match e with
  | EvCb i (CbUpdate _) _ => runs past i
  | EvLoaded i info => phase_of past i = PAbsent /\ ~ known past (ci_name info)
  | EvDestroyed i => In i (map fst (loaded past)) /\ ~ runs past i
  | EvReload _ => loaded past = []
  | _ => True
  end.

Lemma sim_live_run h tr i : sim h tr -> phase_of tr i <> PGone -> h i = RUNNING -> runs tr i.
Proof.
  intros Hs Hg Hr. rewrite (Hs i Hg) in Hr. unfold runs. destruct (phase_of tr i); simpl in Hr; congruence.
Qed.

Lemma update_ok1 t p r hw s tr :
  Inv s tr -> along ok1 [] tr -> along ok1 [] (tr ++ snd (update t p r hw s)).
Proof.
  intros HI Hok.
  set (L := fun i => In i (map sp_inst (cm_list s))).
  set (P := fun h e => sim h e /\ (forall i, L i -> phase_of e i <> PGone) /\ along ok1 [] e).
  assert (X : P (cm_heap (fst (update t p r hw s))) (tr ++ snd (update t p r hw s))).
  2: apply X.
  destruct (sim_prims t p) as (S1 & S2 & S3 & S4 & S5 & S6).
  assert (Hcyc : forall (e1 e2 : list event), Forall cyc_ev e2 ->
            (forall i, L i -> phase_of e1 i <> PGone) -> forall i, L i -> phase_of (e1 ++ e2) i <> PGone).
  { intros e1 e2 Hc H i Hi Hg. apply phase_cyc_gone in Hg; auto. eapply H; eauto. }
  apply update_prim with (QL := L) (Q := fun _ => True); auto.
  - intros h e i Hi (H1 & H2 & H3). split; [auto|]. unfold update_request.
    destruct (h i) eqn:E; simpl; rewrite ?app_nil_r; auto.
    split; [apply Hcyc; repeat constructor; auto|].
    apply along_snoc; split; [assumption|]. simpl. eapply sim_live_run; eauto.
  - intros h e i _ (H1 & H2 & H3). split; [auto|]. unfold start_request.
    destruct (h i) eqn:E; simpl; rewrite ?app_nil_r; auto;
    (split; [apply Hcyc; repeat constructor; auto|apply along_snoc; simpl; auto]).
  - intros h e i _ (H1 & H2 & H3). split; [auto|]. unfold stop_request.
    destruct (h i) eqn:E; simpl; rewrite ?app_nil_r; auto;
    (split; [apply Hcyc; repeat constructor; auto|apply along_snoc; simpl; auto]).
  - intros h e i _ (H1 & H2 & H3). split; [auto|]. unfold wait_request.
    destruct (h i) eqn:E; simpl; rewrite ?app_nil_r; auto;
    (split; [apply Hcyc; repeat constructor; auto|apply along_snoc; simpl; auto]).
  - intros h e i _ (H1 & H2 & H3). split; [auto|]. unfold abort_request.
    destruct (h i) eqn:E; simpl; rewrite ?app_nil_r; auto;
    (split; [apply Hcyc; repeat constructor; auto|apply along_snoc; simpl; auto]).
  - intros h e a b (H1 & H2 & H3). split; [auto|].
    split; [apply Hcyc; repeat constructor; auto|apply along_snoc; simpl; auto].
  - intros c Hc; apply in_map; exact Hc.
  - split; [apply HI|]. split; [|exact Hok].
    intros i Hi. apply in_map_iff in Hi as (c & <- & Hc). apply (inv_live _ _ HI c Hc).
Qed.

Lemma create_ok1 tr e : Forall (fun x => is_create x = true) e -> along ok1 [] tr -> along ok1 [] (tr ++ e).
Proof.
  intros He Hok. apply along_app; split; [assumption|]. simpl.
  revert tr Hok; induction He as [|x e Hx He IH]; intros tr Hok; simpl; [auto|].
  destruct x; try discriminate. split; [exact I|]. apply IH. apply along_snoc; simpl; auto.
Qed.

Lemma construct_create ty k ls : Forall (fun x => is_create x = true) (snd (construct ty k ls)).
Proof.
  assert (X : forall c cls k, Forall (fun x => is_create x = true) (snd (try_classes ty k c cls))).
  { intros c cls; revert c; induction cls as [|[n r] cls IH]; intros c k0; simpl; [constructor|].
    destruct (String.eqb ty n); [|apply IH].
    destruct r; [specialize (IH true k0)|specialize (IH false k0)|];
    try (destruct (try_classes ty k0 _ cls) as [[? ?] ?]; simpl in *; constructor; auto).
    repeat constructor. }
  revert k; induction ls as [|l ls IH]; intros k; simpl; [constructor|].
  specialize (X false (ld_classes l) k).
  destruct (try_classes ty k false (ld_classes l)) as [[c x] e]; simpl in X.
  destruct (x || c); simpl; [exact X|].
  specialize (IH (S k)); destruct (construct ty (S k) ls); simpl in *. apply Forall_app; auto.
Qed.

Lemma known_names s tr n : Inv s tr -> known tr n <-> In n (map name_of (cm_list s)).
Proof.
  intros HI. unfold known. rewrite <- (inv_list _ _ HI). split.
  - intros (c & Hin & E). apply in_map_iff in Hin as (d & <- & Hd). simpl in E.
    rewrite <- E. apply (in_map name_of); exact Hd.
  - intros Hin. apply in_map_iff in Hin as (d & E & Hd). exists (sp_inst d, sp_info d). split; [|exact E].
    apply (in_map (fun c => (sp_inst c, sp_info c))); exact Hd.
Qed.

Lemma known_cong tr e n : loaded (tr ++ e) = loaded tr -> known (tr ++ e) n <-> known tr n.
Proof. unfold known; intros ->; reflexivity. Qed.

Lemma load_ok1 n env s tr :
  Inv s tr -> along ok1 [] tr -> along ok1 [] (tr ++ snd (fst (load_controller n env s))).
Proof.
  intros HI Hok. unfold load_controller.
  destruct (existsb _ _) eqn:Edup; [cbn; rewrite app_nil_r; exact Hok|].
  destruct (negb _); [cbn; rewrite app_nil_r; exact Hok|].
  destruct (le_type env) as [ty|]; [|cbn; rewrite app_nil_r; exact Hok].
  pose proof (construct_create ty 0 (cm_loaders s)) as Hc.
  pose proof (construct_neutral ty 0 (cm_loaders s)) as Hn.
  destruct (construct ty 0 (cm_loaders s)) as [c ec]; simpl in Hc, Hn.
  destruct c; [|apply create_ok1; auto].
  destruct (le_init env) as [claims| |]; cbn [fst snd]; [|apply create_ok1; auto ..].
  rewrite app_assoc. apply along_snoc. split; [apply create_ok1; auto|]. simpl. split.
  - rewrite phase_neutral by assumption. apply (inv_fresh _ _ HI); lia.
  - rewrite known_cong by (apply loaded_neutral; assumption).
    rewrite (known_names _ _ _ HI). apply existsb_name; exact Edup.
Qed.

Lemma in_loaded s tr c : Inv s tr -> In c (cm_list s) -> In (sp_inst c, sp_info c) (loaded tr).
Proof. intros HI Hc. rewrite <- (inv_list _ _ HI). apply (in_map (fun c => (sp_inst c, sp_info c))); exact Hc. Qed.

Lemma unload_ok1 n s tr :
  Inv s tr -> along ok1 [] tr -> along ok1 [] (tr ++ snd (fst (unload_controller n s))).
Proof.
  intros HI Hok. destruct (unload_controller n s) as [[s' e] [|]] eqn:E; cbn [fst snd].
  - destruct (unload_ok _ _ _ _ _ HI E) as (c0 & Hin & Hn & Hr & -> & -> & Hf).
    apply along_snoc; split; [assumption|]. simpl. split.
    + apply in_map_iff. exists (sp_inst c0, sp_info c0). split; [reflexivity|]. eapply in_loaded; eauto.
    + rewrite (inv_running _ _ _ HI Hin) in Hr. intros X. apply runsb_spec in X. congruence.
  - destruct (unload_fail _ _ _ _ E) as [-> ->]. rewrite app_nil_r; exact Hok.
Qed.

Lemma unload_all_ok1 names s tr :
  Inv s tr -> cm_call s = Idle -> along ok1 [] tr -> along ok1 [] (tr ++ snd (fst (unload_all names s))).
Proof.
  revert s tr; induction names as [|n names IH]; intros s tr HI Hc Hok; simpl; [rewrite app_nil_r; auto|].
  pose proof (unload_ok1 n s tr HI Hok) as H1. pose proof (inv_unload n s tr HI Hc) as H2.
  pose proof (unload_call n s) as H3.
  destruct (unload_controller n s) as [[s1 e1] ok]; cbn [fst snd] in *.
  destruct ok; [|exact H1].
  specialize (IH s1 (tr ++ e1) H2 (eq_trans H3 Hc) H1).
  destruct (unload_all names s1) as [[s2 e2] ok2]; cbn [fst snd] in *. rewrite app_assoc; exact IH.
Qed.

Lemma reload_tail_ok1 names s tr :
  Inv s tr -> cm_call s = Idle -> along ok1 [] tr -> along ok1 [] (tr ++ snd (fst (reload_tail names s))).
Proof.
  intros HI Hc Hok. unfold reload_tail.
  pose proof (unload_all_ok1 names s tr HI Hc Hok) as H1.
  destruct (inv_unload_all names s tr HI Hc) as [H2 _].
  destruct (unload_all names s) as [[s1 e1] ok]; cbn [fst snd] in *.
  destruct ok; [|exact H1].
  destruct (cm_list s1) eqn:El; cbn [fst snd]; [|exact H1].
  rewrite app_assoc. apply along_app; split; [exact H1|]. simpl.
  assert (Hl : loaded (tr ++ e1) = []) by (rewrite <- (inv_list _ _ H2), El; reflexivity).
  revert Hl. generalize (tr ++ e1) as x. generalize 0%nat as k. generalize (cm_loaders s1) as ls.
  induction ls as [|l ls IH]; intros k x Hl; simpl; [auto|]. split; [exact Hl|].
  apply IH. rewrite loaded_app; simpl; exact Hl.
Qed.

Lemma prepare_ok1 (e tr : list event) :
  Forall (fun x => match x with EvPrepare _ _ _ => True | _ => False end) e ->
  along ok1 [] tr -> along ok1 [] (tr ++ e).
Proof.
  intros He Hok. apply along_app; split; [assumption|]. simpl.
  generalize tr as x; induction He as [|y e Hy He IH]; intros x; simpl; [auto|].
  destruct y; try contradiction. split; [exact I|]. apply IH.
Qed.

Lemma switch_begin_prepare a b st asap tmo now ck pr k s :
  Forall (fun x => match x with EvPrepare _ _ _ => True | _ => False end)
         (snd (fst (switch_begin a b st asap tmo now ck pr k s))).
Proof.
  unfold switch_begin.
  destruct (collect _ _ b _); [|constructor]. destruct (collect _ _ a _); [|constructor].
  destruct (scan _ _ _ _ _ _ _ _); [constructor|].
  destruct (ck infos); [constructor|]. destruct (pr start stop); repeat constructor.
Qed.

Lemma switch_return_ok1 b clear k s tr tmo :
  Inv s tr -> cm_call s = WaitSwitch tmo k -> along ok1 [] tr ->
  along ok1 [] (tr ++ snd (fst (switch_return b clear k s))).
Proof.
  intros HI Hc Hok. unfold switch_return. set (s1 := set_switch _ _ _ _ _ _ _).
  destruct k as [|names]; [cbn; rewrite app_nil_r; exact Hok|].
  destruct b; [|cbn; rewrite app_nil_r; exact Hok].
  apply reload_tail_ok1; [|reflexivity|exact Hok].
  rewrite <- (app_nil_r tr). eapply inv_same; eauto; cbn; try discriminate; try (intros; apply phase_nil).
  rewrite ?app_nil_r; reflexivity.
Qed.

Lemma step_ok1 s o tr :
  Inv s tr -> along ok1 [] tr -> along ok1 [] (tr ++ snd (fst (step s o))).
Proof.
  intros HI Hok. unfold step.
  assert (Hst : along ok1 [] (tr ++ [])) by (rewrite app_nil_r; exact Hok).
  destruct o as [n env|n|a b st asap tmo now ck pr|w ok1' ok2|t p r hw| | |force now ck pr|l];
    destruct (cm_call s) as [|tmo' k] eqn:Hc; try exact Hst.
  - pose proof (load_ok1 n env s tr HI Hok). destruct (load_controller n env s) as [[? ?] ?]; auto.
  - pose proof (unload_ok1 n s tr HI Hok). destruct (unload_controller n s) as [[? ?] ?]; auto.
  - pose proof (switch_begin_prepare a b st asap tmo now ck pr KReturn s).
    destruct (switch_begin a b st asap tmo now ck pr KReturn s) as [[? ?] ?]; apply prepare_ok1; auto.
  - unfold poll. destruct (ok1' && _); [destruct (negb ok2); [|destruct (_ || _)]|];
    try exact Hst; eapply switch_return_ok1; eassumption.
  - pose proof (update_ok1 t p r hw s tr HI Hok). destruct (update t p r hw s); auto.
  - pose proof (update_ok1 t p r hw s tr HI Hok). destruct (update t p r hw s); auto.
  - destruct (controller_names s) eqn:En.
    + apply reload_tail_ok1; auto.
    + destruct (negb force); [exact Hst|].
      pose proof (switch_begin_prepare [] (s0 :: l) BEST_EFFORT false 0 now ck pr (KReload (s0 :: l)) s).
      destruct (switch_begin [] _ _ _ _ _ _ _ _ s) as [[? ?] ?]; apply prepare_ok1; auto.
Qed.

Lemma trace_ok1 ls ops : along ok1 [] (trace ls ops).
Proof.
  induction ops as [|o ops IH] using rev_ind; [exact I|].
  destruct (reach_snoc ls ops o) as [_ ->]. apply step_ok1; [apply inv_reach|exact IH].
Qed.

Lemma trace_ok1_at ls ops pre e post : trace ls ops = pre ++ e :: post -> ok1 pre e.
Proof. intros H. exact (proj1 (along_spec _ _ _) (trace_ok1 ls ops) pre e post H). Qed.

(** ** Histories in which no wait is abandoned *)

Record Inv2 (s : cm) (tr : list event) : Prop := {
  inv_start : forall i, In i (cm_start s) -> In i (map sp_inst (cm_list s));
  inv_stop : forall i, In i (cm_stop s) -> In i (map sp_inst (cm_list s));
  inv_idle : cm_call s = Idle -> cm_start s = [] /\ cm_stop s = [];
  inv_conv : forall i, phase_of tr i <> PAbsent -> phase_of tr i <> PGone -> In i (map sp_inst (cm_list s)) }.

Definition not_abandon (o : op) : Prop := match o with Poll _ true false => False | _ => True end.

Lemma by_name_in l n i : by_name l n = Some i -> In i (map sp_inst l).
Proof.
  induction l as [|c l IH]; simpl; [discriminate|]. destruct (String.eqb _ _); [intros [= <-]|]; auto.
Qed.

Lemma collect_in strict l names acc res :
  collect strict l names acc = Some res ->
  forall i, In i res -> In i acc \/ In i (map sp_inst l).
Proof.
  revert acc; induction names as [|n names IH]; intros acc; simpl.
  - intros [= <-]; auto.
  - destruct (by_name l n) eqn:E.
    + intros H i Hi. destruct (IH _ H i Hi) as [Hin|]; [|auto].
      apply in_app_iff in Hin as [|[<-|[]]]; auto. right; eapply by_name_in; eauto.
    + destruct strict; [discriminate|]. apply IH.
Qed.

Lemma update_phase_other t p r hw s tr i :
  Inv s tr ->
  (forall j, In j (cm_start s) -> In j (map sp_inst (cm_list s))) ->
  (forall j, In j (cm_stop s) -> In j (map sp_inst (cm_list s))) ->
  ~ In i (map sp_inst (cm_list s)) ->
  cm_heap (fst (update t p r hw s)) i = cm_heap s i /\
  forall c t', ~ In (EvCb i c t') (snd (update t p r hw s)).
Proof.
  intros HI H1 H2 Hi.
  apply (update_prim t p (fun h e => h i = cm_heap s i /\ forall c t', ~ In (EvCb i c t') e)
           (fun j => j <> i) (fun j => j <> i)) with (e := []).
  1-5: intros h e j Hj [Hh He];
    unfold update_request, start_request, stop_request, wait_request, abort_request;
    destruct (h j); simpl; rewrite ?app_nil_r, ?upd_other by auto; (split; [assumption|]); auto;
    intros c t' Hin; apply in_app_iff in Hin as [Hin|[Hin|[]]]; first [exact (He _ _ Hin)|congruence].
  - intros h e a b [Hh He]. split; [assumption|]. intros c t' Hin; apply in_app_iff in Hin as [Hin|[Hin|[]]]; [|discriminate].
    eapply He; eassumption.
  - intros c Hc E. subst i. apply Hi. apply in_map; exact Hc.
  - intros c Hc E. subst i. apply Hi. apply in_map; exact Hc.
  - intros j Hj ->. auto.
  - intros j Hj ->. auto.
  - split; [reflexivity|]. simpl; tauto.
Qed.

Lemma phase_no_cb tr e i : Forall cyc_ev e -> (forall c t, ~ In (EvCb i c t) e) -> phase_of (tr ++ e) i = phase_of tr i.
Proof.
  rewrite phase_app. generalize (phase_of tr i). induction e as [|x e IH]; intros p Hc Hn; simpl; [reflexivity|].
  inversion Hc; subst. rewrite IH; [|assumption|intros c t Hin; apply (Hn c t); right; exact Hin].
  destruct x as [j c t| | | | | |]; simpl in *; try contradiction; auto.
  destruct (Nat.eqb_spec i j) as [->|]; [exfalso; apply (Hn c t); auto|destruct c; reflexivity].
Qed.

Lemma inv2_update t p r hw s tr :
  Inv s tr -> Inv2 s tr -> Inv2 (fst (update t p r hw s)) (tr ++ snd (update t p r hw s)).
Proof.
  intros HI [].
  destruct (update_frame t p r hw s) as (Hl & Hn & Ha & Hb & _ & _ & _ & Hc).
  split; rewrite ?Hl, ?Ha, ?Hb, ?Hc; auto.
  intros i H1 H2. destruct (in_dec Nat.eq_dec i (map sp_inst (cm_list s))) as [|Hno]; [assumption|].
  destruct (update_phase_other t p r hw s tr i HI inv_start0 inv_stop0 Hno) as [_ Hev].
  rewrite (phase_no_cb _ _ _ (update_cyc _ _ _ _ _) Hev) in *. auto.
Qed.

Lemma inv2_neutral s s' tr e :
  Inv2 s tr -> cm_list s' = cm_list s -> Forall neutral e ->
  (forall i, In i (cm_start s') -> In i (map sp_inst (cm_list s))) ->
  (forall i, In i (cm_stop s') -> In i (map sp_inst (cm_list s))) ->
  (cm_call s' = Idle -> cm_start s' = [] /\ cm_stop s' = []) ->
  Inv2 s' (tr ++ e).
Proof.
  intros [] Hl He H1 H2 H3. split; rewrite ?Hl; auto.
  intros i. rewrite phase_neutral by assumption. apply inv_conv0.
Qed.

Lemma inv2_load n env s tr :
  Inv s tr -> Inv2 s tr -> cm_call s = Idle ->
  Inv2 (fst (fst (load_controller n env s))) (tr ++ snd (fst (load_controller n env s))).
Proof.
  intros HI H2 Hidle. unfold load_controller.
  destruct (inv_idle _ _ H2 Hidle) as [Es Et].
  assert (Hsame : Inv2 s (tr ++ [])) by (rewrite app_nil_r; exact H2).
  destruct (existsb _ _) eqn:Edup; [exact Hsame|].
  destruct (negb _); [exact Hsame|].
  destruct (le_type env) as [ty|]; [|exact Hsame].
  pose proof (construct_neutral ty 0 (cm_loaders s)) as Hneu.
  destruct (construct ty 0 (cm_loaders s)) as [c ec]; simpl in Hneu.
  assert (Hs : forall s', cm_list s' = cm_list s -> cm_start s' = [] -> cm_stop s' = [] -> Inv2 s' (tr ++ ec)).
  { intros s' E1 E2 E3. eapply inv2_neutral; eauto; rewrite ?E2, ?E3; simpl; tauto. }
  destruct c; [|apply Hs; auto].
  destruct (le_init env) as [claims| |]; [|apply Hs; auto ..].
  destruct (Hs s eq_refl Es Et) as [_ _ _ Hconv]. cbn [fst snd]. rewrite app_assoc. split; cbn.
  - rewrite Es; simpl; tauto.
  - rewrite Et; simpl; tauto.
  - auto.
  - intros i. rewrite phase_snoc; cbn. rewrite map_app, in_app_iff; cbn.
    destruct (Nat.eqb_spec i (cm_next s)) as [->|]; auto.
Qed.

Lemma inv2_unload n s tr :
  Inv s tr -> Inv2 s tr -> cm_call s = Idle ->
  Inv2 (fst (fst (unload_controller n s))) (tr ++ snd (fst (unload_controller n s))).
Proof.
  intros HI H2 Hidle. destruct (inv_idle _ _ H2 Hidle) as [Es Et].
  destruct (unload_controller n s) as [[s' e] [|]] eqn:E; cbn [fst snd].
  - destruct (unload_ok _ _ _ _ _ HI E) as (c0 & Hin & Hn & Hr & -> & -> & Hf). rewrite Hf.
    split; cbn; rewrite ?Es, ?Et; simpl; try tauto.
    intros i. rewrite phase_snoc; cbn. destruct (Nat.eqb_spec i (sp_inst c0)); [congruence|].
    intros A B. pose proof (inv_conv _ _ H2 i A B) as Hi. apply in_map_iff in Hi as (c & <- & Hc).
    apply in_map, filter_In. split; [assumption|]. destruct (Nat.eqb_spec (sp_inst c) (sp_inst c0)); [contradiction|reflexivity].
  - destruct (unload_fail _ _ _ _ E) as [-> ->]. rewrite app_nil_r; exact H2.
Qed.

Lemma inv2_unload_all names s tr :
  Inv s tr -> Inv2 s tr -> cm_call s = Idle ->
  Inv2 (fst (fst (unload_all names s))) (tr ++ snd (fst (unload_all names s))).
Proof.
  revert s tr; induction names as [|n names IH]; intros s tr HI H2 Hc; simpl; [rewrite app_nil_r; auto|].
  pose proof (inv2_unload n s tr HI H2 Hc) as A. pose proof (inv_unload n s tr HI Hc) as B.
  pose proof (unload_call n s) as C.
  destruct (unload_controller n s) as [[s1 e1] ok]; cbn [fst snd] in *.
  destruct ok; [|exact A].
  specialize (IH s1 (tr ++ e1) B A (eq_trans C Hc)).
  destruct (unload_all names s1) as [[s2 e2] ok2]; cbn [fst snd] in *. rewrite app_assoc; exact IH.
Qed.

Lemma inv2_reload_tail names s tr :
  Inv s tr -> Inv2 s tr -> cm_call s = Idle ->
  Inv2 (fst (fst (reload_tail names s))) (tr ++ snd (fst (reload_tail names s))).
Proof.
  intros HI H2 Hc. unfold reload_tail.
  pose proof (inv2_unload_all names s tr HI H2 Hc) as A.
  destruct (inv_unload_all names s tr HI Hc) as [_ C].
  destruct (unload_all names s) as [[s1 e1] ok]; cbn [fst snd] in *.
  destruct ok; [|exact A].
  destruct (cm_list s1) eqn:El; cbn [fst snd]; [|exact A].
  rewrite app_assoc. eapply inv2_neutral; eauto; try apply A. apply reload_events_neutral.
Qed.

Lemma inv2_switch_begin a b st asap tmo now ck pr k s tr :
  Inv2 s tr -> cm_call s = Idle ->
  Inv2 (fst (fst (switch_begin a b st asap tmo now ck pr k s)))
       (tr ++ snd (fst (switch_begin a b st asap tmo now ck pr k s))).
Proof.
  intros H2 Hc. destruct (switch_begin_frame a b st asap tmo now ck pr k s) as (Hl & _ & _ & _ & Hn & _).
  destruct (inv_idle _ _ H2 Hc) as [Es Et].
  eapply inv2_neutral; eauto; clear Hl Hn; unfold switch_begin; rewrite ?Es, ?Et;
  (destruct (collect _ _ b _) as [stopr|] eqn:E1; [|cbn; tauto]);
  (destruct (collect _ _ a _) as [startr|] eqn:E2; [|cbn; tauto]);
  (destruct (scan _ _ _ _ _ _ _ _); [cbn; tauto|]);
  (destruct (ck infos); [cbn; tauto|]); (destruct (pr start stop); cbn; [|tauto]).
  - intros i Hi. destruct (collect_in _ _ _ _ _ E2 i Hi) as [[]|]; assumption.
  - intros i Hi. destruct (collect_in _ _ _ _ _ E1 i Hi) as [[]|]; assumption.
  - discriminate.
Qed.

Lemma inv2_step s o tr :
  not_abandon o -> Inv s tr -> Inv2 s tr -> Inv2 (fst (fst (step s o))) (tr ++ snd (fst (step s o))).
Proof.
  intros Hna HI H2. unfold step.
  assert (Hst : Inv2 s (tr ++ [])) by (rewrite app_nil_r; exact H2).
  assert (Hret : forall b k tmo, cm_call s = WaitSwitch tmo k ->
            Inv2 (fst (fst (switch_return b true k s))) (tr ++ snd (fst (switch_return b true k s)))).
  { intros b k tmo Hc. unfold switch_return. cbv zeta iota. set (s1 := set_switch _ _ _ _ _ _ _).
    assert (A : Inv2 s1 tr).
    { rewrite <- (app_nil_r tr). eapply inv2_neutral; eauto; cbn; tauto. }
    assert (B : Inv s1 tr).
    { rewrite <- (app_nil_r tr). eapply inv_same; eauto; cbn; try discriminate; try (intros; apply phase_nil).
      rewrite ?app_nil_r; reflexivity. }
    destruct k as [|names]; [cbn; rewrite app_nil_r; exact A|].
    destruct b; [|cbn; rewrite app_nil_r; exact A]. apply inv2_reload_tail; auto. }
  destruct o as [n env|n|a b st asap tmo now ck pr|w ok1' ok2|t p r hw| | |force now ck pr|l];
    destruct (cm_call s) as [|tmo' k] eqn:Hc; try exact Hst.
  - pose proof (inv2_load n env s tr HI H2 Hc). destruct (load_controller n env s) as [[? ?] ?]; auto.
  - pose proof (inv2_unload n s tr HI H2 Hc). destruct (unload_controller n s) as [[? ?] ?]; auto.
  - pose proof (inv2_switch_begin a b st asap tmo now ck pr KReturn s tr H2 Hc).
    destruct (switch_begin a b st asap tmo now ck pr KReturn s) as [[? ?] ?]; auto.
  - unfold poll. destruct (ok1' && _) eqn:E1; [destruct ok2; cbn [negb]; [destruct (_ || _)|]|].
    + exact Hst.
    + eapply Hret; reflexivity.
    + apply andb_true_iff in E1 as [-> _]. destruct Hna.
    + eapply Hret; reflexivity.
  - pose proof (inv2_update t p r hw s tr HI H2). destruct (update t p r hw s); auto.
  - pose proof (inv2_update t p r hw s tr HI H2). destruct (update t p r hw s); auto.
  - destruct (controller_names s) eqn:En.
    + apply inv2_reload_tail; auto.
    + destruct (negb force); [exact Hst|].
      pose proof (inv2_switch_begin [] (s0 :: l) BEST_EFFORT false 0 now ck pr (KReload (s0 :: l)) s tr H2 Hc).
      destruct (switch_begin [] _ _ _ _ _ _ _ _ s) as [[? ?] ?]; auto.
  - cbn. rewrite app_nil_r. destruct H2; split; cbn; auto.
  - cbn. rewrite app_nil_r. destruct H2; split; cbn; auto.
Qed.

Lemma no_abandoned_app ops o : no_abandoned (ops ++ [o]) <-> no_abandoned ops /\ not_abandon o.
Proof.
  unfold no_abandoned, not_abandon. rewrite Forall_app. split.
  - intros [A B]; split; [exact A|]. inversion B; assumption.
  - intros [A B]; split; [exact A|]. constructor; auto.
Qed.

Lemma inv2_reach ls ops : no_abandoned ops -> Inv2 (reach ls ops) (trace ls ops).
Proof.
  induction ops as [|o ops IH] using rev_ind; intros H.
  - split; cbn; tauto.
  - apply no_abandoned_app in H as [H1 H2]. destruct (reach_snoc ls ops o) as [-> ->].
    apply inv2_step; auto. apply inv_reach.
Qed.

(** Every callback concerns a loaded controller. *)
Definition ok2 (past : list event) (e : event) : Prop :=
  match e with EvCb i _ _ => In i (map fst (loaded past)) | _ => True end.

Lemma ok2_other tr e : Forall (fun x => match x with EvCb _ _ _ => False | _ => True end) e ->
  along ok2 [] tr -> along ok2 [] (tr ++ e).
Proof.
  intros He Hok. apply along_app; split; [assumption|]. simpl.
  generalize tr as x; induction He as [|y e Hy He IH]; intros x; simpl; [auto|].
  split; [|apply IH]. destruct y; simpl; auto; contradiction.
Qed.

Definition no_cb (e : event) : Prop := match e with EvCb _ _ _ => False | _ => True end.

Lemma unload_no_cb n s : Forall no_cb (snd (fst (unload_controller n s))).
Proof.
  unfold unload_controller. destruct (unload_scan _ _ _) as [[to [|]]|]; try constructor. cbn.
  unfold dropped. induction (filter _ _); simpl; constructor; simpl; auto.
Qed.
Lemma unload_all_no_cb names s : Forall no_cb (snd (fst (unload_all names s))).
Proof.
  revert s; induction names as [|n names IH]; intros s; simpl; [constructor|].
  pose proof (unload_no_cb n s). destruct (unload_controller n s) as [[s1 e1] ok]; cbn [fst snd] in *.
  destruct ok; [|assumption]. specialize (IH s1). destruct (unload_all names s1) as [[s2 e2] ok2']; cbn [fst snd] in *.
  apply Forall_app; auto.
Qed.
Lemma reload_tail_no_cb names s : Forall no_cb (snd (fst (reload_tail names s))).
Proof.
  unfold reload_tail. pose proof (unload_all_no_cb names s).
  destruct (unload_all names s) as [[s1 e1] ok]; cbn [fst snd] in *.
  destruct ok; [|assumption]. destruct (cm_list s1); cbn [fst snd]; [|assumption].
  apply Forall_app; split; [assumption|]. generalize 0%nat. induction (cm_loaders s1); intros k; simpl; constructor; simpl; auto.
Qed.
Lemma load_no_cb n env s : Forall no_cb (snd (fst (load_controller n env s))).
Proof.
  unfold load_controller.
  destruct (existsb _ _); [constructor|]. destruct (negb _); [constructor|].
  destruct (le_type env) as [ty|]; [|constructor].
  pose proof (construct_create ty 0 (cm_loaders s)) as Hc.
  destruct (construct ty 0 (cm_loaders s)) as [c ec]; simpl in Hc.
  assert (X : Forall no_cb ec) by (eapply Forall_impl; [|exact Hc]; intros []; simpl; auto; discriminate).
  destruct c; [|exact X]. destruct (le_init env); cbn [fst snd]; auto.
  apply Forall_app; split; [assumption|]. repeat constructor.
Qed.
Lemma switch_begin_no_cb a b st asap tmo now ck pr k s :
  Forall no_cb (snd (fst (switch_begin a b st asap tmo now ck pr k s))).
Proof. eapply Forall_impl; [|apply switch_begin_prepare]. intros []; simpl; auto. Qed.
Lemma switch_return_no_cb b clear k s : Forall no_cb (snd (fst (switch_return b clear k s))).
Proof.
  unfold switch_return. destruct k; [constructor|]. destruct b; [apply reload_tail_no_cb|constructor].
Qed.

(** Only control cycles invoke callbacks. *)
Lemma step_no_cb s o : (forall t p r hw, o <> Cycle t p r hw) -> Forall no_cb (snd (fst (step s o))).
Proof.
  intros Ho. unfold step.
  destruct o as [n env|n|a b st asap tmo now ck pr|w ok1' ok2|t p r hw| | |force now ck pr|l];
    destruct (cm_call s) as [|tmo' k] eqn:Hc; try constructor.
  - pose proof (load_no_cb n env s). destruct (load_controller n env s) as [[? ?] ?]; auto.
  - pose proof (unload_no_cb n s). destruct (unload_controller n s) as [[? ?] ?]; auto.
  - pose proof (switch_begin_no_cb a b st asap tmo now ck pr KReturn s).
    destruct (switch_begin a b st asap tmo now ck pr KReturn s) as [[? ?] ?]; auto.
  - unfold poll. destruct (ok1' && _); [destruct (negb ok2); [|destruct (_ || _)]|];
    try apply switch_return_no_cb. constructor.
  - exfalso; eapply Ho; reflexivity.
  - exfalso; eapply Ho; reflexivity.
  - destruct (controller_names s) eqn:En; [apply reload_tail_no_cb|].
    destruct (negb force); [constructor|].
    pose proof (switch_begin_no_cb [] (s0 :: l) BEST_EFFORT false 0 now ck pr (KReload (s0 :: l)) s).
    destruct (switch_begin [] _ _ _ _ _ _ _ _ s) as [[? ?] ?]; auto.
Qed.

Lemma update_ok2 t p r hw s tr :
  Inv s tr -> Inv2 s tr -> along ok2 [] tr -> along ok2 [] (tr ++ snd (update t p r hw s)).
Proof.
  intros HI H2 Hok.
  set (L := fun i => In i (map sp_inst (cm_list s))).
  assert (HL : forall i, L i -> In i (map fst (loaded tr))).
  { intros i Hi. apply in_map_iff in Hi as (c & <- & Hc).
    apply in_map_iff. exists (sp_inst c, sp_info c); split; [reflexivity|]. eapply in_loaded; eauto. }
  apply (update_prim t p (fun _ e => loaded e = loaded tr /\ along ok2 [] e) L L) with (e := tr);
  try (intros c Hc; apply in_map; exact Hc); try apply H2; auto;
  intros; unfold update_request, start_request, stop_request, wait_request, abort_request;
  try (destruct (h i)); simpl; rewrite ?app_nil_r; auto;
  match goal with H : _ /\ _ |- _ => destruct H as [E1 E2] end;
  (split; [rewrite loaded_app; simpl; exact E1|]); apply along_snoc; (split; [exact E2|]); simpl; rewrite ?E1; auto.
Qed.

Lemma trace_ok2 ls ops : no_abandoned ops -> along ok2 [] (trace ls ops).
Proof.
  induction ops as [|o ops IH] using rev_ind; intros H; [exact I|].
  apply no_abandoned_app in H as [H1 H2]. destruct (reach_snoc ls ops o) as [_ ->].
  specialize (IH H1). pose proof (inv_reach ls ops) as HI. pose proof (inv2_reach ls ops H1) as HI2.
  destruct o; try (apply ok2_other; [|exact IH]; apply step_no_cb; discriminate).
  unfold step. pose proof (update_ok2 time period reset hw _ _ HI HI2 IH).
  destruct (cm_call (reach ls ops)); destruct (update time period reset hw (reach ls ops)); auto.
Qed.
