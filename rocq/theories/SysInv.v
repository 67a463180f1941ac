(** Which controllers of the manager belong to which requests. *)
From Verif Require Import HwTypes Lifecycle SMap ConflictModel ConflictProofs CMModel CMSpec CMInv CMTrace CMCycle CMSwitch CMHooks CMLoad CMFinal
  HwModel HwSpec HwProofs HwMgr HwBuilt HwInit HwClaims CombModel CombSpec SysModel SysSpec SysProofs.
Open Scope Z_scope.
Local Open Scope list_scope.

Definition no_load (e : event) : Prop := match e with EvLoaded _ _ => False | _ => True end.

Lemma unload_next n s : cm_next (fst (fst (unload_controller n s))) = cm_next s.
Proof. unfold unload_controller. destruct (unload_scan _ _ _) as [[? [|]]|]; reflexivity. Qed.
Lemma unload_all_next names : forall s, cm_next (fst (fst (unload_all names s))) = cm_next s.
Proof.
  induction names as [|n names IH]; intros s; [reflexivity|]. cbn [unload_all]. pose proof (unload_next n s) as E.
  destruct (unload_controller n s) as [[s1 e1] [|]]; [|exact E]. specialize (IH s1). destruct (unload_all names s1) as [[s2 e2] x]. cbn [fst snd] in *. congruence.
Qed.
Lemma reload_tail_next names s : cm_next (fst (fst (reload_tail names s))) = cm_next s.
Proof.
  unfold reload_tail. pose proof (unload_all_next names s) as E. destruct (unload_all names s) as [[s1 e1] [|]]; [|exact E]. destruct (cm_list s1); exact E.
Qed.
Lemma switch_return_next b clear k s : cm_next (fst (fst (switch_return b clear k s))) = cm_next s.
Proof. unfold switch_return. destruct k as [|names]; [reflexivity|]. destruct b; [|reflexivity]. rewrite reload_tail_next. reflexivity. Qed.
Lemma switch_begin_next a b st asap tmo now ck pr k s : cm_next (fst (fst (switch_begin a b st asap tmo now ck pr k s))) = cm_next s.
Proof.
  unfold switch_begin. destruct (collect _ _ b _); [|reflexivity]. destruct (collect _ _ a _); [|reflexivity].
  destruct (scan _ _ _ _ _ _ _ _); [reflexivity|]. destruct (ck infos); [reflexivity|]. destruct (pr start stop); reflexivity.
Qed.
Lemma quiet_no_load e : Forall quiet_ev e -> Forall no_load e.
Proof. intros H. eapply Forall_impl; [|exact H]. intros []; cbn; tauto. Qed.

(** Nothing but a load request loads. *)
Lemma step_no_load s o : (forall n env, o <> Load n env) -> Forall no_load (snd (fst (step s o))) /\ cm_next (fst (fst (step s o))) = cm_next s.
Proof.
  intros Ho. destruct o as [n env|n|a b z asap tmo now ck pr|w o1 o2|t p r hw| | |force now ck pr|l]; [exfalso; eapply Ho; reflexivity|..];
    unfold step; destruct (cm_call s) as [|tmo' k] eqn:Hc; try (split; [constructor|reflexivity]).
  - pose proof (unload_frame n s) as F. pose proof (unload_next n s) as N. destruct (unload_controller n s) as [[s1 e1] x]. cbn [fst snd] in *.
    split; [|exact N]. destruct F as (_ & _ & _ & _ & _ & _ & _ & _ & F). eapply Forall_impl; [|exact F]. intros []; cbn; tauto.
  - pose proof (switch_begin_prepare a b z asap tmo now ck pr KReturn s) as F. pose proof (switch_begin_next a b z asap tmo now ck pr KReturn s) as N.
    destruct (switch_begin _ _ _ _ _ _ _ _ _ _) as [[s1 e1] x]. cbn [fst snd] in *. split; [|exact N]. eapply Forall_impl; [|exact F]. intros []; cbn; tauto.
  - unfold poll. destruct (o1 && _); [destruct (negb o2); [|destruct (_ || _)]|]; try (split; [constructor|reflexivity]);
    (match goal with |- context[switch_return ?b ?c k s] => pose proof (switch_return_frame b c k s) as F; pose proof (switch_return_next b c k s) as N end;
     split; [apply quiet_no_load; apply F|exact N]).
  - pose proof (update_cyc t p r hw s) as F. destruct (update_frame t p r hw s) as (_ & N & _). destruct (update t p r hw s) as [s1 e1]. cbn [fst snd] in *.
    split; [|exact N]. eapply Forall_impl; [|exact F]. intros []; cbn; tauto.
  - pose proof (update_cyc t p r hw s) as F. destruct (update_frame t p r hw s) as (_ & N & _). destruct (update t p r hw s) as [s1 e1]. cbn [fst snd] in *.
    split; [|exact N]. eapply Forall_impl; [|exact F]. intros []; cbn; tauto.
  - destruct (controller_names s) as [|x l] eqn:E.
    + split; [apply quiet_no_load; apply (reload_tail_frame [] s)|apply reload_tail_next].
    + destruct (negb force); [split; [constructor|reflexivity]|].
      pose proof (switch_begin_prepare [] (x :: l) BEST_EFFORT false 0 now ck pr (KReload (x :: l)) s) as F.
      pose proof (switch_begin_next [] (x :: l) BEST_EFFORT false 0 now ck pr (KReload (x :: l)) s) as N.
      destruct (switch_begin _ _ _ _ _ _ _ _ _ _) as [[s1 e1] y]. cbn [fst snd] in *. split; [|exact N]. eapply Forall_impl; [|exact F]. intros []; cbn; tauto.
Qed.

(** A load request: whether it gets to initRequest, and what it leaves. *)
Lemma step_load s n nh ty r : let x := step s (Load n (mkEnv nh ty (seen_init r))) in
  if gets_to_init s n nh ty
  then cm_next (fst (fst x)) = S (cm_next s) /\
       match r with
       | OutOk cl => exists t ec, ty = Some t /\ Forall (fun e => is_create e = true) ec /\ snd (fst x) = ec ++ [EvLoaded (cm_next s) (mkInfo n t cl)]
       | _ => Forall (fun e => is_create e = true) (snd (fst x))
       end
  else cm_next (fst (fst x)) = cm_next s /\ Forall (fun e => is_create e = true) (snd (fst x)).
Proof.
  cbv zeta. unfold step, gets_to_init. destruct (cm_call s); [|cbn; auto]. unfold load_controller. cbn [le_nh_ok le_type le_init].
  destruct (existsb _ _); cbn [negb andb]; [cbn; auto|]. destruct nh; cbn [negb andb]; [|cbn; auto]. destruct ty as [t|]; [|cbn; auto].
  pose proof (construct_create t 0 (cm_loaders s)) as Hc. destruct (construct t 0 (cm_loaders s)) as [c ec]. cbn [fst snd] in *.
  destruct c; cbn [fst snd]; [|auto]. destruct r as [cl| |]; cbn [seen_init fst snd cm_next]; (split; [reflexivity|]); auto. eauto 6.
Qed.

Lemma in_expand_inited parts ans es i q r : ~ In (Inited i q r) (flat_map (expand parts ans) es).
Proof.
  intros H. apply in_flat_map in H as (e & _ & [H|H]); [discriminate H|]. apply in_map_iff in H as (c & H & _). discriminate H.
Qed.

Section Inv.
  Variable kd : string -> tkind.
  Variable ls : list loader.
  Variable rb : robot.
  Hypothesis Hk : claiming_managed kd.
  Hypothesis Hb : built kd (rb_world rb) (rb_mgr rb).

  Record SInv (s : sys) (tr : list sysev) : Prop := {
    si_built : built kd (rb_world (sy_rb s)) (rb_mgr (sy_rb s));
    si_world : world_le (rb_world rb) (rb_world (sy_rb s));
    si_regs : same_regs (rb_mgr rb) (rb_mgr (sy_rb s));
    si_lt : forall i q r, In (Inited i q r) tr -> (i < cm_next (sy_cm s))%nat;
    si_one : forall i q r q' r', In (Inited i q r) tr -> In (Inited i q' r') tr -> q = q' /\ r = r';
    si_claims : forall i q cl, In (Inited i q (OutOk cl)) tr ->
      (forall f, In f cl -> increasing (ir_res f)) /\ (forall n, (exists f, In f cl /\ In n (ir_res f)) <-> commands kd (rb_world rb) (rb_mgr rb) q n) /\
      forall n, commands kd (rb_world rb) (rb_mgr rb) q n ->
        exists f, In f cl /\ In n (ir_res f) /\ tk_claiming (kd (ir_iface f)) = true /\ provides (rb_world rb) (rb_mgr rb) (ir_iface f) n;
    si_from : forall i info, In (EvLoaded i info) (of_manager tr) -> exists q, In (Inited i q (OutOk (ci_claims info))) tr;
    si_to : forall i q cl, In (Inited i q (OutOk cl)) tr -> exists info, In (EvLoaded i info) (of_manager tr) /\ ci_claims info = cl }.

  Lemma sinv_keep s tr c ev rb' : SInv s tr -> rb' = sy_rb s -> cm_next c = cm_next (sy_cm s) \/ cm_next c = S (cm_next (sy_cm s)) ->
    (forall i q r, ~ In (Inited i q r) ev) -> Forall no_load (of_manager ev) -> SInv (mkSys c rb') (tr ++ ev).
  Proof.
    intros [] -> Hn Hi Hl.
    assert (Hin : forall i q r, In (Inited i q r) (tr ++ ev) -> In (Inited i q r) tr).
    { intros i q r H. apply in_app_or in H as [H|H]; [exact H|destruct (Hi _ _ _ H)]. }
    split; cbn [sy_cm sy_rb]; auto.
    - intros i q r H. specialize (si_lt0 i q r (Hin _ _ _ H)). lia.
    - intros i q r q' r' A B. eapply si_one0; eauto.
    - intros i q cl H. eauto.
    - intros i info H. rewrite of_manager_app in H. apply in_app_or in H as [H|H].
      + destruct (si_from0 _ _ H) as [q Hq]. exists q. apply in_or_app. auto.
      + rewrite Forall_forall in Hl. destruct (Hl _ H).
    - intros i q cl H. destruct (si_to0 _ _ _ (Hin _ _ _ H)) as (info & A & B). exists info. split; [|exact B]. rewrite of_manager_app. apply in_or_app. auto.
  Qed.

  Lemma sinv_step s tr o : SInv s tr -> SInv (fst (fst (sys_step kd s o))) (tr ++ snd (fst (sys_step kd s o))).
  Proof.
    intros HI.
    assert (Hother : (forall n nh ty q, o <> SLoad n nh ty q) -> SInv (fst (fst (sys_step kd s o))) (tr ++ snd (fst (sys_step kd s o)))).
    { intros Ho. assert (Hc : forall n env, cm_op kd s o <> Load n env) by (intros n env; destruct o; cbn; try discriminate; exfalso; eapply Ho; reflexivity).
      destruct (step_no_load (sy_cm s) (cm_op kd s o) Hc) as [F N]. unfold sys_step. destruct (step (sy_cm s) (cm_op kd s o)) as [[c e] a]. cbn [fst snd] in F, N.
      destruct o as [n nh ty q|n|a0 b z asap tmo now ans|f now ans|w k1 k2|t p r st| | |l]; [exfalso; eapply Ho; reflexivity|..]; cbn [fst snd];
        (apply (sinv_keep s); [exact HI|reflexivity|left; exact N|intros i q0 r0; apply in_expand_inited|rewrite of_manager_expand; exact F]). }
    destruct o as [n nh ty q|n|a0 b z asap tmo now ans|f now ans|w k1 k2|t p r st| | |l]; try (apply Hother; discriminate).
    clear Hother. unfold sys_step. cbn [cm_op]. destruct (init_on kd (sy_rb s) q) as [rb' r] eqn:Ei. cbn [snd].
    pose proof (step_load (sy_cm s) n nh ty r) as L. cbv zeta in L.
    destruct (step (sy_cm s) (Load n (mkEnv nh ty (seen_init r)))) as [[c e] a]. cbn [fst snd] in L.
    destruct (gets_to_init (sy_cm s) n nh ty) eqn:Eg; cbn [fst snd].
    2:{ destruct L as [N F]. apply (sinv_keep s); [exact HI|reflexivity|left; exact N|intros i q0 r0; apply in_expand_inited|].
        rewrite of_manager_expand. eapply Forall_impl; [|exact F]. intros []; cbn; auto; discriminate. }
    destruct L as [N L]. destruct HI. destruct (init_on_world kd (sy_rb s) q rb' r si_built0 Ei) as (B1 & B2 & B3 & B4).
    set (ev := flat_map (expand (rb_parts (sy_rb s)) (answers_of (SLoad n nh ty q))) e).
    assert (Eev : of_manager ev = e) by apply of_manager_expand.
    assert (Hin : forall i q0 r0, In (Inited i q0 r0) (tr ++ Inited (cm_next (sy_cm s)) q r :: ev) ->
              In (Inited i q0 r0) tr \/ i = cm_next (sy_cm s) /\ q0 = q /\ r0 = r).
    { intros i q0 r0 H. apply in_app_or in H as [H|[H|H]]; [auto|injection H as <- <- <-; auto|]. exfalso. revert H. apply in_expand_inited. }
    assert (Hom : forall x, In x (of_manager (tr ++ Inited (cm_next (sy_cm s)) q r :: ev)) <-> In x (of_manager tr) \/ In x e).
    { intros x. rewrite of_manager_app. cbn [of_manager flat_map]. fold (of_manager ev). cbn [app]. rewrite Eev, in_app_iff. tauto. }
    split; cbn [sy_cm sy_rb]; auto.
    - eapply world_le_trans; eauto.
    - eapply same_regs_trans; eauto.
    - intros i q0 r0 H. rewrite N. destruct (Hin _ _ _ H) as [H'|(-> & _)]; [specialize (si_lt0 _ _ _ H'); lia|lia].
    - intros i q1 r1 q2 r2 H1 H2. destruct (Hin _ _ _ H1) as [A1|(E1 & E2 & E3)], (Hin _ _ _ H2) as [A2|(F1 & F2 & F3)].
      + eapply si_one0; eauto.
      + specialize (si_lt0 _ _ _ A1). lia.
      + specialize (si_lt0 _ _ _ A2). lia.
      + split; congruence.
    - intros i q0 cl H. destruct (Hin _ _ _ H) as [A|(-> & -> & <-)]; [eauto|]. destruct (init_on_claims _ _ _ _ _ Hk si_built0 Ei) as (C1 & C2 & C3).
      assert (Hcs : forall q n, commands kd (rb_world (sy_rb s)) (rb_mgr (sy_rb s)) q n <-> commands kd (rb_world rb) (rb_mgr rb) q n) by (intros; apply commands_same; auto).
      split; [exact C1|]. split; [intros m; rewrite C2; apply Hcs|]. intros m Hm. apply Hcs in Hm. destruct (C3 m Hm) as (f & D1 & D2 & D3 & D4).
      exists f. split; [exact D1|]. split; [exact D2|]. split; [exact D3|]. rewrite <- (provides_same kd _ _ _ _ Hb si_world0 si_regs0). exact D4.
    - intros i info H. apply Hom in H as [H|H].
      + destruct (si_from0 _ _ H) as [q0 H0]. exists q0. apply in_or_app. auto.
      + destruct r as [cl| |]; [|rewrite Forall_forall in L; specialize (L _ H); discriminate L..].
        destruct L as (t & ec & -> & Hec & ->). apply in_app_or in H as [H|[H|[]]]; [rewrite Forall_forall in Hec; specialize (Hec _ H); discriminate Hec|].
        injection H as <- <-. exists q. apply in_or_app. right. left. reflexivity.
    - intros i q0 cl H. destruct (Hin _ _ _ H) as [A|(-> & -> & <-)].
      + destruct (si_to0 _ _ _ A) as (info & A1 & A2). exists info. split; [apply Hom; auto|exact A2].
      + destruct L as (t & ec & -> & Hec & ->). exists (mkInfo n t cl). split; [|reflexivity]. apply Hom. right. apply in_or_app. right. left. reflexivity.
  Qed.

  Lemma sinv_reach ops : SInv (sys_reach kd ls rb ops) (sys_trace kd ls rb ops).
  Proof.
    induction ops as [|o ops IH] using rev_ind.
    - split; cbn; auto; try contradiction; [apply world_le_refl|apply same_regs_refl].
    - destruct (sys_reach_snoc kd ls rb ops o) as [-> ->]. apply sinv_step. exact IH.
  Qed.
End Inv.
