(** Property theorems: the interleaved controller manager behaves like the sequential one. *)
From Verif Require Import HwTypes Lifecycle CMModel CMSpec CMInv CMCycle CMLife CMFinal FineModel FineSpec FineBase FineRel FineLoop FineManage FineLock FineSwitch FineMain.
Open Scope string_scope.
Open Scope list_scope.

(** * C124 *)
(** Whatever the interleaving, what is observed is a history of the atomic object: every control cycle and
    every service call takes effect at one moment between its call and its return. *)
Theorem C124_takes_effect_at_one_moment ls acts s tr :
  calm (f_init ls) acts -> fine_run (f_init ls) acts = Some (s, tr) -> exists o, history (obj_init ls) tr o.
Proof. intros C E. destruct (refines acts _ _ _ _ (init_rel ls) C E) as (o & H & _). eauto. Qed.
Print Assumptions C124_takes_effect_at_one_moment.

(** No vector is modified while the other thread iterates over it. *)
Theorem C124_no_undefined_behaviour ls acts s tr :
  calm (f_init ls) acts -> fine_run (f_init ls) acts = Some (s, tr) -> ~ In Undef tr.
Proof. intros C E. destruct (C124_takes_effect_at_one_moment _ _ _ _ C E) as [o H]. eapply no_undef; exact H. Qed.
Print Assumptions C124_no_undefined_behaviour.

(** When no call is in progress, one sequence of operations of the sequential manager gives the same cycles with the
    same calls, the same service calls with the same replies and calls, and the same list and states of controllers. *)
Theorem C124_one_sequence ls acts s tr :
  calm (f_init ls) acts -> fine_run (f_init ls) acts = Some (s, tr) -> f_rt s = RtIdle -> f_nrt s = NIdle ->
  exists ops, let out := outcomes (cm_init ls) ops in
    combine (loop_calls tr) (loop_returns tr) = seq_cycles out /\ List.length (loop_calls tr) = List.length (loop_returns tr) /\
    srv_calls tr = seq_calls out /\ srv_returns tr = seq_replies [] out /\ registered tr = seq_registered out /\
    f_list s (f_cur s) = cm_list (reach ls ops) /\ (forall i, cm_heap (f_m s) i = cm_heap (reach ls ops) i).
Proof.
  intros C E E1 E2. destruct (refines acts _ _ _ _ (init_rel ls) C E) as (o & H & HR).
  destruct (quiescent _ _ HR E1 E2) as (Q1 & Q2 & Q3 & Q4 & _). destruct (history_ops _ _ _ H I) as (ops & H0 & H1 & H2 & H3 & H4 & H5 & _).
  exists ops. cbv zeta. rewrite Q1, Q2 in *. cbn [obj_init o_cm o_loop o_srv p_call p_ret p_srv p_wait p_reply app] in *. rewrite app_nil_r in *.
  change (fst (run (cm_init ls) ops)) with (reach ls ops) in H0. rewrite H0 in Q3, Q4.
  split; [|split; [|repeat split; try congruence; intros i; symmetry; apply Q4]].
  - rewrite H1, <- H2. clear. induction (seq_cycles (outcomes (cm_init ls) ops)) as [|[c e] l IH]; [reflexivity|]. cbn. now rewrite IH.
  - rewrite H1, <- H2. now rewrite !map_length.
Qed.
Print Assumptions C124_one_sequence.

Definition c0 (t : Z) (r : bool) : cyc := mkCyc t 1 r hwD.
(** A first cycle; "a" is loaded; "b" is loaded while a cycle runs over the old list; "a" is started, with the request handed
    over in the middle of a cycle; the controllers are listed during a reset cycle; "b" is unloaded during another. *)
Definition overlap : list fact :=
  [FCycle (c0 1 false); FPublish; FLoop;
   FCall (Load "a" (env0 "T" "j1")); FPoll 0 true true; FStep; FStep; FStep; FStep; FStep; FPoll 0 true true;
   FCycle (c0 2 false); FPublish; FPoll 0 true true; FStep;
   FCall (Load "b" (env0 "N" "j2")); FPoll 0 true true; FStep; FLoop; FStep; FStep; FStep; FStep; FStep; FPoll 0 true true; FLoop; FPoll 0 true true;
   FCycle (c0 3 false); FPublish; FPoll 0 true true; FStep; FLoop;
   FCall (sw0 ["a"] [] STRICT false); FStep; FLoop; FStep; FPoll 0 true true; FLoop; FLoop; FLoop; FLoop; FPoll 0 true true; FLoop; FPoll 0 true true;
   FCycle (c0 4 true); FPublish; FCall ListControllers; FStep; FLoop; FLoop; FStep; FLoop; FStep; FLoop; FLoop;
   FCall (Unload "b"); FPoll 0 true true; FStep; FStep; FStep; FReg (mkLoader "more" []); FStep; FLoop; FStep; FPoll 0 true true; FLoop;
   FCycle (c0 5 false); FPublish; FPoll 0 true true; FStep; FLoop; FLoop].
Example C124_nonvacuous : calm (f_init ld0) overlap /\ exists s, fine_run (f_init ld0) overlap = Some (s,
  let a := mkInfo "a" "T" [mkIface "pos" ["j1"]] in let b := mkInfo "b" "N" [mkIface "pos" ["j2"]] in
  [LCall (c0 1 false); LRet [];
   SCall (Load "a" (env0 "T" "j1")); LCall (c0 2 false); SRet (ABool true) [EvCreate 0; EvLoaded 0 a];
   SCall (Load "b" (env0 "N" "j2")); LRet []; LCall (c0 3 false); SRet (ABool true) [EvCreate 0; EvCreate 1; EvLoaded 1 b];
   SCall (sw0 ["a"] [] STRICT false); LRet [EvDo [a] []; EvCb 0 CbStarting 3]; SRet (ABool true) [EvPrepare [a] [] true];
   LCall (c0 4 true); SCall ListControllers;
   SRet (AList [mkEntry "a" "T" [mkIface "pos" ["j1"]] "running"; mkEntry "b" "N" [mkIface "pos" ["j2"]] "initialized"]) [];
   SCall (Unload "b"); Reg (mkLoader "more" []); LRet [EvCb 0 CbStopping 4; EvCb 0 CbStarting 4; EvCb 0 (CbUpdate 1) 4];
   LCall (c0 5 false); SRet (ABool true) [EvDestroyed 1]; LRet [EvCb 0 (CbUpdate 1) 5]]) /\ f_rt s = RtIdle /\ f_nrt s = NIdle.
Proof. split; [vm_compute; auto|]. eexists. split; [vm_compute; reflexivity|split; reflexivity]. Qed.

(** What may be observed is restricted: a reply that no moment explains is not allowed. *)
Example C124_excludes : forall o, ~ history (obj_init ld0) [SCall (Unload "a"); LCall (c0 1 false); SRet (ABool true) []] o.
Proof. intros o H. apply history_may in H. vm_compute in H. intuition discriminate. Qed.

(** Each of the four conditions is needed: without it there are executions that no history of the atomic object explains. *)
Definition load_a : list fact := [FCall (Load "a" (env0 "T" "j1")); FPoll 0 true true; FStep; FStep; FStep; FStep; FStep].
Definition load_b : list fact := [FCall (Load "b" (env0 "N" "j2")); FPoll 0 true true; FStep; FStep; FStep; FStep; FStep; FStep].
Definition first_cycle : list fact := [FCycle (c0 1 false); FPublish; FLoop].
Definition a_running : list fact :=
  load_a ++ [FPoll 0 true true; FStep] ++ first_cycle ++ [FCall (sw0 ["a"] [] STRICT false); FStep; FStep] ++
  [FLoop; FLoop; FLoop; FLoop; FLoop; FPoll 0 true true].
Theorem C124_first_cycle_refuted : exists acts s tr, fine_run (f_init ld0) acts = Some (s, tr) /\
  throughout ros_up (f_init ld0) acts = true /\ throughout in_time (f_init ld0) acts = true /\ throughout no_peeping (f_init ld0) acts = true /\
  forall o, ~ history (obj_init ld0) tr o.
Proof.
  exists (load_a ++ [FPoll 0 true true; FStep; FCycle (c0 1 false)] ++ load_b ++ [FPoll 0 true true; FPublish; FStep]). eexists _, _.
  split; [vm_compute; reflexivity|]. do 3 (split; [vm_compute; reflexivity|]). intros o H. apply no_undef in H. apply H. vm_compute. intuition.
Qed.
Print Assumptions C124_first_cycle_refuted.
Theorem C124_shutdown_refuted : exists acts s tr, fine_run (f_init ld0) acts = Some (s, tr) /\
  throughout in_time (f_init ld0) acts = true /\ throughout first_cycle_alone (f_init ld0) acts = true /\ throughout no_peeping (f_init ld0) acts = true /\
  forall o, ~ history (obj_init ld0) tr o.
Proof.
  exists (first_cycle ++ [FCycle (c0 2 false); FPublish] ++ load_a ++ [FPoll 0 false true; FStep]). eexists _, _.
  split; [vm_compute; reflexivity|]. do 3 (split; [vm_compute; reflexivity|]). intros o H. apply no_undef in H. apply H. vm_compute. intuition.
Qed.
Print Assumptions C124_shutdown_refuted.
Theorem C124_wall_timeout_refuted : exists acts s tr, fine_run (f_init ld0) acts = Some (s, tr) /\
  throughout ros_up (f_init ld0) acts = true /\ throughout first_cycle_alone (f_init ld0) acts = true /\ throughout no_peeping (f_init ld0) acts = true /\
  forall o, ~ history (obj_init ld0) tr o.
Proof.
  exists (load_a ++ [FPoll 0 true true; FStep; FCycle (c0 1 false); FPublish] ++ [FCall (sw0 ["a"] [] STRICT false); FStep; FStep] ++
          [FLoop; FLoop; FLoop; FLoop; FPoll 2000000000 true true]). eexists _, _.
  split; [vm_compute; reflexivity|]. do 3 (split; [vm_compute; reflexivity|]). intros o H. apply no_undef in H. apply H. vm_compute. intuition.
Qed.
Print Assumptions C124_wall_timeout_refuted.
Theorem C124_reset_cycle_refuted : exists acts s tr, fine_run (f_init ld0) acts = Some (s, tr) /\
  throughout ros_up (f_init ld0) acts = true /\ throughout in_time (f_init ld0) acts = true /\ throughout first_cycle_alone (f_init ld0) acts = true /\
  ~ In Undef tr /\ forall o, ~ history (obj_init ld0) tr o.
Proof.
  exists (a_running ++ [FCycle (c0 4 true); FPublish; FLoop; FCall ListControllers; FStep; FStep]). eexists _, _.
  split; [vm_compute; reflexivity|]. do 3 (split; [vm_compute; reflexivity|]). split; [vm_compute; intuition discriminate|].
  intros o H. apply history_may in H. vm_compute in H. intuition discriminate.
Qed.
Print Assumptions C124_reset_cycle_refuted.
