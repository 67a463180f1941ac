(** Property theorems: which data the two threads race on, and that a cycle never waits. *)
From Verif Require Import HwTypes Lifecycle CMModel CMSpec CMInv CMCycle CMLife CMFinal FineModel FineSpec FineAccess FineBase FineRel FineLoop FineManage FineLock FineSwitch FineMain FineFrame FineWait PropsFine.
Open Scope string_scope.
Open Scope list_scope.

Lemma lock_state s q i : In q (lock_next s) -> at_ q = StateOf i -> examines (f_nrt s) = true /\ writes q = false.
Proof.
  intros Hq E. unfold lock_next in Hq. destruct (f_nrt s) as [| | |[] ? ? ?| | | | | | | | | |]; cbn in Hq; cbn [examines];
    try (destruct (nth_error _ _); cbn in Hq); try (destruct (sw_do _); cbn in Hq);
    repeat match type of Hq with _ \/ _ => destruct Hq as [Hq|Hq] | False => destruct Hq | (_ = q) => subst q; try discriminate E; auto end.
  apply in_map_iff in Hq as (sp & <- & _). auto.
Qed.

Lemma races s o x : R s o -> race_on x (loop_next s) (lock_next s) ->
  x = Cur \/ x = Used \/ x = DoSwitch \/
  (exists i k b c e, x = StateOf i /\ f_rt s = RtReset k b c e /\ examines (f_nrt s) = true).
Proof.
  intros HR (p & q & Hp & Hq & Ep & Eq & Hw).
  destruct (managing (f_rt s)) eqn:Q.
  - destruct (in_switch_nrt _ _ HR Q) as (tmo & e & P & Hd). unfold lock_next in Hq. rewrite P, Hd in Hq. destruct Hq as [<-|[]]. cbn in Eq. auto.
  - assert (F : forall b, In (wr (Lst b)) (lock_next s) -> f_used s = Some b -> in_update (f_rt s) = true -> False) by (intros b H1 H2 H3; eapply list_untouched; eauto).
    unfold loop_next in Hp. destruct (f_rt s) as [|b c|k mid c e|k c e| | | |] eqn:Er; try discriminate Q.
    + destruct Hp as [<-|[]]. auto.
    + destruct Hp as [<-|[]]. auto.
    + destruct Hp as [<-|Hp]; [auto|]. destruct (f_used s) as [u|] eqn:Eu; [|destruct Hp]. destruct Hp as [<-|Hp].
      * exfalso. cbn in Ep. subst x. destruct Hw as [Hw|Hw]; [discriminate Hw|]. destruct q as [y w]. cbn in Eq, Hw. subst. apply (F u); auto.
      * destruct (nth_error (f_list s u) k) as [sp|]; [|destruct Hp]. destruct Hp as [<-|[]]. cbn in Ep. subst x.
        destruct (lock_state _ _ _ Hq Eq) as [X _]. do 3 right. eauto 10.
    + destruct Hp as [<-|Hp]; [auto|]. destruct (f_used s) as [u|] eqn:Eu; [|destruct Hp]. destruct Hp as [<-|Hp].
      * exfalso. cbn in Ep. subst x. destruct Hw as [Hw|Hw]; [discriminate Hw|]. destruct q as [y w]. cbn in Eq, Hw. subst. apply (F u); auto.
      * destruct (nth_error (f_list s u) k) as [sp|]; destruct Hp as [<-|[]]; [|auto]. exfalso. cbn in Ep. subst x.
        destruct (lock_state _ _ _ Hq Eq) as [_ X]. cbn in Hw. destruct Hw; congruence.
Qed.

(** * C125 *)
(** The two threads race only on the index of the current list, the index in use, the switch flag, and, in
    a reset cycle, the state of the controller being reset, which the lock holder only reads. *)
Theorem C125_raced_locations ls acts s tr x :
  calm (f_init ls) acts -> fine_run (f_init ls) acts = Some (s, tr) -> race_on x (loop_next s) (lock_next s) ->
  x = Cur \/ x = Used \/ x = DoSwitch \/
  (exists i k b c e, x = StateOf i /\ f_rt s = RtReset k b c e /\ examines (f_nrt s) = true).
Proof. intros C E H. destruct (refines acts _ _ _ _ (init_rel ls) C E) as (o & _ & HR). eapply races; eauto. Qed.
Print Assumptions C125_raced_locations.

(** The access lists are right: a step changes nothing but what it writes, ... *)
Theorem C125_loop_writes s a s' l x :
  by_loop a = true -> fine_step s a = Some (s', l) -> ~ In (wr x) (loop_next s) -> f_nrt s' = f_nrt s /\ same x s' s.
Proof. apply loop_frame. Qed.
Print Assumptions C125_loop_writes.
(** (a new controller, which nobody else can reach, is entered in the heap when its list is made current) *)
Theorem C125_lock_writes s a s' l x :
  by_lock a = true -> ros_up s a = true -> in_time s a = true -> fine_step s a = Some (s', l) -> ~ In (wr x) (lock_next s) ->
  (forall i, x = StateOf i -> forall sp e, f_nrt s = NReady (Some sp) e -> i <> sp_inst sp) -> f_rt s' = f_rt s /\ same x s' s.
Proof. apply lock_frame. Qed.
Print Assumptions C125_lock_writes.
(** ... and what it does depends on nothing but what it accesses. *)
Theorem C125_loop_reads s1 s2 : f_rt s1 = f_rt s2 -> f_used s1 <> None -> f_used s2 <> None ->
  (forall a, In a (loop_next s1) -> same (at_ a) s1 s2) ->
  match f_loop s1, f_loop s2 with
  | Some (s1', l1), Some (s2', l2) => l1 = l2 /\ f_rt s1' = f_rt s2' /\ forall a, In a (loop_next s1) -> same (at_ a) s1' s2'
  | None, None => True
  | _, _ => False
  end.
Proof. apply loop_local. Qed.
Print Assumptions C125_loop_reads.
(** (of the locations the control loop writes) *)
Theorem C125_lock_reads s1 s2 a : a = FStep \/ (exists w, a = FPoll w true true /\ gives_up (f_nrt s1) w = false) ->
  f_nrt s1 = f_nrt s2 -> cm_next (f_m s1) = cm_next (f_m s2) -> (forall x, lock_only x = true -> same x s1 s2) ->
  (forall c, In c (lock_next s1) -> same (at_ c) s1 s2) ->
  match fine_step s1 a, fine_step s2 a with
  | Some (s1', l1), Some (s2', l2) =>
      defined l1 = defined l2 /\ f_nrt s1' = f_nrt s2' /\ (forall x, lock_only x = true -> same x s1' s2') /\
      forall c, In c (lock_next s1) -> same (at_ c) s1' s2'
  | None, None => True
  | _, _ => False
  end.
Proof.
  intros Ha E1 E2 A Hs. assert (AG : agreeing s1 s2) by (split; [exact E1|split; [exact E2|exact A]]).
  assert (X : same_step s1 s2 (fine_step s1 a) (fine_step s2 a)).
  { destruct Ha as [->|(w & -> & G)]; cbn [fine_step]; [now apply step_local|now apply poll_local]. }
  unfold same_step in X. destruct (fine_step s1 a) as [[s1' l1]|], (fine_step s2 a) as [[s2' l2]|]; auto.
  destruct X as (X1 & (X2 & _ & X3) & X4). auto.
Qed.
Print Assumptions C125_lock_reads.

(** Every one of the four kinds of location is raced on in some execution, so none of them may be a plain variable. *)
Definition races_in (x : loc) (s : fst_) : Prop := race_on x (loop_next s) (lock_next s).
Theorem C125_list_index_refuted : exists acts s tr, calm (f_init ld0) acts /\ fine_run (f_init ld0) acts = Some (s, tr) /\ races_in Cur s.
Proof. exists (removelast load_a). eexists _, _. split; [vm_compute; auto|]. split; [vm_compute; reflexivity|]. exists (rd Cur), (wr Cur). vm_compute. tauto. Qed.
Print Assumptions C125_list_index_refuted.
Theorem C125_used_index_refuted : exists acts s tr, calm (f_init ld0) acts /\ fine_run (f_init ld0) acts = Some (s, tr) /\ races_in Used s.
Proof.
  exists (first_cycle ++ load_a ++ [FCycle (c0 2 false)]). eexists _, _. split; [vm_compute; auto|]. split; [vm_compute; reflexivity|]. exists (wr Used), (rd Used). vm_compute. tauto.
Qed.
Print Assumptions C125_used_index_refuted.
Theorem C125_switch_flag_refuted : exists acts s tr, calm (f_init ld0) acts /\ fine_run (f_init ld0) acts = Some (s, tr) /\ races_in DoSwitch s.
Proof.
  exists (first_cycle ++ [FCycle (c0 2 false); FPublish; FCall (sw0 [] [] STRICT false); FStep]). eexists _, _.
  split; [vm_compute; auto|]. split; [vm_compute; reflexivity|]. exists (rd DoSwitch), (wr DoSwitch). vm_compute. tauto.
Qed.
Print Assumptions C125_switch_flag_refuted.
Theorem C125_state_refuted : exists acts s tr, calm (f_init ld0) acts /\ fine_run (f_init ld0) acts = Some (s, tr) /\ races_in (StateOf 0) s.
Proof.
  exists (a_running ++ [FCycle (c0 4 true); FPublish; FCall ListControllers]). eexists _, _.
  split; [vm_compute; auto|]. split; [vm_compute; reflexivity|]. exists (wr (StateOf 0)), (rd (StateOf 0)). vm_compute. tauto.
Qed.
Print Assumptions C125_state_refuted.
(** registerControllerLoader takes no lock: it races with the thread that loads a controller or lists the types. *)
Theorem C125_loaders_refuted : exists acts s tr s' l, calm (f_init ld0) acts /\ fine_run (f_init ld0) acts = Some (s, tr) /\
  race_on Loaders reg_next (lock_next s) /\ fine_step s (FReg (mkLoader "more" [])) = Some (s', l) /\ ~ same Loaders s' s.
Proof.
  exists [FCall ListTypes]. eexists _, _, _, _. split; [vm_compute; auto|]. split; [vm_compute; reflexivity|].
  split; [exists (wr Loaders), (rd Loaders); vm_compute; tauto|]. split; [vm_compute; reflexivity|]. vm_compute. discriminate.
Qed.
Print Assumptions C125_loaders_refuted.
(** The locations that are not raced on are in use by both threads. *)
Example C125_nonvacuous : exists acts s tr, calm (f_init ld0) acts /\ fine_run (f_init ld0) acts = Some (s, tr) /\
  In (rd (Lst false)) (loop_next s) /\ In (wr (Lst true)) (lock_next s) /\ exists s' l, fine_step s FStep = Some (s', l) /\ ~ same (Lst true) s' s /\ same (Lst false) s' s.
Proof.
  exists (first_cycle ++ [FCall (Load "a" (env0 "T" "j1")); FPoll 0 true true; FStep; FStep; FStep; FCycle (c0 2 false); FPublish]). eexists _, _.
  split; [vm_compute; auto|]. split; [vm_compute; reflexivity|]. split; [vm_compute; auto|]. split; [vm_compute; auto|]. eexists _, _. split; [vm_compute; reflexivity|]. vm_compute. split; [discriminate|reflexivity].
Qed.

(** * C126 *)
(** Inside update() the next access of the control loop is always possible, whatever the other thread is doing
    (in any execution, calm or not). *)
Theorem C126_never_waits ls acts s tr : fine_run (f_init ls) acts = Some (s, tr) -> in_cycle s = true ->
  exists a s' l, (a = FPublish \/ a = FLoop) /\ fine_step s a = Some (s', l).
Proof.
  intros E Hc. assert (H := used_kept _ _ _ _ E). destruct (in_update (f_rt s)) eqn:Hi.
  - destruct (loop_possible s Hi) as (s' & l & E'); [apply H; auto; discriminate|]. exists FLoop, s', l. auto.
  - unfold in_cycle in Hc. destruct (f_rt s) as [|b c| | | | | |] eqn:Er; try discriminate Hc; try discriminate Hi. exists FPublish. cbn [fine_step]. rewrite Er. eauto.
Qed.
Print Assumptions C126_never_waits.

(** A cycle that has not returned has made at most three accesses per controller in its list, one per controller to be stopped or
    started, and four more, however many steps the other thread has made meanwhile. *)
Theorem C126_bounded ls before c acts s0 tr0 s tr :
  calm (f_init ls) before -> fine_run (f_init ls) before = Some (s0, tr0) ->
  calm s0 (FCycle c :: acts) -> fine_run s0 (FCycle c :: acts) = Some (s, tr) -> (forall e, ~ In (LRet e) tr) ->
  in_cycle s = true /\
  (loop_steps acts <= 3 * match f_used s with Some u => List.length (f_list s u) | None => 0 end + 4 +
                      List.length (cm_stop (f_m s)) + List.length (cm_start (f_m s)))%nat.
Proof.
  intros C0 E0 C E Hn. destruct (refines before _ _ _ _ (init_rel ls) C0 E0) as (o & _ & HR).
  unfold calm in C. cbn [throughout fine_run fine_step] in C, E. destruct (f_rt s0) eqn:Er; try discriminate E.
  destruct C as (U & T & C1 & K). apply andb_prop in U as [U1 U2]. apply andb_prop in T as [T1 T2]. apply andb_prop in C1 as [C1 C2]. apply andb_prop in K as [K1 K2].
  destruct (fine_run (f_set_rt s0 _) acts) as [[s2 e2]|] eqn:E2; [|discriminate E]. injection E as <- <-.
  assert (E1 : fine_step s0 (FCycle c) = Some (f_set_rt s0 (RtLoaded (f_cur s0) c), [LCall c])) by (cbn [fine_step]; now rewrite Er).
  destruct (simulation _ _ _ _ _ HR U1 T1 C1 K1 E1) as (o1 & _ & R1).
  destruct (progress_run acts _ _ _ _ 0%nat R1 (conj U2 (conj T2 (conj C2 K2))) E2 eq_refl eq_refl) as [A B].
  { intros e H. apply (Hn e). now right. }
  split; [exact A|]. exact (progress_bound _ _ A B).
Qed.
Print Assumptions C126_bounded.

(** If the other thread stops for good at any moment, holding the lock, the cycle returns all the same. *)
Theorem C126_other_thread_stopped ls acts s tr :
  calm (f_init ls) acts -> fine_run (f_init ls) acts = Some (s, tr) -> in_cycle s = true ->
  exists k s' e, fine_run s (match f_rt s with RtLoaded _ _ => [FPublish] | _ => [] end ++ repeat FLoop k) = Some (s', [LRet e]) /\
    (k <= 3 * match f_used s' with Some u => List.length (f_list s' u) | None => 0 end + 5 + List.length (cm_stop (f_m s')) + List.length (cm_start (f_m s')))%nat.
Proof.
  intros C E Hc. destruct (refines acts _ _ _ _ (init_rel ls) C E) as (o & _ & HR). assert (P := progress_reach acts _ _ _ _ (init_rel ls) C E I).
  assert (K : forall t, in_update (f_rt t) = true -> (exists o, R t o) -> progress t 0 ->
            exists k s' e, fine_run t (repeat FLoop k) = Some (s', [LRet e]) /\ (k <= S (bound s'))%nat).
  { intros t Ht [ot HRt] Pt. destruct (alone (S (bound t)) t ot 0%nat HRt Ht Pt) as (k & s' & e & Hk & E'); [lia|]. exists k, s', e. split; [exact E'|].
    assert (G : forall k t s' l, fine_run t (repeat FLoop k) = Some (s', l) -> bound s' = bound t).
    { clear. induction k as [|k IH]; intros t s' l E; cbn [repeat fine_run fine_step] in E; [now injection E as <- <-|].
      destruct (f_loop t) as [[t1 l1]|] eqn:E1; [|discriminate E]. destruct (fine_run t1 (repeat FLoop k)) as [[t2 l2]|] eqn:E2; [|discriminate E]. injection E as <- <-.
      now rewrite (IH _ _ _ E2), (bound_loop _ _ _ E1). }
    rewrite (G _ _ _ _ E'). lia. }
  destruct (in_update (f_rt s)) eqn:Hi.
  - destruct (K s Hi (ex_intro _ o HR) P) as (k & s' & e & E' & Hk). exists k, s', e. split.
    + destruct (f_rt s) eqn:Er; try discriminate Hi; exact E'.
    + unfold bound, in_use in Hk. lia.
  - unfold in_cycle in Hc. destruct (f_rt s) as [|b c| | | | | |] eqn:Er; try discriminate Hc; try discriminate Hi.
    assert (E1 : fine_step s FPublish = Some (f_set_rt (f_set_used s (Some b)) (if c_reset c then RtReset 0 false c [] else RtUpdate 0 c []), [])) by (cbn [fine_step]; now rewrite Er).
    destruct (simulation _ _ FPublish _ _ HR eq_refl eq_refl eq_refl eq_refl E1) as (o1 & _ & R1).
    set (t := f_set_rt (f_set_used s (Some b)) (if c_reset c then RtReset 0 false c [] else RtUpdate 0 c [])) in *.
    destruct (K t ltac:(cbn; destruct (c_reset c); reflexivity) (ex_intro _ o1 R1) ltac:(unfold progress; cbn; destruct (c_reset c); lia)) as (k & s' & e & E' & Hk).
    exists k, s', e. split; [|unfold bound, in_use in Hk; lia]. cbn [app fine_run]. now rewrite E1, E'.
Qed.
Print Assumptions C126_other_thread_stopped.

(** A cycle over one running controller with another to start; the other thread stops in the middle of it, having handed over its request. *)
Example C126_nonvacuous : exists acts s tr k s', calm (f_init ld0) acts /\ fine_run (f_init ld0) acts = Some (s, tr) /\ in_cycle s = true /\ f_nrt s <> NIdle /\
  fine_run s (repeat FLoop k) = Some (s', [LRet [EvCb 0 (CbUpdate 1) 5; EvDo [mkInfo "b" "N" [mkIface "pos" ["j2"]]] []; EvCb 1 CbStarting 5]]) /\ k = 7%nat.
Proof.
  exists (a_running ++ load_b ++ [FCycle (c0 4 false); FPublish; FLoop; FLoop; FPoll 0 true true; FStep; FLoop;
          FCycle (c0 5 false); FPublish; FCall (sw0 ["b"] [] STRICT false); FStep; FStep]). eexists _, _, 7%nat, _.
  split; [vm_compute; auto|]. split; [vm_compute; reflexivity|]. split; [reflexivity|]. split; [discriminate|]. split; vm_compute; reflexivity.
Qed.
