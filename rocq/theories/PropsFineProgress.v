(** Property theorems: service calls are accepted, are never stuck, and what they wait for. *)
From Verif Require Import HwTypes Lifecycle CMModel CMSpec CMInv CMCycle CMLife CMFinal FineModel FineSpec FineAccess FineBase FineRel FineLoop FineManage FineLock FineSwitch FineMain FineFrame FineWait FineProgress PropsFine.
Open Scope string_scope.
Open Scope list_scope.

(** * C127 *)
(** A call of each service is accepted whenever no other is in progress. *)
Theorem C127_accepted s o : f_nrt s = NIdle -> service o = true -> exists s', fine_step s (FCall o) = Some (s', [SCall o]) /\ f_nrt s' <> NIdle.
Proof. intros E H. destruct o; try discriminate H; cbn [fine_step f_entry]; rewrite E; eexists; (split; [reflexivity|discriminate]). Qed.
Print Assumptions C127_accepted.

(** A call in progress can always make its next step, whatever the control loop is doing; if that is a round of a wait loop, with any outcome. *)
Theorem C127_never_stuck ls acts s tr :
  calm (f_init ls) acts -> fine_run (f_init ls) acts = Some (s, tr) -> f_nrt s <> NIdle ->
  (exists s' l, fine_step s FStep = Some (s', l)) \/ (forall w ok1 ok2, exists s' l, fine_step s (FPoll w ok1 ok2) = Some (s', l)).
Proof. intros C E H. destruct (refines acts _ _ _ _ (init_rel ls) C E) as (o & _ & HR). exact (step_possible _ _ HR H). Qed.
Print Assumptions C127_never_stuck.

(** It waits only: after it has made a new list current, for a cycle that is still using the former list; or, after it has handed over a switch, for the
    control loop to complete it.  It never waits before it starts. *)
Theorem C127_waits_only_for ls acts s tr :
  calm (f_init ls) acts -> fine_run (f_init ls) acts = Some (s, tr) -> waits s = true ->
  (exists f e, f_nrt s = NWait2 f e /\ f_used s = Some f /\ f_cur s = negb f) \/
  (exists tmo e, f_nrt s = NSwitch tmo e /\ sw_do (cm_sw (f_m s)) = true).
Proof.
  intros C E H. destruct (refines acts _ _ _ _ (init_rel ls) C E) as (o & _ & HR). assert (B := r_bufs _ _ HR). destruct B as (_ & B & _). unfold waits in H.
  destruct (f_nrt s) as [|q| | | | | |f e| | | | | |tmo e] eqn:P; try discriminate H; eauto.
  - exfalso. destruct B as (B & _). destruct (f_used s) as [u|]; [|discriminate H]. apply Bool.eqb_prop in H. destruct B as [B|B]; [discriminate B|]. injection B as B. subst u. destruct (f_cur s); discriminate B.
  - left. exists f, e. destruct B as (B & _). destruct (f_used s) as [u|]; [|discriminate H]. apply Bool.eqb_prop in H. subst u f. rewrite Bool.negb_involutive. auto.
Qed.
Print Assumptions C127_waits_only_for.

(** [waits] is what it is said to be: a round of a wait loop that ends in the same place, every other step does not. *)
Theorem C127_waiting s w : gives_up (f_nrt s) w = false ->
  forall s' l, fine_step s (FPoll w true true) = Some (s', l) -> (waits s = true -> s' = s /\ l = []) /\ (waits s = false -> s' <> s).
Proof.
  intros G s' l E. cbn [fine_step] in E. unfold f_poll in E. unfold waits. cbn [andb negb] in E.
  destruct (f_nrt s) as [|q| | | | | |f e| | | | | |tmo e] eqn:P; try discriminate E.
  - destruct (match f_used s with Some u => Bool.eqb (negb (f_cur s)) u | None => false end); injection E as <- <-; (split; [|intros X; try discriminate X]); auto; try discriminate.
    intros X2. apply (f_equal f_nrt) in X2. rewrite P in X2. discriminate X2.
  - destruct (match f_used s with Some u => Bool.eqb f u | None => false end); injection E as <- <-; (split; [|intros X; try discriminate X]); auto; try discriminate.
    intros X2. apply (f_equal f_nrt) in X2. rewrite P in X2. discriminate X2.
  - cbn [gives_up] in G. apply Bool.negb_false_iff in G. rewrite G in E. destruct (sw_do _); injection E as <- <-; (split; [|intros X; try discriminate X]); auto; try discriminate.
    intros X2. apply (f_equal f_nrt) in X2. rewrite P in X2. discriminate X2.
Qed.
Print Assumptions C127_waiting.

(** The next cycle to begin releases a call that waits for the former list. *)
Theorem C127_released_by_next_cycle ls acts s tr f e c s1 s2 l1 l2 :
  calm (f_init ls) acts -> fine_run (f_init ls) acts = Some (s, tr) -> f_nrt s = NWait2 f e ->
  fine_step s (FCycle c) = Some (s1, l1) -> fine_step s1 FPublish = Some (s2, l2) -> f_nrt s2 = NWait2 f e /\ waits s2 = false.
Proof.
  intros C E P E1 E2. destruct (refines acts _ _ _ _ (init_rel ls) C E) as (o & _ & HR). assert (B := r_bufs _ _ HR). destruct B as (_ & B & _). rewrite P in B. destruct B as (B & _).
  cbn [fine_step] in E1. destruct (f_rt s); try discriminate E1. injection E1 as <- <-. cbn [fine_step f_rt f_set_rt] in E2. injection E2 as <- <-.
  unfold waits. cbn. rewrite P. split; [reflexivity|]. subst f. destruct (f_cur s); reflexivity.
Qed.
Print Assumptions C127_released_by_next_cycle.

(** Apart from rounds of its wait loops, a call that has not returned has made at most seven steps and one for each entry of the lists. *)
Theorem C127_bounded ls before q acts s0 tr0 s tr :
  calm (f_init ls) before -> fine_run (f_init ls) before = Some (s0, tr0) ->
  calm s0 (FCall q :: acts) -> fine_run s0 (FCall q :: acts) = Some (s, tr) -> (forall r e, ~ In (SRet r e) tr) ->
  f_nrt s <> NIdle /\ (lock_moves s0 (FCall q :: acts) <= 7 + List.length (f_list s false) + List.length (f_list s true))%nat.
Proof.
  intros C0 E0 C E Hn. destruct (refines before _ _ _ _ (init_rel ls) C0 E0) as (o & _ & HR).
  unfold calm in C. cbn [throughout fine_run lock_moves] in *.
  destruct C as (U & T & C1 & K). apply andb_prop in U as [U1 U2]. apply andb_prop in T as [T1 T2]. apply andb_prop in C1 as [C1 C2]. apply andb_prop in K as [K1 K2].
  destruct (fine_step s0 (FCall q)) as [[s1 e1]|] eqn:E1; [|discriminate E]. destruct (fine_run s1 acts) as [[s2 e2]|] eqn:E2; [|discriminate E]. injection E as <- <-.
  destruct (simulation _ _ _ _ _ HR U1 T1 C1 K1 E1) as (o1 & _ & R1).
  assert (X : f_nrt s1 <> NIdle /\ rank s1 0).
  { cbn [fine_step] in E1. destruct (f_nrt s0); try discriminate E1. destruct (f_entry q) as [p|] eqn:Eq; [|discriminate E1]. injection E1 as <- <-. destruct q; try discriminate Eq; injection Eq as <-; (split; [discriminate|]); unfold rank; cbn; lia. }
  destruct (rank_run acts _ _ _ _ 0%nat R1 (conj U2 (conj T2 (conj C2 K2))) E2 (proj1 X) (proj2 X)) as [A B].
  { intros r e H. apply (Hn r e). apply in_or_app. now right. }
  split; [exact A|]. exact (rank_bound _ _ A B).
Qed.
Print Assumptions C127_bounded.

(** In the schedule of C124, "b" is loaded during a cycle over the old list: the call waits, and the next cycle releases it. *)
Example C127_nonvacuous : exists acts s tr, calm (f_init ld0) acts /\ fine_run (f_init ld0) acts = Some (s, tr) /\ waits s = true /\ f_rt s = RtIdle /\
  exists s' tr', calm s [FCycle (c0 4 false); FPublish; FPoll 0 true true; FStep] /\ fine_run s [FCycle (c0 4 false); FPublish; FPoll 0 true true; FStep] = Some (s', tr') /\ f_nrt s' = NIdle.
Proof.
  exists (a_running ++ load_b). eexists _, _. split; [vm_compute; auto|]. split; [vm_compute; reflexivity|]. split; [vm_compute; reflexivity|]. split; [reflexivity|].
  eexists _, _. split; [vm_compute; auto|]. split; [vm_compute; reflexivity|reflexivity].
Qed.
