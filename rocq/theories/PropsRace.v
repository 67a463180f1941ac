(** Property theorems about the hand-over of controller lists and requests between threads. *)
From Verif Require Import RaceModel RaceSpec RaceProofs.

(** * C24 *)
Theorem C24_iterated_list_is_never_modified acts s tr :
  ros_up acts -> first_cycle_atomic acts -> run init acts = Some (s, tr) -> list_safe [] [] None tr.
Proof. exact (lists_safe acts s tr). Qed.
Print Assumptions C24_iterated_list_is_never_modified.

Theorem C24_committed_lists_are_complete acts s tr : run init acts = Some (s, tr) -> commits_ok [] tr.
Proof. exact (commits_good acts s tr). Qed.
Print Assumptions C24_committed_lists_are_complete.

(** A schedule in which a second load overlaps a control cycle iterating the old
    list, and has to wait for the next one. *)
Definition busy : list act :=
  [ARead; APublish false; ARt; NBegin OLoad; NPoll true true; NFinish; NCommit; NPoll true true; ARead; APublish false; NPoll true true; NClr;
   NBegin OLoad; NPoll true true; NPut 1; ARt; NFinish; ARt; ARead; NCommit; NPoll true true; APublish false;
   NPoll true true; ARt; NPoll true true; ARt; ARead; APublish false; NPoll true true; NClr; ARt; ARt; ARt].
Example C24_example : ros_up busy /\ first_cycle_atomic busy /\
  exists s, run init busy = Some (s,
    [EBegin false []; EEnd false; EWrite true; ECommit [0]; EBegin true [0]; EWrite false; EWrite false; EVisit 0; EWrite false; EEnd true;
     ECommit [0; 1]; EBegin true [0]; EVisit 0; EEnd true; EBegin false [0; 1]; EWrite true; EVisit 0; EVisit 1; EEnd false]).
Proof.
  split; [repeat constructor|]. split.
  - intros pre post E Hn. destruct pre as [|a pre]; [injection E as <-; right; eauto|]. injection E as <- _. exfalso. apply Hn; left; reflexivity.
  - eexists. vm_compute. reflexivity.
Qed.

(** * C25: the guarantee does not extend to the first cycle. *)
Theorem C25_first_cycle_refuted :
  exists acts s tr, ros_up acts /\ run init acts = Some (s, tr) /\ ~ list_safe [] [] None tr.
Proof.
  exists [NBegin OLoad; NPoll true true; NFinish; NCommit; NPoll true true; NClr; ARead;
          NBegin OLoad; NPoll true true; NFinish; NCommit; NPoll true true; APublish false; ARt; NClr].
  eexists _, _. split; [repeat constructor|]. split; [vm_compute; reflexivity|].
  cbn. intros (_ & _ & _ & _ & _ & (b & r & E & H & _)). injection E as <- <-. apply (H true []); reflexivity.
Qed.
Print Assumptions C25_first_cycle_refuted.

(** * C26 *)
Theorem C26_waits_end acts seg s tr s' e :
  run init acts = Some (s, tr) -> (exists o, nrt s = NWait1 o) \/ (exists f, nrt s = NWait2 f) ->
  only_waits seg -> run s seg = Some (s', e) -> 2 <= publishes seg ->
  nrt s' <> nrt s \/ exists s'' e', step s' (NPoll true true) = Some (s'', e') /\ nrt s'' <> nrt s.
Proof. exact (waits_end acts seg s tr s' e). Qed.
Print Assumptions C26_waits_end.
(** One further cycle is not enough: it may have read the index before the commit. *)
Example C26_example :
  let acts := [ARead; APublish false; ARt; ARead; NBegin OLoad; NPoll true true; NFinish; NCommit] in
  let seg := [NPoll true true; APublish false; ARt; NPoll true true; ARead; APublish false; ARt] in
  exists s tr s' e, run init acts = Some (s, tr) /\ nrt s = NWait2 false /\ only_waits seg /\ run s seg = Some (s', e) /\
    publishes seg = 2 /\ nrt s' = NWait2 false.
Proof. cbv zeta. eexists _, _, _, _. split; [vm_compute; reflexivity|]. split; [reflexivity|]. split; [repeat constructor|]. split; [vm_compute; reflexivity|]. split; reflexivity. Qed.

(** * C27: the guarantee does not survive a shutdown. *)
Theorem C27_shutdown_refuted :
  exists acts s tr, first_cycle_atomic acts /\ run init acts = Some (s, tr) /\ ~ list_safe [] [] None tr.
Proof.
  exists [ARead; APublish false; NBegin OLoad; NPoll true true; NFinish; NCommit; NPoll true true; NPoll false true; NClr].
  eexists _, _. split; [|split; [vm_compute; reflexivity|]].
  - intros pre post E Hn. destruct pre as [|a pre]; [injection E as <-; right; eauto|]. injection E as <- _. exfalso. apply Hn; left; reflexivity.
  - cbn. intros (_ & _ & _ & H & _). apply (H false []); reflexivity.
Qed.
Print Assumptions C27_shutdown_refuted.

(** * C28 *)
Theorem C28_not_destroyed_while_running acts s tr i r :
  no_resets acts -> run init acts = Some (s, tr) -> In (EDestroy i r) tr -> r = false.
Proof. exact (destroyed_calm acts s tr i r). Qed.
Print Assumptions C28_not_destroyed_while_running.

(** Load a controller and start it. *)
Definition started : list act :=
  [ARead; APublish false; ARt; NBegin OLoad; NPoll true true; NFinish; NCommit; NPoll true true; ARead; APublish false; NPoll true true; NClr;
   ARt; ARt; NSwBegin [(0, true)]; ARead; APublish false; ARt; ARt; ARt; ASwEnd true; NSwEnd].
Example C28_example : let acts := started ++ [NSwBegin [(0, false)]; ARead; APublish false; ARt; ARt; ARt; ASwEnd true; NSwEnd;
    ARead; APublish false; NBegin (OUnload 0); NPoll true true; NCheck; NFinish; NCommit; ARt; ARt; ARead; APublish false; NPoll true true; NClr] in
  no_resets acts /\ exists s tr, run init acts = Some (s, tr) /\ In (EDestroy 0 false) tr /\ In (ECb 0 true) tr.
Proof. cbv zeta. split; [repeat constructor|]. eexists _, _. split; [vm_compute; reflexivity|]. split; cbn; tauto. Qed.

(** Unload examines the controller while a reset cycle has it stopped for a moment. *)
Theorem C28_reset_cycle_refuted :
  exists acts s tr, ros_up acts /\ first_cycle_atomic acts /\ no_wall_timeout acts /\ run init acts = Some (s, tr) /\ In (EDestroy 0 true) tr.
Proof.
  exists (started ++ [ARead; APublish true; ARt; NBegin (OUnload 0); NPoll true true; NCheck; NFinish; ARt; NCommit; ARt; ARt; ARt;
                      ARead; APublish false; NPoll true true; NClr]).
  eexists _, _. split; [repeat constructor|]. split.
  - intros pre post E Hn. destruct pre as [|a pre]; [injection E as <-; right; eauto|]. injection E as <- _. exfalso. apply Hn; left; reflexivity.
  - split; [unfold no_wall_timeout; cbn; intuition discriminate|]. split; [vm_compute; reflexivity|]. cbn; tauto.
Qed.
Print Assumptions C28_reset_cycle_refuted.

(** * C80 *)
Theorem C80_requests_not_modified_while_walked acts s tr :
  no_wall_timeout acts -> run init acts = Some (s, tr) -> req_safe false tr.
Proof. exact (requests_safe acts s tr). Qed.
Print Assumptions C80_requests_not_modified_while_walked.
Example C80_example : no_wall_timeout started /\ exists s tr, run init started = Some (s, tr) /\ In EReqBegin tr /\ In EReqEnd tr.
Proof. split; [unfold no_wall_timeout; cbn; intuition discriminate|]. eexists _, _. split; [vm_compute; reflexivity|]. split; cbn; tauto. Qed.
(** On a wall clock timeout the caller clears the vectors under the control loop. *)
Theorem C80_wall_timeout_refuted :
  exists acts s tr, ros_up acts /\ first_cycle_atomic acts /\ no_resets acts /\ run init acts = Some (s, tr) /\ ~ req_safe false tr.
Proof.
  exists (started ++ [NSwBegin [(0, false)]; ARead; APublish false; ARt; ARt; NSwTimeout]).
  eexists _, _. split; [repeat constructor|]. split.
  - intros pre post E Hn. destruct pre as [|a pre]; [injection E as <-; right; eauto|]. injection E as <- _. exfalso. apply Hn; left; reflexivity.
  - split; [repeat constructor|]. split; [vm_compute; reflexivity|]. cbn. intuition discriminate.
Qed.
Print Assumptions C80_wall_timeout_refuted.

(** * C120 *)
(** A control cycle goes through the list that was current when it read the index, whatever loads and unloads do before it has
    published that it uses this list. *)
Theorem C120_current_list pre mid r s tr :
  ros_up (pre ++ ARead :: mid ++ [APublish r]) -> first_cycle_atomic (pre ++ ARead :: mid ++ [APublish r]) -> (forall r', ~ In (APublish r') mid) ->
  run init (pre ++ ARead :: mid ++ [APublish r]) = Some (s, tr) ->
  exists s1 tr1 e b, run init pre = Some (s1, tr1) /\ tr = tr1 ++ e ++ [EBegin b (committed [] tr1)].
Proof. exact (fresh pre mid r s tr). Qed.
Print Assumptions C120_current_list.
(** A second controller is loaded and made current between reading and publishing; the cycle uses the list of one controller, the
    next one the list of two. *)
Example C120_example :
  let pre := [ARead; APublish false; ARt; NBegin OLoad; NPoll true true; NFinish; NCommit; NPoll true true; ARead; APublish false; ARt; ARt; NPoll true true; NClr] in
  let mid := [NBegin OLoad; NPoll true true; NFinish; NCommit; NPoll true true] in
  ros_up (pre ++ ARead :: mid ++ [APublish false]) /\ first_cycle_atomic (pre ++ ARead :: mid ++ [APublish false]) /\ (forall r', ~ In (APublish r') mid) /\
  exists s tr1 e, run init (pre ++ ARead :: mid ++ [APublish false]) = Some (s, tr1 ++ e ++ [EBegin true [0]]) /\ In (ECommit [0; 1]) e /\
    exists s' tr', run s [ARt; ARt; NPoll true true; ARead; APublish false] = Some (s', tr') /\ In (EBegin false [0; 1]) tr'.
Proof.
  cbv zeta. split; [repeat constructor|]. split.
  { intros [|a p] post E H; cbn [app] in E; [injection E as <-; right; eauto|]. injection E as <- E. destruct H. now left. }
  split; [cbn; intuition discriminate|].
  eexists _, [EBegin false []; EEnd false; EWrite true; ECommit [0]; EBegin true [0]; EVisit 0; EEnd true; EWrite false], [EWrite false; ECommit [0; 1]].
  split; [vm_compute; reflexivity|]. split; [cbn; tauto|]. eexists _, _. split; [vm_compute; reflexivity|]. cbn; tauto.
Qed.
