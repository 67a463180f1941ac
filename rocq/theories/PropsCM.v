(** Property theorems about the controller manager. *)
From Verif Require Import HwTypes Lifecycle ConflictModel ConflictProofs CMModel CMSpec CMInv CMTrace CMCycle CMSwitch CMLife CMSession CMExcl CMHooks CMLoad CMRest CMFinal.
Open Scope Z_scope.
Local Open Scope string_scope.
Local Open Scope list_scope.

Ltac run_it := vm_compute; repeat split; auto; try discriminate.

(** The example histories do what their comments say. *)
Example ex_hist1 : idle ld0 hist1 /\ no_abandoned hist1 /\ checks_with check_for_conflict hist1 /\
  map (fun c => (ci_name (snd c), phase_of (trace ld0 hist1) (fst c))) (loaded (trace ld0 hist1)) =
  [("a", PStarted); ("b", PLoaded); ("c", PLoaded)].
Proof. split; [reflexivity|]. split; [repeat constructor|]. split; [repeat constructor|vm_compute; reflexivity]. Qed.

(** * C01 *)
Theorem C01_updated_only_while_running ls ops pre i p t post :
  trace ls ops = pre ++ EvCb i (CbUpdate p) t :: post ->
  exists pre1 t0 pre2, pre = pre1 ++ EvCb i CbStarting t0 :: pre2 /\ Forall (fun x => concerns i x = false) pre2.
Proof. exact (updates_run ls ops pre i p t post). Qed.
Print Assumptions C01_updated_only_while_running.
Example C01_example : exists pre post, trace ld0 (hist1 ++ [Cycle 102 1 false hwD]) = pre ++ EvCb 0 (CbUpdate 1) 102 :: post.
Proof. exists (trace ld0 hist1), []. vm_compute; reflexivity. Qed.

(** * C02 *)
Theorem C02_cycle_updates_running ls ops t p hw :
  exists rest,
    emits ls ops (Cycle t p false hw) = map (fun c => EvCb (fst c) (CbUpdate p) t) (running_list (trace ls ops)) ++ rest /\
    Forall (fun e => is_update e = false) rest.
Proof. exact (cycle_plain ls ops t p hw). Qed.
Print Assumptions C02_cycle_updates_running.
Example C02_example : map fst (running_list (trace ld0 hist1)) = [0%nat] /\
  emits ld0 (hist1 ++ [sw0 ["c"] ["a"] STRICT false]) (Cycle 102 1 false hwD) =
  [EvCb 0 (CbUpdate 1) 102; EvDo [mkInfo "c" "T" [mkIface "pos" ["j1"]]] [mkInfo "a" "T" [mkIface "pos" ["j1"]]];
   EvCb 0 CbStopping 102; EvCb 2 CbStarting 102].
Proof. vm_compute; auto. Qed.

(** * C03 *)
Theorem C03_switch_in_one_step ls ops a b z asap tmo now ck pr mid t p r hw :
  let sw := Switch a b z asap tmo now ck pr in
  let tr := trace ls ops in
  let after := ((ops ++ [sw]) ++ mid) ++ [Cycle t p r hw] in
  no_abandoned ops -> idle ls ops -> reply ls ops sw = ANone -> still_waiting ls (ops ++ [sw]) mid ->
  pending ls ((ops ++ [sw]) ++ mid) -> hw_done hw ->
  (forall c, In c (loaded tr) ->
     phase_of (trace ls after) (fst c) =
     if named a c then PStarted else if named b c && runsb tr (fst c) then PStopped else phase_of tr (fst c)) /\
  finished ls after true.
Proof. cbv zeta. intros H1 H2 H3 H4 H5 H6. exact (one_step ls ops a b z asap tmo now ck pr mid H1 H2 H3 H4 t p r hw H5 H6). Qed.
Print Assumptions C03_switch_in_one_step.
Example C03_example :
  let sw := sw0 ["c"] ["a"] STRICT false in
  reply ld0 hist1 sw = ANone /\ still_waiting ld0 (hist1 ++ [sw]) [Poll 1 true true; Cycle 102 1 false hwO] /\
  pending ld0 ((hist1 ++ [sw]) ++ [Poll 1 true true; Cycle 102 1 false hwO]) /\ hw_done hwD.
Proof. split; [vm_compute; reflexivity|]. split; [vm_compute; auto|]. split; [exists 1; vm_compute; reflexivity|]. split; auto. Qed.

(** * C04 *)
Theorem C04_running_controllers_exclusive ls ops pre post :
  no_abandoned ops -> checks_with check_for_conflict ops -> trace ls ops = pre ++ post -> exclusive pre.
Proof. exact (exclusive_default ls ops pre post). Qed.
Print Assumptions C04_running_controllers_exclusive.
(** The same for any conflict check that accepts only pairwise disjoint claims. *)
Theorem C04_any_sound_check ls ops pre post :
  no_abandoned ops -> sound_checks ops -> trace ls ops = pre ++ post -> exclusive pre.
Proof. exact (exclusive_always ls ops pre post). Qed.
Print Assumptions C04_any_sound_check.
Example C04_example :
  reply ld0 hist1 (sw0 ["c"] [] STRICT false) = ABool false /\ reply ld0 hist1 (sw0 ["b"] [] STRICT false) = ANone.
Proof. vm_compute; auto. Qed.

(** * C05 *)
Theorem C05_refused_changes_nothing ls ops a b z asap tmo now ck pr :
  let sw := Switch a b z asap tmo now ck pr in
  let tr := trace ls ops in
  no_abandoned ops -> idle ls ops -> reply ls ops sw = ABool false ->
  loaded (trace ls (ops ++ [sw])) = loaded tr /\
  (forall i, phase_of (trace ls (ops ++ [sw])) i = phase_of tr i) /\
  (forall e, In e (emits ls ops sw) -> e = EvPrepare (to_start tr a) (to_stop tr b) false) /\
  forall ops2, no_request ops2 ->
    existsb is_do (emits_all ls (ops ++ [sw]) ops2) = false /\
    forall c, In c (loaded tr) ->
      phase_of (trace ls ((ops ++ [sw]) ++ ops2)) (fst c) = PGone \/
      phase_of (trace ls ((ops ++ [sw]) ++ ops2)) (fst c) = phase_of tr (fst c).
Proof.
  exact (fun H1 H2 H3 =>
    let R := refused_now ls ops H1 H2 a b z asap tmo now ck pr H3 in
    conj (proj1 R) (conj (proj1 (proj2 R)) (conj (proj2 (proj2 R))
      (fun ops2 H4 => refused_later ls ops H1 H2 a b z asap tmo now ck pr ops2 H3 H4)))).
Qed.
Print Assumptions C05_refused_changes_nothing.
Example C05_example :
  reply ld0 hist1 (Switch ["b"] ["a"] STRICT false 5 100 check_for_conflict refuse) = ABool false /\
  reply ld0 hist1 (sw0 ["nobody"] [] STRICT false) = ABool false /\
  reply ld0 hist1 (sw0 ["c"] [] BEST_EFFORT false) = ABool false.
Proof. vm_compute; auto. Qed.

(** * C06 *)
Theorem C06_strict_acceptance ls ops a b asap tmo now ck pr :
  no_abandoned ops -> idle ls ops ->
  (reply ls ops (Switch a b STRICT asap tmo now ck pr) = ANone <-> strict_ok (trace ls ops) a b ck pr) /\
  (reply ls ops (Switch a b STRICT asap tmo now ck pr) = ANone \/ reply ls ops (Switch a b STRICT asap tmo now ck pr) = ABool false).
Proof.
  exact (fun H1 H2 => conj (accept_strict ls ops H1 H2 a b asap tmo now ck pr)
                           (switch_replies ls ops H2 a b STRICT asap tmo now ck pr)).
Qed.
Print Assumptions C06_strict_acceptance.
Example C06_example :
  strict_ok (trace ld0 hist1) ["c"] ["a"] check_for_conflict agree /\
  ~ strict_ok (trace ld0 hist1) ["c"] ["b"] check_for_conflict agree.
Proof.
  assert (N : no_abandoned hist1) by repeat constructor. assert (I : idle ld0 hist1) by reflexivity.
  split.
  - apply (proj1 (proj1 (C06_strict_acceptance ld0 hist1 ["c"] ["a"] false 0 0 check_for_conflict agree N I))). vm_compute; reflexivity.
  - intros H. apply (proj2 (proj1 (C06_strict_acceptance ld0 hist1 ["c"] ["b"] false 0 0 check_for_conflict agree N I))) in H.
    vm_compute in H. discriminate.
Qed.

(** * C07 *)
Theorem C07_best_effort_acceptance ls ops a b z asap tmo now ck pr :
  no_abandoned ops -> idle ls ops -> z <> STRICT ->
  (reply ls ops (Switch a b z asap tmo now ck pr) = ANone <-> lenient_ok (trace ls ops) a b ck pr) /\
  (reply ls ops (Switch a b z asap tmo now ck pr) = ANone \/ reply ls ops (Switch a b z asap tmo now ck pr) = ABool false).
Proof.
  exact (fun H1 H2 H3 => conj (accept_lenient ls ops H1 H2 a b z asap tmo now ck pr H3)
                              (switch_replies ls ops H2 a b z asap tmo now ck pr)).
Qed.
Print Assumptions C07_best_effort_acceptance.
Example C07_example :
  reply ld0 hist1 (sw0 ["c"; "nobody"] ["a"; "b"] BEST_EFFORT false) = ANone /\ 0 <> STRICT /\
  reply ld0 hist1 (sw0 ["a"] ["a"] 0 false) = ABool false.
Proof. split; [vm_compute; reflexivity|]. split; [discriminate|vm_compute; reflexivity]. Qed.

(** * C08: holds for requests that are [careful] ... *)
Theorem C08_callbacks_alternate ls ops pre e post :
  no_abandoned ops -> all_careful ls ops -> trace ls ops = pre ++ e :: post -> alternates pre e.
Proof. exact (alternates_at ls ops pre e post). Qed.
Print Assumptions C08_callbacks_alternate.
Example C08_example : all_careful ld0 (hist1 ++ [sw0 ["c"] ["a"] STRICT false; Cycle 102 1 false hwD]).
Proof.
  assert (D : forall tr (n : string) b asap tmo now ck pr, careful tr (Switch [n] b STRICT asap tmo now ck pr)).
  { intros. right. split; [constructor; [intros []|constructor]|left; reflexivity]. }
  intros pre o post H. unfold hist1, hist0, sw0 in H.
  do 8 (destruct pre as [|? pre]; [injection H as <- <-; first [exact I | apply D] | injection H as _ H]).
  destruct pre; discriminate.
Qed.
(** ... and fails for others: a running controller is started a second time. *)
Theorem C08_best_effort_refuted :
  exists ls ops pre i t post, no_abandoned ops /\ trace ls ops = pre ++ EvCb i CbStarting t :: post /\ runs pre i.
Proof.
  exists ld0, (hist1 ++ [sw0 ["a"] [] BEST_EFFORT false; Cycle 102 1 false hwD]).
  exists (trace ld0 (hist1 ++ [sw0 ["a"] [] BEST_EFFORT false]) ++
          [EvCb 0 (CbUpdate 1) 102; EvDo [] []]), 0%nat, 102, [].
  split; [repeat constructor|]. split; vm_compute; reflexivity.
Qed.
Print Assumptions C08_best_effort_refuted.
Theorem C08_duplicate_name_refuted :
  exists ls ops pre i t post, no_abandoned ops /\
    Forall (fun o => match o with Switch _ _ z _ _ _ _ _ => z = STRICT | _ => True end) ops /\
    trace ls ops = pre ++ EvCb i CbStarting t :: post /\ runs pre i.
Proof.
  exists ld0, (hist0 ++ [sw0 ["a"; "a"] [] STRICT false; Cycle 101 1 false hwD]).
  exists (trace ld0 (hist0 ++ [sw0 ["a"; "a"] [] STRICT false]) ++
          [EvDo [mkInfo "a" "T" [mkIface "pos" ["j1"]]] []; EvCb 0 CbStarting 101]), 0%nat, 101, [].
  split; [repeat constructor|]. split; [repeat constructor|]. split; vm_compute; reflexivity.
Qed.
Print Assumptions C08_duplicate_name_refuted.

(** * C09 *)
Theorem C09_hook_protocol ls ops : hooks_ok false HIdle (trace ls ops).
Proof. exact (hooks_follow ls ops). Qed.
Print Assumptions C09_hook_protocol.
Theorem C09_hooks_before_callbacks ls ops : no_reset ops -> hooks_ok true HIdle (trace ls ops).
Proof. exact (hooks_follow_strict ls ops). Qed.
Print Assumptions C09_hooks_before_callbacks.
Example C09_example : no_reset hist1 /\ existsb is_do (trace ld0 hist1) = true /\ existsb is_starting (trace ld0 hist1) = true.
Proof. split; [repeat constructor|vm_compute; auto]. Qed.

(** * C10 *)
Theorem C10_hook_lists ls ops o x y ok :
  no_abandoned ops -> In (EvPrepare x y ok) (emits ls ops o) ->
  let tr := trace ls ops in
  (exists startn stopn,
     ((exists z asap tmo now ck pr, o = Switch startn stopn z asap tmo now ck pr) \/
      (exists f now ck pr, o = Reload f now ck pr /\ startn = [] /\ stopn = map (fun c => ci_name (snd c)) (loaded tr))) /\
     x = to_start tr startn /\ y = to_stop tr stopn) /\
  NoDup x /\ NoDup y /\ forall c, In c x -> In c y -> False.
Proof. exact (hook_lists ls ops o x y ok). Qed.
Print Assumptions C10_hook_lists.
Example C10_example : emits ld0 hist1 (sw0 ["c"; "a"; "b"] ["b"] BEST_EFFORT false) = [] /\
  emits ld0 hist1 (sw0 ["c"; "b"] ["b"; "a"] BEST_EFFORT false) =
  [EvPrepare [mkInfo "b" "N" [mkIface "pos" ["j2"]]; mkInfo "c" "T" [mkIface "pos" ["j1"]]] [mkInfo "a" "T" [mkIface "pos" ["j1"]]] true].
Proof. vm_compute; auto. Qed.

(** * C11 *)
Theorem C11_stops_precede_starts ls ops t p hw x e1 y e2 z :
  emits ls ops (Cycle t p false hw) = x ++ e1 :: y ++ e2 :: z ->
  start_like e1 = true -> is_stopping e2 = true -> False.
Proof. exact (fun H => stops_before_starts ls ops t p hw x e1 y e2 (or_intror (ex_intro _ z H))). Qed.
Print Assumptions C11_stops_precede_starts.
Example C11_example :
  filter is_lifecycle (emits ld0 (hist1 ++ [sw0 ["c"; "b"] ["a"] STRICT false]) (Cycle 102 1 false hwD)) =
  [EvCb 0 CbStopping 102; EvCb 2 CbStarting 102; EvCb 1 CbStarting 102].
Proof. vm_compute; auto. Qed.

(** * C12 *)
Theorem C12_failed_switch_aborts ls ops a b z tmo now ck pr mid t p r hw :
  let sw := Switch a b z false tmo now ck pr in
  let tr := trace ls ops in
  let after := ((ops ++ [sw]) ++ mid) ++ [Cycle t p r hw] in
  no_abandoned ops -> idle ls ops -> reply ls ops sw = ANone -> still_waiting ls (ops ++ [sw]) mid ->
  pending ls ((ops ++ [sw]) ++ mid) -> hw_all hw 0%nat <> DONE -> hw_all hw 1%nat = ERROR \/ overdue now tmo t ->
  (forall c, In c (loaded tr) ->
     phase_of (trace ls after) (fst c) =
     if named a c then PAborted else if named b c && runsb tr (fst c) then PStopped else phase_of tr (fst c)) /\
  finished ls after true.
Proof.
  cbv zeta. intros H1 H2 H3 H4 H5 H6 H7.
  exact (failed_cycle ls ops a b z false tmo now ck pr mid H1 H2 H3 H4 t p r hw H5 eq_refl H6 H7).
Qed.
Print Assumptions C12_failed_switch_aborts.
(** Whatever is pending: a cycle in which the hardware does not report done starts nothing. *)
Theorem C12_nothing_starts_without_done ls ops t p r hw i :
  no_abandoned ops -> hw_never_done hw -> runs (trace ls (ops ++ [Cycle t p r hw])) i -> runs (trace ls ops) i.
Proof. exact (starts_need_done ls ops t p r hw i). Qed.
Print Assumptions C12_nothing_starts_without_done.
Example C12_example :
  let sw := sw0 ["c"] ["a"] STRICT false in
  hw_never_done hwE /\ hw_never_done hwO /\ reply ld0 hist1 sw = ANone /\ pending ld0 ((hist1 ++ [sw]) ++ []) /\
  overdue 100 5 106 /\
  map (fun c => phase_of (trace ld0 (hist1 ++ [sw; Cycle 102 1 false hwE])) (fst c)) (loaded (trace ld0 hist1)) = [PStopped; PLoaded; PAborted].
Proof.
  split; [split; discriminate|]. split; [split; discriminate|]. split; [reflexivity|]. split; [exists 0; reflexivity|].
  split; [split; reflexivity|vm_compute; reflexivity].
Qed.

(** * C13: what a true reply means, with its exception ... *)
Theorem C13_true_reply ls ops a b z asap tmo now ck pr mid w ok2 :
  let sw := Switch a b z asap tmo now ck pr in
  let tr := trace ls ops in
  let tr2 := trace ls ((ops ++ [sw]) ++ mid) in
  no_abandoned ops -> idle ls ops -> reply ls ops sw = ANone -> still_waiting ls (ops ++ [sw]) mid ->
  reply ls ((ops ++ [sw]) ++ mid) (Poll w true ok2) = ABool true ->
  (forall c, In c (loaded tr) -> named a c = true ->
     phase_of tr2 (fst c) = PStarted \/ (phase_of tr2 (fst c) = PAborted /\ ~ no_failure now tmo mid)) /\
  (forall c, In c (loaded tr) -> named a c = false ->
     phase_of tr2 (fst c) = if named b c && runsb tr (fst c) then PStopped else phase_of tr (fst c)).
Proof. cbv zeta. intros H1 H2 H3 H4. exact (true_reply ls ops a b z asap tmo now ck pr mid H1 H2 H3 H4 w ok2). Qed.
Print Assumptions C13_true_reply.
Example C13_example :
  let sw := sw0 ["c"] ["a"] STRICT false in
  let mid := [Cycle 102 1 false hwO; Poll 2 true true; Cycle 103 1 false hwD] in
  reply ld0 hist1 sw = ANone /\ still_waiting ld0 (hist1 ++ [sw]) mid /\
  reply ld0 ((hist1 ++ [sw]) ++ mid) (Poll 2 true true) = ABool true /\ no_failure 100 5 mid.
Proof.
  split; [reflexivity|]. split; [vm_compute; auto|]. split; [reflexivity|].
  repeat constructor; try (intros [[=]|(k & info & [=])]); intros [H1 H2]; vm_compute in H2; discriminate.
Qed.
(** ... which happens: true although the controller was aborted. *)
Theorem C13_true_on_error_refuted :
  exists ls ops a b, exists mid, let sw := sw0 a b STRICT false in
    no_abandoned ops /\ idle ls ops /\ reply ls ops sw = ANone /\ still_waiting ls (ops ++ [sw]) mid /\
    reply ls ((ops ++ [sw]) ++ mid) (Poll 0 true true) = ABool true /\
    exists c, In c (loaded (trace ls ops)) /\ named a c = true /\ ~ runs (trace ls ((ops ++ [sw]) ++ mid)) (fst c).
Proof.
  exists ld0, hist1, ["c"], ["a"], [Cycle 102 1 false hwE].
  split; [repeat constructor|]. split; [reflexivity|]. split; [reflexivity|]. split; [vm_compute; auto|]. split; [reflexivity|].
  exists (2%nat, mkInfo "c" "T" [mkIface "pos" ["j1"]]). split; [vm_compute; auto|]. split; [reflexivity|vm_compute; discriminate].
Qed.
Print Assumptions C13_true_on_error_refuted.
(** ... and true although nothing at all was switched, when ROS shuts down meanwhile. *)
Theorem C13_true_on_shutdown_refuted :
  exists ls ops a b, let sw := sw0 a b STRICT false in
    no_abandoned ops /\ idle ls ops /\ reply ls ops sw = ANone /\
    reply ls (ops ++ [sw]) (Poll 0 false true) = ABool true /\
    exists c, In c (loaded (trace ls ops)) /\ named a c = true /\ ~ runs (trace ls (ops ++ [sw])) (fst c).
Proof.
  exists ld0, hist1, ["c"], ["a"].
  split; [repeat constructor|]. split; [reflexivity|]. split; [reflexivity|]. split; [reflexivity|].
  exists (2%nat, mkInfo "c" "T" [mkIface "pos" ["j1"]]). split; [vm_compute; auto|]. split; [reflexivity|vm_compute; discriminate].
Qed.
Print Assumptions C13_true_on_shutdown_refuted.

(** * C14 *)
Theorem C14_waiting_while_ongoing ls ops a b z tmo now ck pr mid t p r hw :
  let sw := Switch a b z false tmo now ck pr in
  let tr := trace ls ops in
  let before := (ops ++ [sw]) ++ mid in
  let after := before ++ [Cycle t p r hw] in
  no_abandoned ops -> idle ls ops -> reply ls ops sw = ANone -> still_waiting ls (ops ++ [sw]) mid ->
  pending ls before -> hw_all hw 0%nat <> DONE -> hw_all hw 1%nat <> ERROR -> ~ overdue now tmo t ->
  ((forall c, In c (loaded tr) ->
     phase_of (trace ls after) (fst c) =
     if named a c then PWaiting else if named b c && runsb tr (fst c) then PStopped else phase_of tr (fst c)) /\
   (forall c, In c (loaded tr) -> named a c = true -> In (EvCb (fst c) CbWaiting t) (emits ls before (Cycle t p r hw))) /\
   pending ls after) /\
  (NoDup a -> forall c, In c (loaded tr) -> named a c = true ->
     waits_of (fst c) (emits ls before (Cycle t p r hw)) = [CbWaiting]).
Proof.
  cbv zeta. intros H1 H2 H3 H4 H5 H6 H7 H8.
  exact (conj (undecided_cycle ls ops a b z false tmo now ck pr mid H1 H2 H3 H4 t p r hw H5 eq_refl H6 H7 H8)
              (undecided_once ls ops a b z false tmo now ck pr mid H1 H2 H3 H4 t p r hw H5 eq_refl H6 H7 H8)).
Qed.
Print Assumptions C14_waiting_while_ongoing.
Example C14_example :
  let sw := sw0 ["c"] ["a"] STRICT false in
  reply ld0 hist1 sw = ANone /\ pending ld0 ((hist1 ++ [sw]) ++ []) /\ ~ overdue 100 5 105 /\
  emits ld0 ((hist1 ++ [sw]) ++ [Cycle 102 1 false hwO]) (Cycle 103 1 false hwO) = [EvCb 2 CbWaiting 103].
Proof.
  split; [reflexivity|]. split; [exists 0; reflexivity|]. split; [intros [_ H]; vm_compute in H; discriminate|]. vm_compute; reflexivity.
Qed.

(** * C15 *)
Theorem C15_start_asap ls ops a b z tmo now ck pr mid t p r hw ans :
  let sw := Switch a b z true tmo now ck pr in
  let tr := trace ls ops in
  let before := (ops ++ [sw]) ++ mid in
  let after := before ++ [Cycle t p r hw] in
  no_abandoned ops -> idle ls ops -> reply ls ops sw = ANone -> still_waiting ls (ops ++ [sw]) mid ->
  pending ls before -> NoDup a -> (forall k n info, hw_one hw k n info = ans n info) ->
  (forall c, In c (loaded tr) -> named a c = true -> named b c = false ->
     (r = false -> lifecycle_of (fst c) (emits ls before (Cycle t p r hw)) =
        if runsb (trace ls before) (fst c) then []
        else if swstate_eqb (ans 0%nat (snd c)) DONE then [CbStarting]
        else if swstate_eqb (ans 1%nat (snd c)) ERROR || (0 <? tmo)%Z && (tmo <? t - now)%Z then [CbAborting] else [CbWaiting]) /\
     phase_of (trace ls after) (fst c) =
        if runsb (trace ls before) (fst c) then PStarted
        else if swstate_eqb (ans 0%nat (snd c)) DONE then PStarted
        else if swstate_eqb (ans 1%nat (snd c)) ERROR || (0 <? tmo)%Z && (tmo <? t - now)%Z then PAborted else PWaiting) /\
  (pending ls after <-> exists c, In c (loaded tr) /\ named a c = true /\
      phase_of (trace ls after) (fst c) <> PStarted /\ phase_of (trace ls after) (fst c) <> PAborted).
Proof.
  cbv zeta. intros H1 H2 H3 H4 H5 H6 H7.
  exact (asap_cycle ls ops a b z true tmo now ck pr mid H1 H2 H3 H4 t p r hw ans H5 eq_refl H6 H7).
Qed.
Print Assumptions C15_start_asap.
Example C15_example :
  let sw := sw0 ["b"; "c"] ["a"] STRICT true in
  reply ld0 hist1 sw = ANone /\ pending ld0 ((hist1 ++ [sw]) ++ []) /\
  emits ld0 (hist1 ++ [sw]) (Cycle 102 1 false hwB) =
    [EvCb 0 (CbUpdate 1) 102;
     EvDo [mkInfo "b" "N" [mkIface "pos" ["j2"]]; mkInfo "c" "T" [mkIface "pos" ["j1"]]] [mkInfo "a" "T" [mkIface "pos" ["j1"]]];
     EvCb 0 CbStopping 102; EvCb 1 CbStarting 102; EvCb 2 CbWaiting 102] /\
  emits ld0 (hist1 ++ [sw; Cycle 102 1 false hwB]) (Cycle 103 1 false hwD) = [EvCb 1 (CbUpdate 1) 103; EvCb 2 CbStarting 103].
Proof. split; [reflexivity|]. split; [exists 0; reflexivity|]. vm_compute; auto. Qed.

(** * C16: nothing is left behind, if the control loop has started on the request ... *)
Theorem C16_wall_timeout ls ops a b z asap tmo now ck pr mid w ops2 :
  let sw := Switch a b z asap tmo now ck pr in
  no_abandoned ops -> idle ls ops -> reply ls ops sw = ANone -> still_waiting ls (ops ++ [sw]) mid ->
  reply ls ((ops ++ [sw]) ++ mid) (Poll w true true) = ABool false -> no_request ops2 ->
  let o2 := ((ops ++ [sw]) ++ mid) ++ [Poll w true true] in
  (forall c, In c (loaded (trace ls o2)) ->
     phase_of (trace ls (o2 ++ ops2)) (fst c) = PGone \/ phase_of (trace ls (o2 ++ ops2)) (fst c) = phase_of (trace ls o2) (fst c)) /\
  (~ no_cycle mid -> existsb is_do (emits_all ls o2 ops2) = false).
Proof. cbv zeta. intros H1 H2 H3 H4. exact (timeout_later ls ops H1 H2 a b z asap tmo now ck pr mid H3 H4 w ops2). Qed.
Print Assumptions C16_wall_timeout.
Example C16_example :
  let sw := sw0 ["c"] ["a"] STRICT false in
  let mid := [Cycle 102 1 false hwO; Poll 900000000 true true] in
  reply ld0 hist1 sw = ANone /\ still_waiting ld0 (hist1 ++ [sw]) mid /\
  reply ld0 ((hist1 ++ [sw]) ++ mid) (Poll 1000000006 true true) = ABool false /\ ~ no_cycle mid.
Proof. split; [reflexivity|]. split; [vm_compute; auto|]. split; [reflexivity|]. intros H; inversion H; contradiction. Qed.
(** ... otherwise a later cycle still tells the hardware to switch, and switches no controller. *)
Theorem C16_late_do_switch_refuted :
  exists ls ops a b w t, let sw := sw0 a b STRICT false in
    no_abandoned ops /\ idle ls ops /\ reply ls ops sw = ANone /\
    reply ls (ops ++ [sw]) (Poll w true true) = ABool false /\
    existsb is_do (emits ls (ops ++ [sw; Poll w true true]) (Cycle t 1 false hwD)) = true /\
    existsb is_lifecycle (emits ls (ops ++ [sw; Poll w true true]) (Cycle t 1 false hwD)) = false.
Proof.
  exists ld0, hist1, ["c"], ["a"], 1000000006, 102.
  split; [repeat constructor|]. vm_compute; auto.
Qed.
Print Assumptions C16_late_do_switch_refuted.

(** * C17 *)
Theorem C17_names_and_order ls ops pre post : trace ls ops = pre ++ post ->
  NoDup (map (fun c => ci_name (snd c)) (loaded pre)) /\
  loaded pre = filter (fun c => negb (destroyed pre (fst c))) (loads pre) /\ NoDup (map fst (loads pre)).
Proof. exact (distinct_at ls ops pre post). Qed.
Print Assumptions C17_names_and_order.
Example C17_example :
  map (fun c => ci_name (snd c)) (loaded (trace ld0 (hist0 ++ [Unload "b"; Load "b" (env0 "T" "j5")]))) = ["a"; "c"; "b"] /\
  reply ld0 hist0 (Load "b" (env0 "T" "j5")) = ABool false.
Proof. vm_compute; auto. Qed.

(** * C18 *)
Theorem C18_load_exact ls ops n env :
  idle ls ops -> distinct_classes (registered ls ops) ->
  (exists b, reply ls ops (Load n env) = ABool b) /\
  (reply ls ops (Load n env) = ABool true <-> load_ok ls ops n env) /\
  let tr' := trace ls (ops ++ [Load n env]) in
  (reply ls ops (Load n env) = ABool true ->
     exists i ty cl, le_type env = Some ty /\ le_init env = InitOk cl /\
       phase_of (trace ls ops) i = PAbsent /\ phase_of tr' i = PLoaded /\
       loaded tr' = loaded (trace ls ops) ++ [(i, mkInfo n ty cl)] /\
       forall j, j <> i -> phase_of tr' j = phase_of (trace ls ops) j) /\
  (reply ls ops (Load n env) = ABool false ->
     loaded tr' = loaded (trace ls ops) /\ forall j, phase_of tr' j = phase_of (trace ls ops) j).
Proof.
  exact (fun H1 H2 => conj (load_reply ls ops H1 n env) (conj (load_iff ls ops H1 n env H2) (load_effect ls ops H1 n env))).
Qed.
Print Assumptions C18_load_exact.
Example C18_example : distinct_classes (registered ld0 hist0) /\
  reply ld0 hist0 (Load "d" (env0 "T" "j1")) = ABool true /\ reply ld0 hist0 (Load "d" (env0 "X" "j1")) = ABool false /\
  reply ld0 hist0 (Load "d" (env0 "none" "j1")) = ABool false.
Proof.
  split; [|vm_compute; auto]. repeat constructor; cbn; intuition discriminate.
Qed.

(** * C19 *)
Theorem C19_unload_exact ls ops n :
  idle ls ops ->
  (reply ls ops (Unload n) = ABool true <-> exists c, In c (loaded (trace ls ops)) /\ ci_name (snd c) = n /\ ~ runs (trace ls ops) (fst c)) /\
  (reply ls ops (Unload n) = ABool true \/ reply ls ops (Unload n) = ABool false) /\
  let tr' := trace ls (ops ++ [Unload n]) in
  (reply ls ops (Unload n) = ABool true ->
     exists i, In i (map fst (loaded (trace ls ops))) /\ emits ls ops (Unload n) = [EvDestroyed i] /\
       loaded tr' = filter (fun c => negb (ci_name (snd c) =? n)%string) (loaded (trace ls ops)) /\
       forall j, j <> i -> phase_of tr' j = phase_of (trace ls ops) j) /\
  (reply ls ops (Unload n) = ABool false -> reach ls (ops ++ [Unload n]) = reach ls ops /\ tr' = trace ls ops).
Proof.
  exact (fun H => conj (proj1 (unload_iff ls ops H n)) (conj (proj2 (unload_iff ls ops H n)) (unload_effect ls ops H n))).
Qed.
Print Assumptions C19_unload_exact.
Example C19_example : reply ld0 hist1 (Unload "a") = ABool false /\ reply ld0 hist1 (Unload "b") = ABool true /\
  reply ld0 hist1 (Unload "z") = ABool false.
Proof. vm_compute; auto. Qed.

(** * C20 *)
Theorem C20_loader_priority ls ops n env k :
  idle ls ops -> distinct_classes (registered ls ops) ->
  (In (EvCreate k) (emits ls ops (Load n env)) <->
   ~ known (trace ls ops) n /\ le_nh_ok env = true /\ exists ty, le_type env = Some ty /\ asked (registered ls ops) ty k) /\
  NoDup (filter is_create (emits ls ops (Load n env))).
Proof. exact (fun H => load_asks ls ops H n env k). Qed.
Print Assumptions C20_loader_priority.
Example C20_example :
  emits ld0 [] (Load "a" (env0 "T" "j1")) = [EvCreate 0; EvLoaded 0 (mkInfo "a" "T" [mkIface "pos" ["j1"]])] /\
  emits ld0 [] (Load "a" (env0 "N" "j1")) = [EvCreate 0; EvCreate 1; EvLoaded 0 (mkInfo "a" "N" [mkIface "pos" ["j1"]])].
Proof. vm_compute; auto. Qed.

(** * C21 *)
Theorem C21_reload_refused ls ops now ck pr :
  idle ls ops -> loaded (trace ls ops) <> [] ->
  reply ls ops (Reload false now ck pr) = ABool false /\
  reach ls (ops ++ [Reload false now ck pr]) = reach ls ops /\ emits ls ops (Reload false now ck pr) = [].
Proof. exact (fun H => reload_refused ls ops H false now ck pr eq_refl). Qed.
Print Assumptions C21_reload_refused.
Theorem C21_reload_empty ls ops force now ck pr :
  idle ls ops -> loaded (trace ls ops) = [] ->
  reply ls ops (Reload force now ck pr) = ABool true /\
  emits ls ops (Reload force now ck pr) = map EvReload (seq 0 (length (registered ls ops))).
Proof. exact (fun H => reload_empty ls ops H force now ck pr). Qed.
Print Assumptions C21_reload_empty.
Theorem C21_reload_forced ls ops force now ck pr mid w k1 k2 :
  let rl := Reload force now ck pr in
  let o2 := (ops ++ [rl]) ++ mid in
  no_abandoned ops -> idle ls ops -> reply ls ops rl = ANone -> still_waiting ls (ops ++ [rl]) mid ->
  reply ls o2 (Poll w k1 k2) = ABool true ->
  loaded (trace ls (o2 ++ [Poll w k1 k2])) = [] /\
  (exists e1, emits ls o2 (Poll w k1 k2) = e1 ++ map EvReload (seq 0 (length (registered ls o2))) /\
     Forall (fun x => match x with EvDestroyed _ => True | _ => False end) e1) /\
  (forall i, runs (trace ls ops) i -> exists t, In (EvCb i CbStopping t) (emits_all ls ops (rl :: mid))).
Proof. exact (fun H1 H2 H3 H4 => reload_true ls ops H2 force now ck pr mid H1 H3 H4 w k1 k2). Qed.
Print Assumptions C21_reload_forced.
Theorem C21_never_asserts ls ops o : reply ls ops o <> AAssert.
Proof. exact (no_assert ls ops o). Qed.
Print Assumptions C21_never_asserts.
Example C21_example :
  let rl := Reload true 100 check_for_conflict agree in
  reply ld0 hist1 (Reload false 100 check_for_conflict agree) = ABool false /\
  reply ld0 hist1 rl = ANone /\ still_waiting ld0 (hist1 ++ [rl]) [Cycle 102 1 false hwD] /\
  reply ld0 ((hist1 ++ [rl]) ++ [Cycle 102 1 false hwD]) (Poll 0 true true) = ABool true /\
  emits ld0 ((hist1 ++ [rl]) ++ [Cycle 102 1 false hwD]) (Poll 0 true true) =
    [EvDestroyed 0; EvDestroyed 1; EvDestroyed 2; EvReload 0; EvReload 1].
Proof. vm_compute; auto 10. Qed.

(** * C22 *)
Theorem C22_list_controllers ls ops :
  idle ls ops -> reply ls ops ListControllers = AList (report (trace ls ops)) /\
  forall en, In en (report (trace ls ops)) -> en_state en <> "unknown".
Proof. exact (fun H => conj (list_reply ls ops H) (list_known_states ls ops)). Qed.
Print Assumptions C22_list_controllers.
Example C22_example : reply ld0 hist1 ListControllers =
  AList [mkEntry "a" "T" [mkIface "pos" ["j1"]] "running"; mkEntry "b" "N" [mkIface "pos" ["j2"]] "initialized";
         mkEntry "c" "T" [mkIface "pos" ["j1"]] "initialized"].
Proof. vm_compute; auto. Qed.

(** * C23 *)
Theorem C23_reset_controllers ls ops t p hw :
  let tr := trace ls ops in
  emits ls ops (Cycle t p true hw) =
    flat_map (fun c => [EvCb (fst c) CbStopping t; EvCb (fst c) CbStarting t]) (running_list tr) ++ emits ls ops (Cycle t p false hw) /\
  forall i, phase_of (trace ls (ops ++ [Cycle t p true hw])) i = phase_of (trace ls (ops ++ [Cycle t p false hw])) i.
Proof. exact (reset_cycle ls ops t p hw). Qed.
Print Assumptions C23_reset_controllers.
Example C23_example : emits ld0 hist1 (Cycle 102 1 true hwD) =
  [EvCb 0 CbStopping 102; EvCb 0 CbStarting 102; EvCb 0 (CbUpdate 1) 102].
Proof. vm_compute; auto. Qed.

(** * C28, sequential part: a running controller is never destroyed *)
Theorem C28_destroyed_only_when_stopped ls ops pre i post :
  trace ls ops = pre ++ EvDestroyed i :: post -> In i (map fst (loaded pre)) /\ ~ runs pre i.
Proof. exact (destroyed_stopped ls ops pre i post). Qed.
Print Assumptions C28_destroyed_only_when_stopped.
Example C28_example : exists pre post, trace ld0 (hist1 ++ [Unload "b"]) = pre ++ EvDestroyed 1 :: post.
Proof. exists (trace ld0 hist1), []. vm_compute; reflexivity. Qed.

(** * C76 *)
Theorem C76_callbacks_only_on_loaded ls ops pre i c t post :
  no_abandoned ops -> trace ls ops = pre ++ EvCb i c t :: post -> In i (map fst (loaded pre)).
Proof. exact (callbacks_loaded ls ops pre i c t post). Qed.
Print Assumptions C76_callbacks_only_on_loaded.
Example C76_example : exists pre post, trace ld0 hist1 = pre ++ EvCb 0 CbStarting 101 :: post.
Proof. eexists (trace ld0 (hist0 ++ [sw0 ["a"] [] STRICT false]) ++ [EvDo [mkInfo "a" "T" [mkIface "pos" ["j1"]]] []]), []. vm_compute; reflexivity. Qed.
(** A caller that leaves the wait loop because ros::ok() became false in its body
    leaves its requests behind; after an unload they concern a destroyed controller. *)
Theorem C76_abandoned_request_refuted :
  exists ls ops pre i t post, trace ls ops = pre ++ EvCb i CbStarting t :: post /\ ~ In i (map fst (loaded pre)) /\ phase_of pre i = PGone.
Proof.
  exists ld0, (hist1 ++ [sw0 ["c"] ["a"] STRICT false; Poll 0 true false; Unload "c"; Cycle 102 1 false hwD]).
  exists (trace ld0 (hist1 ++ [sw0 ["c"] ["a"] STRICT false; Poll 0 true false; Unload "c"]) ++
    [EvCb 0 (CbUpdate 1) 102; EvDo [mkInfo "c" "T" [mkIface "pos" ["j1"]]] [mkInfo "a" "T" [mkIface "pos" ["j1"]]]; EvCb 0 CbStopping 102]), 2%nat, 102, [].
  split; [vm_compute; reflexivity|]. split; [|vm_compute; reflexivity]. vm_compute. intuition discriminate.
Qed.
Print Assumptions C76_abandoned_request_refuted.

(** * C77 *)
Theorem C77_deadline_ends_request ls ops a b z asap tmo now ck pr mid t p r hw :
  let sw := Switch a b z asap tmo now ck pr in
  no_abandoned ops -> idle ls ops -> reply ls ops sw = ANone -> still_waiting ls (ops ++ [sw]) mid ->
  pending ls ((ops ++ [sw]) ++ mid) -> overdue now tmo t ->
  finished ls (((ops ++ [sw]) ++ mid) ++ [Cycle t p r hw]) true.
Proof. cbv zeta. intros H1 H2 H3 H4. exact (overdue_cycle ls ops a b z asap tmo now ck pr mid H1 H2 H3 H4 t p r hw). Qed.
Print Assumptions C77_deadline_ends_request.
Example C77_example :
  let sw := sw0 ["b"; "c"] ["a"] STRICT true in
  reply ld0 hist1 sw = ANone /\ still_waiting ld0 (hist1 ++ [sw]) [Cycle 105 1 false hwB] /\
  pending ld0 ((hist1 ++ [sw]) ++ [Cycle 105 1 false hwB]) /\ overdue 100 5 106.
Proof. split; [reflexivity|]. split; [vm_compute; auto|]. split; [exists 0; reflexivity|split; reflexivity]. Qed.

(** * C78 *)
Theorem C78_list_types ls ops : idle ls ops -> reply ls ops ListTypes = ATypes (offered_types (registered ls ops)).
Proof. exact (types_reply ls ops). Qed.
Print Assumptions C78_list_types.
Example C78_example : reply ld0 [RegisterLoader (mkLoader "third" [("Q", CrObject)])] ListTypes =
  ATypes [("T", "base"); ("N", "base"); ("X", "base"); ("N", "other"); ("T", "other"); ("Q", "third")].
Proof. vm_compute; reflexivity. Qed.
