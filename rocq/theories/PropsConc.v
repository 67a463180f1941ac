(** Property theorems about overlapping switchController calls. *)
From Verif Require Import HwTypes Lifecycle ConflictModel CMModel CMSpec CMFinal ConcModel ConcSpec ConcProofs.
Open Scope Z_scope.
Local Open Scope string_scope.
Local Open Scope list_scope.

(** * C29 *)
Theorem C29_other_callers_harmless_when_idle ls h :
  touches_idle (cm_init ls) h ->
  snd (fst (run2 (cm_init ls) h)) = snd (fst (run2 (cm_init ls) (without h))) /\
  snd (run2 (cm_init ls) h) = snd (run2 (cm_init ls) (without h)).
Proof. intros H. destruct (touches_sim h (cm_init ls) (cm_init ls) (or_introl eq_refl) H) as (H1 & H2 & _). auto. Qed.
Print Assumptions C29_other_callers_harmless_when_idle.
Example C29_example :
  let h := [Touch] ++ map Op hist1 ++ [Touch; Op (Cycle 102 1 false hwD); Touch] in
  touches_idle (cm_init ld0) h /\ In (EvCb 0 CbStarting 101) (snd (fst (run2 (cm_init ld0) h))).
Proof. vm_compute. intuition (try discriminate). Qed.

(** A second caller arriving while a request waits for the control loop cancels it:
    no cycle performs it any more, and its caller is told that it succeeded. *)
Theorem C29_overlapping_call_cancels_request ls h cycles tmo w ok1 ok2 :
  let s := fst (fst (run2 (cm_init ls) h)) in
  let after := fst (fst (run2 s (Touch :: cycles))) in
  cm_call s = WaitSwitch tmo KReturn -> plain_cycles cycles ->
  Forall (fun e => is_update e = true) (snd (fst (run2 s (Touch :: cycles)))) /\
  snd (fst (step after (Poll w ok1 ok2))) = [] /\ snd (step after (Poll w ok1 ok2)) = ABool true.
Proof.
  cbv zeta. intros Hc Hp. set (s := fst (fst (run2 (cm_init ls) h))) in *.
  destruct (touched_cycles cycles (touch s) eq_refl Hp) as (H1 & H2 & H3).
  cbn [run2 step2]. destruct (run2 (touch s) cycles) as [[s2 e2] a2]. cbn in *. split; [exact H1|].
  apply (touched_poll s2 tmo); [rewrite H2; exact Hc|exact H3].
Qed.
Print Assumptions C29_overlapping_call_cancels_request.
Theorem C29_overlapping_call_refuted :
  exists ls h cycles tmo,
    cm_call (fst (fst (run2 (cm_init ls) h))) = WaitSwitch tmo KReturn /\ plain_cycles cycles /\
    In (EvCb 2 CbStarting 102) (snd (fst (run2 (cm_init ls) (h ++ cycles)))) /\
    ~ In (EvCb 2 CbStarting 102) (snd (fst (run2 (cm_init ls) (h ++ Touch :: cycles)))).
Proof.
  exists ld0, (map Op (hist1 ++ [sw0 ["c"] ["a"] STRICT false])), [Op (Cycle 102 1 false hwD)], 5.
  vm_compute. intuition discriminate.
Qed.
Print Assumptions C29_overlapping_call_refuted.
