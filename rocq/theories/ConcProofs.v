(** Proofs about overlapping switchController calls. *)
From Verif Require Import HwTypes Lifecycle CMModel CMSpec CMTrace ConcModel ConcSpec.

Definition set_sw (s : cm) (w : swparams) : cm :=
  mkCM (cm_list s) (cm_heap s) (cm_next s) w (cm_start s) (cm_stop s)
       (cm_hwstart s) (cm_hwstop s) (cm_loaders s) (cm_call s).

(** Same state up to parameters nobody reads. *)
Definition sim (s t : cm) : Prop :=
  t = s \/ exists w, t = set_sw s w /\ sw_do w = false /\ sw_do (cm_sw s) = false.

Lemma load_sw n env s w : load_controller n env (set_sw s w) = (let '(s1, e, b) := load_controller n env s in (set_sw s1 w, e, b)).
Proof.
  unfold load_controller. cbn.
  repeat match goal with |- context [match ?x with _ => _ end] => destruct x; cbn; try reflexivity end.
Qed.
Lemma unload_sw n s w : unload_controller n (set_sw s w) = (let '(s1, e, b) := unload_controller n s in (set_sw s1 w, e, b)).
Proof. unfold unload_controller. cbn. destruct (unload_scan _ _ _) as [[l [|]]|]; reflexivity. Qed.
Lemma unload_all_sw ns : forall s w, unload_all ns (set_sw s w) = (let '(s1, e, b) := unload_all ns s in (set_sw s1 w, e, b)).
Proof.
  induction ns as [|n ns IH]; intros s w; [reflexivity|]. simpl. rewrite unload_sw.
  destruct (unload_controller n s) as [[s1 e1] [|]]; [|reflexivity]. rewrite IH. destruct (unload_all ns s1) as [[s2 e2] b]. reflexivity.
Qed.
Lemma reload_tail_sw ns s w : reload_tail ns (set_sw s w) = (let '(s1, e, b) := reload_tail ns s in (set_sw s1 w, e, b)).
Proof.
  unfold reload_tail. rewrite unload_all_sw. destruct (unload_all ns s) as [[s1 e1] [|]]; [|reflexivity].
  cbn. destruct (cm_list s1); reflexivity.
Qed.
Lemma switch_return_sw b c k s w : switch_return b c k (set_sw s w) = (let '(s1, e, a) := switch_return b c k s in (set_sw s1 w, e, a)).
Proof.
  unfold switch_return. destruct k; [reflexivity|]. destruct b; [|reflexivity].
  rewrite <- reload_tail_sw. reflexivity.
Qed.
Lemma begin_sw a b z asap tmo now ck pr k s w : switch_begin a b z asap tmo now ck pr k (set_sw s w) = switch_begin a b z asap tmo now ck pr k s.
Proof. reflexivity. Qed.

Lemma sw_load n env s : cm_sw (fst (fst (load_controller n env s))) = cm_sw s.
Proof. unfold load_controller. repeat match goal with |- context [match ?x with _ => _ end] => destruct x; cbn; try reflexivity end. Qed.
Lemma sw_unload n s : cm_sw (fst (fst (unload_controller n s))) = cm_sw s.
Proof. unfold unload_controller. destruct (unload_scan _ _ _) as [[l [|]]|]; reflexivity. Qed.
Lemma sw_unload_all ns : forall s, cm_sw (fst (fst (unload_all ns s))) = cm_sw s.
Proof.
  induction ns as [|n ns IH]; intros s; [reflexivity|]. simpl. pose proof (sw_unload n s) as H.
  destruct (unload_controller n s) as [[s1 e1] [|]]; [|exact H]. specialize (IH s1). destruct (unload_all ns s1) as [[s2 e2] b]. cbn in *. congruence.
Qed.
Lemma sw_reload_tail ns s : cm_sw (fst (fst (reload_tail ns s))) = cm_sw s.
Proof.
  unfold reload_tail. pose proof (sw_unload_all ns s) as H. destruct (unload_all ns s) as [[s1 e1] [|]]; [|exact H].
  destruct (cm_list s1); exact H.
Qed.
Lemma sw_return b c k s : cm_sw (fst (fst (switch_return b c k s))) = cm_sw s.
Proof. unfold switch_return. destruct k; [reflexivity|]. destruct b; [|reflexivity]. rewrite sw_reload_tail. reflexivity. Qed.

Lemma sim_step s t o : sim s t -> snd (fst (step t o)) = snd (fst (step s o)) /\ snd (step t o) = snd (step s o) /\
  sim (fst (fst (step s o))) (fst (fst (step t o))).
Proof.
  intros [->|(w & -> & Hw & Hs)]; [unfold sim; auto|].
  assert (Q : forall s1 (e : list event) (a : answer), sw_do (cm_sw s1) = false ->
     sim s1 (set_sw s1 w)) by (intros; right; eauto).
  destruct o; cbn [step].
  - change (cm_call (set_sw s w)) with (cm_call s). destruct (cm_call s); [|split; [|split]; auto; apply (Q s [] ANone Hs)].
    rewrite load_sw. pose proof (sw_load name env s) as E. destruct (load_controller name env s) as [[s1 e1] b]. cbn in *.
    split; [|split]; auto. apply (Q s1 [] ANone). congruence.
  - change (cm_call (set_sw s w)) with (cm_call s). destruct (cm_call s); [|split; [|split]; auto; apply (Q s [] ANone Hs)].
    rewrite unload_sw. pose proof (sw_unload name s) as E. destruct (unload_controller name s) as [[s1 e1] b]. cbn in *.
    split; [|split]; auto. apply (Q s1 [] ANone). congruence.
  - change (cm_call (set_sw s w)) with (cm_call s). destruct (cm_call s); [|split; [|split]; auto; apply (Q s [] ANone Hs)].
    rewrite begin_sw. unfold sim. auto.
  - change (cm_call (set_sw s w)) with (cm_call s). destruct (cm_call s) as [|tmo k]; [split; [|split]; auto; apply (Q s [] ANone Hs)|].
    unfold poll. change (cm_sw (set_sw s w)) with w. rewrite Hw, Hs. rewrite andb_false_r. rewrite switch_return_sw.
    pose proof (sw_return true true k s) as E. destruct (switch_return true true k s) as [[s1 e1] a]. cbn in *.
    split; [|split]; auto. apply (Q s1 [] ANone). congruence.
  - unfold update. cbn.
    destruct (if reset then for_each (reset_body time) (cm_heap s) (cm_list s) else (cm_heap s, [])) as [h1 e1].
    destruct (for_each (update_body time period) h1 (cm_list s)) as [h2 e2]. rewrite Hw, Hs. cbn. split; [|split]; auto.
    right. exists w. auto.
  - change (cm_call (set_sw s w)) with (cm_call s). destruct (cm_call s); (split; [|split]; auto; apply (Q s [] ANone Hs)).
  - change (cm_call (set_sw s w)) with (cm_call s). destruct (cm_call s); (split; [|split]; auto; apply (Q s [] ANone Hs)).
  - change (cm_call (set_sw s w)) with (cm_call s). destruct (cm_call s); [|split; [|split]; auto; apply (Q s [] ANone Hs)].
    change (controller_names (set_sw s w)) with (controller_names s). destruct (controller_names s).
    + rewrite reload_tail_sw. pose proof (sw_reload_tail [] s) as E. destruct (reload_tail [] s) as [[s1 e1] a]. cbn in *.
      split; [|split]; auto. apply (Q s1 [] ANone). congruence.
    + destruct (negb force); [split; [|split]; auto; apply (Q s [] ANone Hs)|]. rewrite begin_sw. unfold sim. auto.
  - cbn. split; [|split]; auto. right. exists w. auto.
Qed.

Lemma sim_do s t : sim s t -> sw_do (cm_sw t) = sw_do (cm_sw s).
Proof. intros [->|(w & -> & Hw & Hs)]; [reflexivity|]. cbn. congruence. Qed.

Lemma touches_sim h : forall s t, sim s t -> touches_idle t h ->
  snd (fst (run2 t h)) = snd (fst (run2 s (without h))) /\ snd (run2 t h) = snd (run2 s (without h)) /\
  sim (fst (fst (run2 s (without h)))) (fst (fst (run2 t h))).
Proof.
  induction h as [|o h IH]; intros s t Hst Ht; [cbn; auto|]. destruct Ht as [Ht1 Ht2]. destruct o as [o|].
  - cbn [without filter run2 step2] in *. destruct (sim_step s t o Hst) as (H1 & H2 & H3).
    destruct (step t o) as [[t1 e1] a1]. destruct (step s o) as [[s1 e2] a2]. cbn in *. subst e2 a2.
    specialize (IH s1 t1 H3 Ht2). fold (without h) in *.
    destruct (run2 t1 h) as [[t2 f2] b2]. destruct (run2 s1 (without h)) as [[s2 f1] b1]. cbn in *. destruct IH as (-> & -> & H). auto.
  - cbn [without filter run2 step2] in *. fold (without h) in *.
    assert (Hs : sim s (touch t)).
    { specialize (Ht1 eq_refl). pose proof (sim_do _ _ Hst) as Hd. destruct Hst as [->|(w & -> & Hw & Hs)].
      - right. exists sw_default. repeat split; auto.
      - right. exists sw_default. repeat split; auto. }
    specialize (IH s (touch t) Hs Ht2).
    destruct (run2 (touch t) h) as [[t2 f2] b2]. exact IH.
Qed.

Lemma touched_cycles h : forall s, sw_do (cm_sw s) = false -> plain_cycles h ->
  Forall (fun e => is_update e = true) (snd (fst (run2 s h))) /\
  cm_call (fst (fst (run2 s h))) = cm_call s /\ sw_do (cm_sw (fst (fst (run2 s h)))) = false.
Proof.
  induction h as [|o h IH]; intros s Hs Hh; [cbn; auto|].
  destruct o as [o|]; [|contradiction]. destruct o as [| | | |t p [|] hw| | | |]; try contradiction.
  cbn [run2 step2 step]. unfold update.
  assert (Hu : forall l h0, Forall (fun e => is_update e = true) (snd (for_each (update_body t p) h0 l))).
  { clear. induction l as [|c l IH]; intros h0; [constructor|]. cbn. destruct (update_body t p h0 c) as [h1 e1] eqn:E.
    specialize (IH h1). destruct (for_each (update_body t p) h1 l) as [h2 e2]. cbn in *. apply Forall_app. split; [|exact IH].
    unfold update_body, update_request in E. destruct (h0 (sp_inst c)); injection E as <- <-; repeat constructor. }
  specialize (Hu (cm_list s) (cm_heap s)).
  destruct (for_each (update_body t p) (cm_heap s) (cm_list s)) as [h2 e2]. cbn [cm_sw set_heap]. rewrite Hs.
  destruct (IH (set_heap s h2) Hs Hh) as (I1 & I2 & I3). cbn in Hu |- *.
  destruct (run2 (set_heap s h2) h) as [[s3 e3] a3]. cbn in *. split; [apply Forall_app; auto|]. auto.
Qed.

Lemma touched_poll s tmo w ok1 ok2 : cm_call s = WaitSwitch tmo KReturn -> sw_do (cm_sw s) = false ->
  snd (fst (step s (Poll w ok1 ok2))) = [] /\ snd (step s (Poll w ok1 ok2)) = ABool true.
Proof. intros Hc Hd. cbn [step]. rewrite Hc. unfold poll. rewrite Hd, andb_false_r. auto. Qed.
