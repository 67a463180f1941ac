(** One sequence of operations of the sequential manager explains an execution of the interleaved one. *)
From Verif Require Import HwTypes Lifecycle CMModel CMSpec CMInv CMCycle CMLife FineModel FineSpec FineBase FineRel FineLoop FineManage FineLock FineSwitch.

Definition p_call (l : lphase) : list cyc := match l with LCalled c => [c] | _ => [] end.
Definition p_ret (l : lphase) : list (list event) := match l with LDone e => [e] | _ => [] end.
Definition p_srv (q : sphase) : list op := match q with SCalled o => [o] | _ => [] end.
Definition p_wait (q : sphase) : list event := match q with SWaiting e => e | _ => [] end.
Definition p_reply (q : sphase) : list (answer * list event) := match q with SDone a e => [(a, e)] | _ => [] end.
Definition p_ok (q : sphase) : Prop := match q with SCalled o => service o = true | _ => True end.

Lemma history_ops o tr o' : history o tr o' -> p_ok (o_srv o) -> exists ops, let out := outcomes (o_cm o) ops in
  o_cm o' = fst (run (o_cm o) ops) /\
  p_call (o_loop o) ++ loop_calls tr = map fst (seq_cycles out) ++ p_call (o_loop o') /\
  p_ret (o_loop o) ++ map snd (seq_cycles out) = loop_returns tr ++ p_ret (o_loop o') /\
  p_srv (o_srv o) ++ srv_calls tr = seq_calls out ++ p_srv (o_srv o') /\
  p_reply (o_srv o) ++ seq_replies (p_wait (o_srv o)) out = srv_returns tr ++ p_reply (o_srv o') /\
  registered tr = seq_registered out /\ p_ok (o_srv o').
Proof.
  induction 1 as [o|o l o1 ls o2 H1 _ IH]; intros K.
  - exists []. cbn. rewrite !app_nil_r. repeat split; assumption.
  - assert (K1 : p_ok (o_srv o1)) by (destruct H1; cbn in *; auto). destruct (IH K1) as (ops & I1 & I2 & I3 & I4 & I5 & I6 & I7). clear IH.
    destruct H1 as [m c q|m m' e a c q E|m e q|m l o0 S|m l o0 m' e a E N1 N2|m l o0 m' e E|m l m' e e' a E N1 N2|m l a e|m l q x];
      cbn [o_cm o_loop o_srv p_call p_ret p_srv p_wait p_reply p_ok app] in *.
    + exists ops. cbn. repeat split; try assumption.
    + exists (Cycle (c_t c) (c_p c) (c_reset c) (c_hw c) :: ops). cbn [outcomes run]. rewrite E. cbn. destruct c as [t p r hw]; cbn [c_t c_p c_reset c_hw] in *.
      destruct (run m' ops) as [mf ef] eqn:Er. cbn in *. repeat split; try assumption; try (f_equal; assumption).
    + exists ops. cbn. repeat split; try assumption. now f_equal.
    + exists ops. cbn. repeat split; try assumption.
    + exists (o0 :: ops). cbn [outcomes run]. rewrite E. destruct (run m' ops) as [mf ef] eqn:Er.
      destruct o0; try discriminate K; cbn in *; (repeat split; try assumption; try (f_equal; assumption));
        destruct a; try contradiction; assumption.
    + exists (o0 :: ops). cbn [outcomes run]. rewrite E. destruct (run m' ops) as [mf ef] eqn:Er.
      destruct o0; try discriminate K; cbn in *; (repeat split; try assumption; try (f_equal; assumption)).
    + exists (Poll 0 true true :: ops). cbn [outcomes run]. rewrite E. destruct (run m' ops) as [mf ef] eqn:Er. cbn in *.
      repeat split; try assumption; try (f_equal; assumption). destruct a; try contradiction; assumption.
    + exists ops. cbn. repeat split; try assumption. now f_equal.
    + exists (RegisterLoader x :: ops). cbn [outcomes run step]. destruct (run (set_loaders m _) ops) as [mf ef] eqn:Er. cbn in *.
      repeat split; try assumption. now f_equal.
Qed.

Lemma no_undef o tr o' : history o tr o' -> ~ In Undef tr.
Proof.
  induction 1 as [|o l o1 ls o2 H1 _ IH]; [auto|]. intros H. apply in_app_or in H as [H|H]; [|auto].
  destruct H1; cbn in H; try destruct H as [H|[]]; try discriminate H; auto.
Qed.

Lemma quiescent s o : R s o -> f_rt s = RtIdle -> f_nrt s = NIdle ->
  o_loop o = LNone /\ o_srv o = SNone /\ cm_list (o_cm o) = f_list s (f_cur s) /\ (forall i, cm_heap (o_cm o) i = cm_heap (f_m s) i) /\
  cm_sw (o_cm o) = cm_sw (f_m s) /\ cm_loaders (o_cm o) = cm_loaders (f_m s).
Proof.
  intros HR E1 E2. assert (Pl : plain (f_nrt s) = true) by now rewrite E2. assert (W := proj1 (sw_plain _ _ Pl) (r_sw _ _ HR)).
  assert (L := r_loop _ _ HR). assert (V := r_srv _ _ HR). destruct (r_mem _ _ HR) as (M1 & M2 & M3 & M4).
  unfold loop_rel in L. unfold srv_rel in V. unfold settled in M4. rewrite E1 in *. rewrite E2 in *. cbn in L, V, M4.
  repeat split; auto. - intros i. symmetry. now apply M4. - symmetry. apply W.
Qed.

(** * Which observations the atomic object allows, as a computation *)
Definition silent (o : obj) : list obj :=
  match o_loop o with
  | LCalled c => let '(m', e, _) := step (o_cm o) (Cycle (c_t c) (c_p c) (c_reset c) (c_hw c)) in [mkObj m' (LDone e) (o_srv o)]
  | _ => []
  end ++
  match o_srv o with
  | SCalled q =>
      match step (o_cm o) q with
      | (_, _, ABlocked) => []
      | (m', e, ANone) => [mkObj m' (o_loop o) (SWaiting e)]
      | (m', e, a) => [mkObj m' (o_loop o) (SDone a e)]
      end
  | SWaiting e =>
      match step (o_cm o) (Poll 0 true true) with
      | (_, _, ABlocked) | (_, _, ANone) => []
      | (m', e', a) => [mkObj m' (o_loop o) (SDone a (e ++ e'))]
      end
  | _ => []
  end.
Fixpoint closure (n : nat) (o : obj) : list obj := match n with O => [o] | S n' => o :: flat_map (closure n') (silent o) end.
Definition seen_as (x : label) (o : obj) (k : obj -> Prop) : Prop :=
  match x with
  | LCall c => match o_loop o with LNone => k (mkObj (o_cm o) (LCalled c) (o_srv o)) | _ => False end
  | LRet e => match o_loop o with LDone e' => e' = e /\ k (mkObj (o_cm o) LNone (o_srv o)) | _ => False end
  | SCall q => match o_srv o with SNone => k (mkObj (o_cm o) (o_loop o) (SCalled q)) | _ => False end
  | SRet a e => match o_srv o with SDone a' e' => a' = a /\ e' = e /\ k (mkObj (o_cm o) (o_loop o) SNone) | _ => False end
  | Reg l => k (mkObj (set_loaders (o_cm o) (cm_loaders (o_cm o) ++ [l])) (o_loop o) (o_srv o))
  | Undef => False
  end.
Fixpoint may (ls : list label) (o : obj) : Prop :=
  match ls with [] => True | x :: r => fold_right (fun o1 P => seen_as x o1 (may r) \/ P) False (closure 3 o) end.

Definition rank (o : obj) : nat :=
  match o_loop o with LCalled _ => 1 | _ => 0 end + match o_srv o with SCalled _ => 2 | SWaiting _ => 1 | _ => 0 end.
Lemma silent_rank o o1 : In o1 (silent o) -> (rank o1 < rank o)%nat.
Proof.
  destruct o as [m l q]. unfold silent, rank; cbn [o_cm o_loop o_srv]. intros H. apply in_app_or in H as [H|H].
  - destruct l as [|c|]; try destruct H. destruct (step m _) as [[m' e] a]. destruct H as [<-|[]]. cbn [o_loop o_srv]. lia.
  - destruct q as [|q|e|]; try destruct H.
    + destruct (step m q) as [[m' e] []]; try destruct H as [<-|[]]; try destruct H; cbn [o_loop o_srv]; lia.
    + destruct (step m _) as [[m' e'] []]; try destruct H as [<-|[]]; try destruct H; cbn [o_loop o_srv]; lia.
Qed.
Lemma closure_mono n n' o x : (n <= n')%nat -> In x (closure n o) -> In x (closure n' o).
Proof.
  revert n' o. induction n as [|n IH]; intros n' o Hn H.
  - destruct H as [<-|[]]. destruct n'; left; reflexivity.
  - destruct n' as [|n']; [lia|]. destruct H as [<-|H]; [now left|]. right. apply in_flat_map in H as (o1 & H1 & H2). apply in_flat_map. exists o1. split; [exact H1|].
    apply IH; [lia|exact H2].
Qed.
Lemma closure_rank n : forall o x, In x (closure n o) -> In x (closure (rank o) o).
Proof.
  induction n as [|n IH]; intros o x H.
  - destruct H as [<-|[]]. destruct (rank o); left; reflexivity.
  - destruct H as [<-|H]; [destruct (rank o); left; reflexivity|]. apply in_flat_map in H as (o1 & H1 & H2).
    assert (K := silent_rank _ _ H1). destruct (rank o) as [|k]; [lia|]. right. apply in_flat_map. exists o1. split; [exact H1|].
    eapply closure_mono; [|apply IH; exact H2]. lia.
Qed.
Lemma closure_back o o1 x : In o1 (silent o) -> In x (closure 3 o1) -> In x (closure 3 o).
Proof.
  intros H1 H2. apply closure_rank in H2. eapply closure_mono; [|apply closure_rank with (n := S (rank o1)); right; apply in_flat_map; eauto].
  unfold rank. destruct (o_loop o), (o_srv o); lia.
Qed.
Lemma fold_or {A} (f : A -> Prop) l : fold_right (fun x P => f x \/ P) False l <-> exists x, In x l /\ f x.
Proof.
  induction l as [|y l IH]; cbn; [firstorder|]. rewrite IH. split.
  - intros [H|(x & H1 & H2)]; eauto.
  - intros (x & [<-|H1] & H2); eauto.
Qed.
Lemma may_silent o o1 ls : In o1 (silent o) -> may ls o1 -> may ls o.
Proof.
  destruct ls as [|x ls]; [trivial|]. cbn [may]. rewrite !fold_or. intros H (o2 & H1 & H2). exists o2. split; [|exact H2]. eapply closure_back; eauto.
Qed.
Lemma may_visible o x ls : seen_as x o (may ls) -> may (x :: ls) o.
Proof. intros H. cbn [may]. rewrite fold_or. exists o. split; [left; reflexivity|exact H]. Qed.
Lemma history_may o ls o' : history o ls o' -> may ls o.
Proof.
  induction 1 as [|o l o1 ls o2 H1 _ IH]; [exact I|].
  destruct H1 as [m c q|m m' e a c q E|m e q|m l o0 S|m l o0 m' e a E N1 N2|m l o0 m' e E|m l m' e e' a E N1 N2|m l a e|m l q x]; cbn [app].
  - apply may_visible. exact IH.
  - eapply may_silent; [|exact IH]. unfold silent; cbn [o_cm o_loop o_srv]. rewrite E. now left.
  - apply may_visible. split; [reflexivity|exact IH].
  - apply may_visible. exact IH.
  - eapply may_silent; [|exact IH]. unfold silent; cbn [o_cm o_loop o_srv]. rewrite E. apply in_or_app. right. destruct a; try contradiction; now left.
  - eapply may_silent; [|exact IH]. unfold silent; cbn [o_cm o_loop o_srv]. rewrite E. apply in_or_app. right. now left.
  - eapply may_silent; [|exact IH]. unfold silent; cbn [o_cm o_loop o_srv]. rewrite E. apply in_or_app. right. destruct a; try contradiction; now left.
  - apply may_visible. repeat split. exact IH.
  - apply may_visible. exact IH.
Qed.
