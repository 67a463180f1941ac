(** The soft velocity limiter in the loop with a joint that follows its commands. *)
From Verif Require Import LimSpec LimProofs LimRest LimGain.

Section Loop.
Context {A : arith} {fin tame small : num A -> Prop} {gain : num A -> num A -> Prop}.
Context (L : laws A fin tame) (G : gain_laws fin tame small gain).
Notation F := (num A).

Let st a : small a -> tame a := small_tame _ _ _ _ G a.
Let tfin a : tame a -> fin a := tame_fin _ _ _ L a.
Let fnum a : fin a -> numeric a := fin_num _ _ _ L a.
Hint Resolve st tfin fnum : core.

Lemma follow_step (l : limits A) (h : vel_soft A) pos vel c dt :
  vf_limits h = l -> has_position_limits l = true -> has_acceleration_limits l = false ->
  bound_ok fin (vf_max h) -> soft_ok small (vf_soft h) ->
  within (soft_min (vf_soft h)) (soft_max (vf_soft h)) pos -> numeric c ->
  soft_period fin gain (vf_soft h) dt ->
  within (soft_min (vf_soft h)) (soft_max (vf_soft h))
    (add A pos (mul A (j_cmd (vel_soft_enforce h (mkJoint pos vel c) dt)) dt)).
Proof.
  intros El Hp Ha [Fm Pm] (S1 & S2 & Hs & (Sk & Pk) & (Skv & Pkv)) Hin Nc (Fdt & Pdt & Hg).
  set (s := vf_soft h) in *.
  assert (Sp : small pos) by (eapply (small_between _ _ _ _ G); [exact S1|exact S2|exact Hin]).
  assert (Pd : le (zero A) dt) by (apply (lt_le L); auto).
  destruct Hin as [H1 H2].
  assert (Hok : vel_soft_limits_ok fin tame l h).
  { split; auto. split; [split; auto|]. split; [|congruence].
    fold s. split; auto. split; auto. split; auto. split; split; auto. }
  assert (Hv : has_acceleration_limits l = true -> bounded (vf_max h) (j_vel (mkJoint pos vel c)))
    by congruence.
  destruct (vel_soft_spec L l h (mkJoint pos vel c) dt Hok (st _ Sp) Nc (conj Fdt Pd) Hv)
    as (B & U & D & _).
  specialize (U Hp). specialize (D Hp Ha). simpl in U, D. fold s in U, D.
  set (w := j_cmd (vel_soft_enforce h (mkJoint pos vel c) dt)) in *.
  assert (Fw : fin w) by (apply (bounded_fin L (vf_max h)); auto).
  assert (Mono : forall v v', fin v -> fin v' -> le v v' ->
                 le (add A pos (mul A v dt)) (add A pos (mul A v' dt))).
  { intros v v' F1 F2 H. apply (add_le _ _ _ L); auto. apply (mul_le _ _ _ L); auto. }
  assert (Z0 : fin (zero A)) by apply (zero_fin L).
  assert (Same : le (add A pos (mul A (zero A) dt)) pos /\ le pos (add A pos (mul A (zero A) dt))).
  { split.
    - apply (le_tr L _ (add A pos (zero A))); [|apply (add_zero _ _ _ L); auto].
      apply (add_le _ _ _ L); auto. apply (mul_zero _ _ _ L); auto.
    - apply (le_tr L _ (add A pos (zero A))); [apply (add_zero _ _ _ L); auto|].
      apply (add_le _ _ _ L); auto. apply (mul_zero _ _ _ L); auto. }
  assert (Fs1 : fin (sub A pos (soft_min s))) by (apply (sub_tame _ _ _ L); auto).
  assert (Fs2 : fin (sub A pos (soft_max s))) by (apply (sub_tame _ _ _ L); auto).
  split.
  - destruct D as [D|D].
    + apply (le_tr L _ (add A pos (mul A (mul A (opp A (k_position s)) (sub A pos (soft_min s))) dt))).
      * apply (gain_down _ _ _ _ G); auto.
      * apply Mono; auto. { apply (small_fin _ _ _ _ G); auto. }
        eapply (le_tr L); [|exact D]. apply (mul_opp _ _ _ L); auto.
    + apply (le_tr L _ pos); auto. apply (le_tr L _ (add A pos (mul A (zero A) dt))); [apply Same|].
      apply Mono; auto. apply (le_tr L _ (vf_max h)); auto.
  - destruct U as [U|U].
    + apply (le_tr L _ (add A pos (mul A (mul A (opp A (k_position s)) (sub A pos (soft_max s))) dt))).
      * apply Mono; auto. { apply (small_fin _ _ _ _ G); auto. }
        eapply (le_tr L); [exact U|]. apply (mul_opp _ _ _ L); auto.
      * apply (gain_up _ _ _ _ G); auto.
    + apply (le_tr L _ pos); auto. apply (le_tr L _ (add A pos (mul A (zero A) dt))); [|apply Same].
      apply Mono; auto. apply (le_tr L _ (opp A (vf_max h))); auto. apply (opp_nonpos L); auto.
Qed.

Lemma follow_inside (l : limits A) (h : vel_soft A) steps : forall pos,
  vf_limits h = l -> has_position_limits l = true -> has_acceleration_limits l = false ->
  bound_ok fin (vf_max h) -> soft_ok small (vf_soft h) ->
  within (soft_min (vf_soft h)) (soft_max (vf_soft h)) pos ->
  Forall (fun o => numeric (snd (fst o)) /\ soft_period fin gain (vf_soft h) (snd o)) steps ->
  within (soft_min (vf_soft h)) (soft_max (vf_soft h)) (follow h pos steps).
Proof.
  induction steps as [|[[vel c] dt] r IH]; intros pos E1 E2 E3 B S W Hf; [exact W|].
  inversion Hf as [|? ? [N P] Hr]; subst. simpl. apply IH; auto.
  apply (follow_step (vf_limits h)); auto.
Qed.
End Loop.
