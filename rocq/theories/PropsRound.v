(** Property theorems about the rounding errors of all transmission maps with doubles. *)
From Coq Require Import Reals Psatz.
From Flocq Require Import Core BinarySingleNaN.
From Verif Require Import TransModel TransSpec TransProofs TransHandle TransExact TransDouble TransRound RowSpec TransRows PropsTrans.
Open Scope R_scope.

(** The values of some variables, and their magnitudes. *)
Definition reals (m : mem doubled) (l : list addr) : list R := map (fun a => B2R (m a)) l.
Definition sizes (m : mem doubled) (l : list addr) : list R := map (fun a => Rabs (B2R (m a))) l.

Lemma start_lvls (m : mem doubled) l : Forall (fun a => ordinary_value (m a)) l -> lvls_of 0 (map m l) (reals m l) (sizes m l).
Proof. induction 1; cbn; auto using lvl_start. Qed.

(** ** C129: accuracy of every map *)

Theorem C129_to_joint_accurate : forall t q act jnt la lj (m : mem doubled),
  constructed doubled t -> ordinary t -> wired doubled t q act jnt la lj ->
  (q = AbsolutePosition -> exists p v, d_position act = Some p :: v) ->
  Forall (fun a => ordinary_value (m a)) la ->
  exists m', to_joint doubled q t act jnt m = Ok m' /\ unchanged_outside doubled lj m m' /\
    all_within (bpow radix2 (-49)) (bpow radix2 (-700)) (map m' lj)
      (values (joint_rows t q) (reals m la)) (weights (joint_rows t q) (sizes m la)).
Proof.
  intros t q act jnt la lj m HC HO HW HX HM. apply constructed_params in HC. apply wired_linked in HW as (HL & NA & NJ & D & D').
  assert (HX' : abs_ok doubled t q act) by (destruct t, q; cbn; auto).
  destruct (joint_accuracy t q act jnt la lj 0 m _ _ HC HO HL NJ D HX' (start_lvls m la HM)) as (m' & E & U & H); [lia|].
  exists m'. split; [exact E|]. split; [exact U|]. eapply lvls_within; [exact H|exact five_ops|lia].
Qed.
Print Assumptions C129_to_joint_accurate.

Theorem C129_to_actuator_accurate : forall t q act jnt la lj (m : mem doubled),
  constructed doubled t -> ordinary t -> both_ways q -> wired doubled t q act jnt la lj ->
  Forall (fun a => ordinary_value (m a)) lj ->
  exists m', to_actuator doubled q t jnt act m = Ok m' /\ unchanged_outside doubled la m m' /\
    all_within (bpow radix2 (-49)) (bpow radix2 (-700)) (map m' la)
      (values (actuator_rows t q) (reals m lj)) (weights (actuator_rows t q) (sizes m lj)).
Proof.
  intros t q act jnt la lj m HC HO HB HW HM. apply constructed_params in HC. apply wired_linked in HW as (HL & NA & NJ & D & D').
  destruct (actuator_accuracy t q act jnt la lj 0 m _ _ HC HO HB HL NA D' (start_lvls m lj HM)) as (m' & E & U & H); [lia|].
  exists m'. split; [exact E|]. split; [exact U|]. eapply lvls_within; [exact H|exact five_ops|lia].
Qed.
Print Assumptions C129_to_actuator_accurate.

(** A differential with the reductions 3 and 1, offset 3, and the values 1 and 3. *)
Definition t_round : transmission doubled := Differential doubled [u3; u1] [u1; u3] [u3; z0] false.
Definition m_round : mem doubled := fun a => if Nat.eqb a 0 then u1 else u3.
Lemma u1_val : B2R u1 = 1.
Proof. unfold u1, B2R, F2R, bpow; simpl Fnum; simpl Fexp; cbv [cond_Zopp]; simpl Z.pow_pos; lra. Qed.
Lemma u3_val : B2R u3 = 3.
Proof. unfold u3, B2R, F2R, bpow; simpl Fnum; simpl Fexp; cbv [cond_Zopp]; simpl Z.pow_pos; lra. Qed.
Lemma ordinary_small x : is_finite x = true -> 1 <= B2R x <= 4 -> ordinary_reduction x /\ ordinary_value x.
Proof.
  intros F H. assert (L : bpow radix2 (-64) <= 1) by (change 1 with (bpow radix2 0); apply bpow_le; lia).
  assert (G : forall e, (2 <= e)%Z -> 4 <= bpow radix2 e) by (intros e He; rewrite <- pw_2; apply bpow_le; lia).
  pose proof (G 64%Z ltac:(lia)). pose proof (G 200%Z ltac:(lia)). repeat split; auto; rewrite Rabs_pos_eq; lra.
Qed.
Example C129_nonvacuous :
  constructed doubled t_round /\ ordinary t_round /\ wired doubled t_round Position act2 jnt2 [0; 10]%nat [5; 15]%nat /\
  Forall (fun a => ordinary_value (m_round a)) [0; 10]%nat /\
  values (joint_rows t_round Position) (reals m_round [0; 10]%nat) = [14 / 3; - (4 / 9)].
Proof.
  assert (O1 : ordinary_reduction u1 /\ ordinary_value u1) by (apply ordinary_small; [reflexivity|rewrite u1_val; lra]).
  assert (O3 : ordinary_reduction u3 /\ ordinary_value u3) by (apply ordinary_small; [reflexivity|rewrite u3_val; lra]).
  assert (Oz : ordinary_value z0). { split; [reflexivity|]. simpl B2R. rewrite Rabs_R0. apply Rlt_le, bpow_gt_0. }
  split; [right; left; now exists [u3; u1], [u1; u3], [u3; z0], false|].
  split; [split; cbn [app]; repeat first [apply Forall_nil | apply Forall_cons; [tauto|]]|]. split.
  - repeat split; try reflexivity. repeat constructor; cbn; intuition discriminate.
  - split; [repeat first [apply Forall_nil | apply Forall_cons; [cbn; tauto|]]|]. unfold values, joint_rows, t_round, reals, value. cbn [map fst snd dot sum m_round Nat.eqb].
    rewrite u1_val, u3_val. change (B2R z0) with 0. f_equal; [field|f_equal; field].
Qed.

(** ** C130: there and back with every transmission *)

Theorem C130_actuator_round_trip : forall t q act jnt la lj (m : mem doubled),
  constructed doubled t -> ordinary t -> both_ways q -> wired doubled t q act jnt la lj ->
  Forall (fun a => ordinary_value (m a)) la ->
  exists m1 m2, to_joint doubled q t act jnt m = Ok m1 /\ to_actuator doubled q t jnt act m1 = Ok m2 /\
    unchanged_outside doubled (la ++ lj) m m2 /\
    all_within (bpow radix2 (-48)) (bpow radix2 (-390)) (map m2 la) (reals m la)
      (weights (actuator_rows t q) (weights (joint_rows t q) (sizes m la))).
Proof.
  intros t q act jnt la lj m HC HO HB HW HM. apply constructed_params in HC. apply wired_linked in HW as (HL & NA & NJ & D & D').
  destruct (joint_accuracy t q act jnt la lj 0 m _ _ HC HO HL NJ D (abs_both _ _ _ _ HB) (start_lvls m la HM)) as (m1 & E1 & U1 & H1); [lia|].
  destruct (actuator_accuracy t q act jnt la lj (0 + 5) m1 _ _ HC HO HB HL NA D' H1) as (m2 & E2 & U2 & H2); [lia|].
  rewrite rows_inverse in H2; auto; [|unfold reals; rewrite map_length; apply HL].
  exists m1, m2. split; [exact E1|]. split; [exact E2|]. split.
  - intros c Hc. rewrite U2 by (intros K; apply Hc, in_or_app; auto). apply U1. intros K. apply Hc, in_or_app. auto.
  - eapply lvls_within; [exact H2|exact ten_ops|lia].
Qed.
Print Assumptions C130_actuator_round_trip.

Theorem C130_joint_round_trip : forall t q act jnt la lj (m : mem doubled),
  constructed doubled t -> ordinary t -> both_ways q -> wired doubled t q act jnt la lj ->
  Forall (fun a => ordinary_value (m a)) lj ->
  exists m1 m2, to_actuator doubled q t jnt act m = Ok m1 /\ to_joint doubled q t act jnt m1 = Ok m2 /\
    unchanged_outside doubled (la ++ lj) m m2 /\
    all_within (bpow radix2 (-48)) (bpow radix2 (-390)) (map m2 lj) (reals m lj)
      (weights (joint_rows t q) (weights (actuator_rows t q) (sizes m lj))).
Proof.
  intros t q act jnt la lj m HC HO HB HW HM. apply constructed_params in HC. apply wired_linked in HW as (HL & NA & NJ & D & D').
  destruct (actuator_accuracy t q act jnt la lj 0 m _ _ HC HO HB HL NA D' (start_lvls m lj HM)) as (m1 & E1 & U1 & H1); [lia|].
  destruct (joint_accuracy t q act jnt la lj (0 + 5) m1 _ _ HC HO HL NJ D (abs_both _ _ _ _ HB) H1) as (m2 & E2 & U2 & H2); [lia|].
  rewrite rows_inverse' in H2; auto; [|unfold reals; rewrite map_length; apply HL].
  exists m1, m2. split; [exact E1|]. split; [exact E2|]. split.
  - intros c Hc. rewrite U2 by (intros K; apply Hc, in_or_app; auto). apply U1. intros K. apply Hc, in_or_app. auto.
  - eapply lvls_within; [exact H2|exact ten_ops|lia].
Qed.
Print Assumptions C130_joint_round_trip.

(** What the bound is for a velocity that goes through a differential to the joints and back:
    the other actuator's velocity, seen through the ratio of the reductions, counts as well. *)
Theorem C130_differential_velocity_bound : forall a0 a1 j0 j1 o0 o1 ign X Y,
  ordinary (Differential doubled [a0; a1] [j0; j1] [o0; o1] ign) ->
  let t := Differential doubled [a0; a1] [j0; j1] [o0; o1] ign in
  weights (actuator_rows t Velocity) (weights (joint_rows t Velocity) [Rabs X; Rabs Y]) =
  [Rabs X + Rabs (B2R a0 / B2R a1) * Rabs Y; Rabs (B2R a1 / B2R a0) * Rabs X + Rabs Y].
Proof.
  intros a0 a1 j0 j1 o0 o1 ign X Y [H _] t. cbn in H.
  inversion H as [|? ? A0 K1]; inversion K1 as [|? ? A1 K2]; inversion K2 as [|? ? J0 K3]; inversion K3 as [|? ? J1 _]; subst.
  pose proof (reduction_nonzero _ A0). pose proof (reduction_nonzero _ A1). pose proof (reduction_nonzero _ J0). pose proof (reduction_nonzero _ J1).
  unfold t, weights, actuator_rows, joint_rows, weight, Rdiv. cbn [map fst snd dot sum].
  rewrite ?Rabs_Ropp, ?Rabs_mult, ?Rabs_Rinv, ?Rabs_mult, ?(Rabs_pos_eq 2) by (repeat apply Rmult_integral_contrapositive_currified; auto; lra).
  f_equal; [|f_equal]; field; repeat split; auto using Rabs_no_R0.
Qed.
Print Assumptions C130_differential_velocity_bound.

Example C130_nonvacuous : constructed doubled t_round /\ ordinary t_round /\ wired doubled t_round Position act2 jnt2 [0; 10]%nat [5; 15]%nat /\
  Forall (fun a => ordinary_value (m_round a)) [0; 10]%nat /\ Forall (fun a => ordinary_value (m_round a)) [5; 15]%nat.
Proof.
  destruct C129_nonvacuous as (H1 & H2 & H3 & H4 & _). repeat (split; [assumption|]). inversion H4 as [|? ? _ K]; inversion K; subst. cbn in *. repeat first [apply Forall_nil | apply Forall_cons; [cbn; assumption|]].
Qed.

(** The round trip is not exact, even for ordinary values: one divided by 49, times 49. *)
Definition u49 : num doubled := @B754_finite 53 1024 false 6896136929411072 (-47) eq_refl.
Theorem C130_exact_refuted : exists t m1 m2,
  make_simple doubled u49 z0 = Some t /\ ordinary t /\
  to_joint doubled Velocity t act1 jnt1 (fun _ => u1) = Ok m1 /\ to_actuator doubled Velocity t jnt1 act1 m1 = Ok m2 /\
  B2R (m2 1%nat) <> B2R u1.
Proof.
  eexists. eexists. eexists. split; [reflexivity|]. split; [|split; [reflexivity|split; [reflexivity|]]].
  - split; [|split; [reflexivity|simpl B2R; rewrite Rabs_R0; apply Rlt_le, bpow_gt_0]]. split; [reflexivity|].
    assert (E : B2R u49 = 49) by (unfold u49, B2R, F2R, bpow; simpl Fnum; simpl Fexp; cbv [cond_Zopp]; simpl Z.pow_pos; lra). rewrite E, Rabs_pos_eq by lra.
    assert (bpow radix2 (-64) <= 1) by (change 1 with (bpow radix2 0); apply bpow_le; lia).
    assert (bpow radix2 6 <= bpow radix2 64) by (apply bpow_le; lia). simpl (bpow radix2 6) in *. lra.
  - intros E. apply B2R_inj in E; [|vm_compute; reflexivity..]. apply (f_equal (fun x => match x with B754_finite _ mx _ _ => mx | _ => 1%positive end)) in E. vm_compute in E. discriminate E.
Qed.
Print Assumptions C130_exact_refuted.
