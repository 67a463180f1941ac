(** Property theorems about joint limits.  Each is stated for the numbers the code computes
    with (IEEE 754 doubles, [double]) and again for exact rationals ([exact]). *)
From Coq Require Import Reals QArith Psatz.
From Flocq Require Import Core BinarySingleNaN.
From Verif Require Import LimSpec LimExact LimDouble LimProofs LimRest LimGain LimDGain LimMisc LimLoop SMapProofs.
Local Open Scope string_scope.
Local Open Scope list_scope.

(** What the order of the statements is for finite doubles: the order of the reals. *)
Theorem double_order (a b : num double) : finite a -> finite b -> (le a b <-> (B2R a <= B2R b)%R).
Proof.
  intros Fa Fb. rewrite le_val, !val_fin by auto. split; [tauto|].
  intros H. split; [|split; auto]; [destruct a|destruct b]; auto.
Qed.
Theorem exact_order (x y : Q) : @le exact (Some x) (Some y) <-> (x <= y)%Q.
Proof. exact (exact_le_some x y). Qed.

(** Numbers for the examples: sign, mantissa, exponent. *)
Local Notation flt s m e :=
  (@B754_finite 53 1024 s m e (eq_refl : SpecFloat.bounded 53 1024 m e = true)).
Definition d0 : num double := B754_zero false.
Definition d1 : num double := flt false 4503599627370496 (-52).
Definition d2 : num double := flt false 4503599627370496 (-51).
Definition d4 : num double := flt false 4503599627370496 (-50).
Definition d16 : num double := flt false 4503599627370496 (-48).
Definition d128 : num double := flt false 4503599627370496 (-45).
Definition half : num double := flt false 4503599627370496 (-53).
Definition eighth : num double := flt false 4503599627370496 (-55).
Definition seven8 : num double := flt false 7881299347898368 (-53).
(** One 128th: a period of about 8 ms. *)
Definition ms8 : num double := flt false 4503599627370496 (-59).
Definition neg (a : num double) : num double := opp double a.
(** The same number, up to the proofs inside. *)
Definition shows (a b : num double) : Prop := B2SF a = B2SF b.

(** Position in [-1,1], velocity 1, acceleration 4, effort 16. *)
Definition lx (acc : bool) : limits double :=
  mkLimits (neg d1) d1 d1 d4 d0 d16 true true acc false true false.
Definition sx : soft_limits double := mkSoft (neg seven8) seven8 d4 d2.
Definition jx (p v c : num double) : joint double := mkJoint p v c.
Definition q (x : Q) : num exact := Some x.
Definition qx (acc : bool) : limits exact :=
  mkLimits (A:=exact) (Some (-1)%Q) (Some 1%Q) (Some 1%Q) (Some 4%Q) (Some 0%Q) (Some 16%Q)
    true true acc false true false.
Definition qs : soft_limits exact := mkSoft (A:=exact) (Some (-7#8)%Q) (Some (7#8)%Q) (Some 4%Q) (Some 2%Q).
Definition qj (p v c : Q) : joint exact := mkJoint (A:=exact) (Some p) (Some v) (Some c).

Lemma b2r_16 : B2R d16 = 16%R.
Proof. unfold d16, B2R, F2R, bpow. simpl Fnum. simpl Fexp. cbv [cond_Zopp]. simpl Z.pow_pos. lra. Qed.
Lemma modest_16 : modest d16.
Proof.
  split; [reflexivity|]. rewrite b2r_16, Rabs_pos_eq by lra.
  apply Rle_trans with (bpow radix2 4); [simpl; lra|apply bpow_le; lia].
Qed.
Lemma modest_b (a : num double) : within (neg d16) d16 a -> modest a.
Proof.
  apply (small_between _ _ _ _ double_gain); [|exact modest_16].
  destruct modest_16 as [F B]. split; [reflexivity|]. change (neg d16) with (Bopp d16).
  rewrite B2R_Bopp, Rabs_Ropp. exact B.
Qed.
Lemma moderate_b (a : num double) : within (neg d16) d16 a -> moderate a.
Proof. intros H. apply modest_moderate, modest_b, H. Qed.

Lemma gain_ex : gain_double d4 ms8.
Proof.
  left. unfold d4, ms8, B2R, F2R, bpow. simpl Fnum. simpl Fexp. cbv [cond_Zopp].
  simpl Z.pow_pos. lra.
Qed.

(** A joint close to its upper limit. *)
Definition near1 : num double := sub double d1 ms8.
Definition ops_ex : list (lim_op double) :=
  [Enforce (jx half d0 d16) ms8; Reset; Enforce (jx near1 d0 d16) ms8].

Ltac num1 :=
  lazymatch goal with
  | |- vf_limits _ = _ => reflexivity
  | |- gain_double _ _ => exact gain_ex
  | |- gain_exact _ _ => do 2 eexists; repeat split; vm_compute; discriminate
  | |- modest _ => apply modest_b; vm_compute; auto
  | |- moderate _ => apply moderate_b; vm_compute; auto
  | |- _ /\ _ => split; num1
  | |- _ -> _ => let H := fresh in intros H; try discriminate H; num1
  | |- Forall _ [] => constructor
  | |- Forall _ (_ :: _) => constructor; num1
  | _ => vm_compute; repeat split; try reflexivity; try discriminate; auto
  end.
Ltac num :=
  cbv beta delta [pos_limits_ok soft_position_ok soft_pos_limits_ok soft_ok bound_ok vel_limits_ok
    vel_call_ok eff_limits_ok eff_soft_limits_ok vel_soft_limits_ok soft_period period_ok ops_ex within];
  cbn [starts_inside app fst snd];
  cbv beta delta [pos_limits_ok soft_position_ok soft_pos_limits_ok soft_ok bound_ok vel_limits_ok
    vel_call_ok eff_limits_ok eff_soft_limits_ok vel_soft_limits_ok soft_period period_ok within];
  num1.

(** * C46, C47: position saturation from inside the limits *)
Theorem C46_inside_limits (l : limits double) ops j dt :
  pos_limits_ok finite l ->
  starts_inside (period_ok finite) (within (min_position l) (max_position l)) true
    (ops ++ [Enforce j dt]) ->
  numeric (j_cmd j) ->
  within (min_position l) (max_position l) (pos_sat_written l ops j dt).
Proof. intros Hl Hs N. apply (pos_sat_spec double_laws l ops j dt Hl Hs). exact N. Qed.
Print Assumptions C46_inside_limits.
Theorem C46_inside_limits_exact (l : limits exact) ops j dt :
  pos_limits_ok rational l ->
  starts_inside (period_ok rational) (within (min_position l) (max_position l)) true
    (ops ++ [Enforce j dt]) ->
  numeric (j_cmd j) ->
  within (min_position l) (max_position l) (pos_sat_written l ops j dt).
Proof. intros Hl Hs N. apply (pos_sat_spec exact_laws l ops j dt Hl Hs). exact N. Qed.
Print Assumptions C46_inside_limits_exact.

Theorem C47_velocity_respected (l : limits double) ops j dt :
  pos_limits_ok finite l -> has_velocity_limits l = true ->
  starts_inside (period_ok finite) (within (min_position l) (max_position l)) true
    (ops ++ [Enforce j dt]) ->
  numeric (j_cmd j) ->
  near (mul double (max_velocity l) dt) (pos_sat_reference l ops j) (pos_sat_written l ops j dt).
Proof. intros Hl Hv Hs N. apply (pos_sat_spec double_laws l ops j dt Hl Hs); auto. Qed.
Print Assumptions C47_velocity_respected.
Theorem C47_velocity_respected_exact (l : limits exact) ops j dt :
  pos_limits_ok rational l -> has_velocity_limits l = true ->
  starts_inside (period_ok rational) (within (min_position l) (max_position l)) true
    (ops ++ [Enforce j dt]) ->
  numeric (j_cmd j) ->
  near (mul exact (max_velocity l) dt) (pos_sat_reference l ops j) (pos_sat_written l ops j dt).
Proof. intros Hl Hv Hs N. apply (pos_sat_spec exact_laws l ops j dt Hl Hs); auto. Qed.
Print Assumptions C47_velocity_respected_exact.

(** A joint at 1 - 1/128 is commanded to 16 three times, with a reset in between: the commands
    written stop at 1. *)
Example C46_example :
  pos_limits_ok finite (lx false) /\
  starts_inside (period_ok finite) (within (neg d1) d1) true (ops_ex ++ [Enforce (jx near1 d0 d16) ms8]) /\
  shows (pos_sat_written (lx false) ops_ex (jx near1 d0 d16) ms8) d1 /\
  shows (pos_sat_written (lx false) [] (jx half d0 d16) ms8) (add double half ms8).
Proof. num. Qed.
Example C46_example_exact :
  pos_limits_ok rational (qx false) /\
  starts_inside (period_ok rational) (within (q (-1)) (q 1)) true
    [Enforce (qj (1#2) 0 9) (q (1#100)); Enforce (qj 0 0 (-9)) (q (1#10))] /\
  pos_sat_written (qx false) [Enforce (qj (1#2) 0 9) (q (1#100))] (qj 0 0 (-9)) (q (1#10))
    = q (820#2000).
Proof. num. Qed.

(** * C48: whatever the position the joint starts from *)
Theorem C48_any_start (l : limits double) ops j dt :
  pos_limits_ok finite l ->
  starts_inside (period_ok finite) finite true (ops ++ [Enforce j dt]) ->
  numeric (j_cmd j) ->
  let w := pos_sat_written l ops j dt in
  let ref := pos_sat_reference l ops j in
  let ahead := add double ref (mul double (max_velocity l) dt) in
  le w (max_position l) /\
  (has_velocity_limits l = false -> within (min_position l) (max_position l) w) /\
  (has_velocity_limits l = true -> lt ahead (min_position l) -> w = ahead) /\
  (has_velocity_limits l = true -> le (min_position l) ahead ->
   within (min_position l) (max_position l) w).
Proof. exact (pos_sat_outside double_laws l ops j dt). Qed.
Print Assumptions C48_any_start.
Theorem C48_any_start_exact (l : limits exact) ops j dt :
  pos_limits_ok rational l ->
  starts_inside (period_ok rational) rational true (ops ++ [Enforce j dt]) ->
  numeric (j_cmd j) ->
  let w := pos_sat_written l ops j dt in
  let ref := pos_sat_reference l ops j in
  let ahead := add exact ref (mul exact (max_velocity l) dt) in
  le w (max_position l) /\
  (has_velocity_limits l = false -> within (min_position l) (max_position l) w) /\
  (has_velocity_limits l = true -> lt ahead (min_position l) -> w = ahead) /\
  (has_velocity_limits l = true -> le (min_position l) ahead ->
   within (min_position l) (max_position l) w).
Proof. exact (pos_sat_outside exact_laws l ops j dt). Qed.
Print Assumptions C48_any_start_exact.
Example C48_example :
  pos_limits_ok finite (lx false) /\
  starts_inside (period_ok finite) finite true
    [Enforce (jx (neg d4) d0 d16) ms8; Enforce (jx d0 d0 d16) ms8] /\
  lt (add double (neg d4) (mul double d1 ms8)) (neg d1).
Proof. num. Qed.
(** A joint below its limits is sent a command outside them ... *)
Theorem C48_refuted : exists (l : limits double) j dt,
  pos_limits_ok finite l /\ period_ok finite dt /\ finite (j_pos j) /\ finite (j_cmd j) /\
  lt (pos_sat_written l [] j dt) (min_position l).
Proof. exists (lx false), (jx (neg d4) d0 d0), ms8. num. Qed.
Print Assumptions C48_refuted.
(** ... and one above them is sent straight back, faster than the velocity limit. *)
Theorem C48_velocity_refuted : exists (l : limits double) j dt,
  pos_limits_ok finite l /\ period_ok finite dt /\ finite (j_pos j) /\ finite (j_cmd j) /\
  has_velocity_limits l = true /\
  lt (pos_sat_written l [] j dt) (sub double (j_pos j) (mul double (max_velocity l) dt)).
Proof. exists (lx false), (jx d4 d0 d0), ms8. num. Qed.
Print Assumptions C48_velocity_refuted.

(** * C49: soft position limits *)
Theorem C49_soft_position (l : limits double) s ops j dt :
  soft_position_ok modest l s ->
  starts_inside (soft_period finite gain_double s) (within (min_position l) (max_position l)) true
    (ops ++ [Enforce j dt]) ->
  numeric (j_cmd j) ->
  exists w ref, pos_soft_written l s ops j dt = Some w /\ pos_soft_reference l s ops j = Some ref /\
    within (min_position l) (max_position l) ref /\
    within (min_position l) (max_position l) w /\
    le (add double ref (opp double (mul double (max_velocity l) dt))) w /\
    le w (add double ref (mul double (max_velocity l) dt)) /\
    (within (soft_min s) (soft_max s) ref -> within (soft_min s) (soft_max s) w) /\
    (le (max_velocity l) (opp double (mul double (k_position s) (sub double ref (soft_max s)))) ->
     le (max_velocity l) (mul double (k_position s) (sub double ref (soft_min s))) ->
     within (min_position l) (max_position l) (j_cmd j) ->
     le (add double ref (opp double (mul double (max_velocity l) dt))) (j_cmd j) ->
     le (j_cmd j) (add double ref (mul double (max_velocity l) dt)) -> w = j_cmd j).
Proof. exact (pos_soft_spec double_laws double_gain l s ops j dt). Qed.
Print Assumptions C49_soft_position.
Theorem C49_soft_position_exact (l : limits exact) s ops j dt :
  soft_position_ok rational l s ->
  starts_inside (soft_period rational gain_exact s) (within (min_position l) (max_position l)) true
    (ops ++ [Enforce j dt]) ->
  numeric (j_cmd j) ->
  exists w ref, pos_soft_written l s ops j dt = Some w /\ pos_soft_reference l s ops j = Some ref /\
    within (min_position l) (max_position l) ref /\
    within (min_position l) (max_position l) w /\
    le (add exact ref (opp exact (mul exact (max_velocity l) dt))) w /\
    le w (add exact ref (mul exact (max_velocity l) dt)) /\
    (within (soft_min s) (soft_max s) ref -> within (soft_min s) (soft_max s) w) /\
    (le (max_velocity l) (opp exact (mul exact (k_position s) (sub exact ref (soft_max s)))) ->
     le (max_velocity l) (mul exact (k_position s) (sub exact ref (soft_min s))) ->
     within (min_position l) (max_position l) (j_cmd j) ->
     le (add exact ref (opp exact (mul exact (max_velocity l) dt))) (j_cmd j) ->
     le (j_cmd j) (add exact ref (mul exact (max_velocity l) dt)) -> w = j_cmd j).
Proof. exact (pos_soft_spec exact_laws exact_gain l s ops j dt). Qed.
Print Assumptions C49_soft_position_exact.
(** Started inside the soft limits it never leaves them. *)
Theorem C49_stays_in_soft_limits (l : limits double) s ops j dt :
  soft_position_ok modest l s ->
  starts_inside (soft_period finite gain_double s)
    (fun p => within (min_position l) (max_position l) p /\ within (soft_min s) (soft_max s) p) true
    (ops ++ [Enforce j dt]) ->
  numeric (j_cmd j) ->
  exists w, pos_soft_written l s ops j dt = Some w /\
    within (min_position l) (max_position l) w /\ within (soft_min s) (soft_max s) w.
Proof. exact (pos_soft_stays double_laws double_gain l s ops j dt). Qed.
Print Assumptions C49_stays_in_soft_limits.
Example C49_example :
  soft_position_ok modest (lx false) sx /\
  starts_inside (soft_period finite gain_double sx) (within (neg d1) d1) true
    [Enforce (jx half d0 d16) ms8; Enforce (jx d0 d0 d0) ms8] /\
  within (soft_min sx) (soft_max sx) half /\
  option_map B2SF (pos_soft_written (lx false) sx [] (jx half d0 d16) ms8) =
    Some (B2SF (add double half ms8)).
Proof. num. Qed.
Example C49_example_exact :
  soft_position_ok rational (qx false) qs /\
  starts_inside (soft_period rational gain_exact qs) (within (q (-1)) (q 1)) true
    [Enforce (qj (3#4) 0 9) (q (1#10))] /\
  pos_soft_written (qx false) qs [] (qj (3#4) 0 9) (q (1#10)) = Some (q (1024#1280)).
Proof. num. Qed.

(** A gain that is too high for the period drives the command out of the hard limits. *)
Definition lw : limits double := mkLimits half d1 d16 d0 d0 d0 true true false false false false.
Definition sw : soft_limits double := mkSoft half seven8 d16 d0.
Theorem C49_gain_refuted : exists (l : limits double) s j dt,
  soft_position_ok modest l s /\ finite dt /\ lt (zero double) dt /\
  within (min_position l) (max_position l) (j_pos j) /\ finite (j_cmd j) /\
  match pos_soft_written l s [] j dt with Some w => lt w (min_position l) | None => False end.
Proof.
  exists lw, sw, (jx d1 d0 d1), half. split; [num|]. split; [reflexivity|].
  split; [reflexivity|]. split; [num|]. split; [reflexivity|].
  vm_compute; reflexivity.
Qed.
Print Assumptions C49_gain_refuted.

(** With the gain times the period at one, rounding alone can leave the soft limits. *)
Definition wk : num double := flt false 5809632277579548 (-52).
Definition wdt : num double := flt false 6982338514582158 (-53).
Definition wref : num double := flt false 8333061372943972 (-53).
Definition wsoft : num double := flt true 6692146610522468 (-53).
Definition lr : limits double := mkLimits (neg d1) d1 d16 d0 d0 d0 true true false false false false.
Lemma b2r_flt s m e (H : SpecFloat.bounded 53 1024 m e = true) :
  B2R (@B754_finite 53 1024 s m e H) = (IZR (cond_Zopp s (Zpos m)) * bpow radix2 e)%R.
Proof. reflexivity. Qed.
Lemma w_gain : (B2R wk * B2R wdt <= 1)%R.
Proof.
  unfold wk, wdt. rewrite !b2r_flt. cbn [cond_Zopp].
  assert (E1 : bpow radix2 (-52) = (/ 4503599627370496)%R) by reflexivity.
  assert (E2 : bpow radix2 (-53) = (/ 9007199254740992)%R) by reflexivity.
  rewrite E1, E2. lra.
Qed.
Theorem C49_rounding_refuted : exists (l : limits double) s j dt,
  soft_position_ok modest l s /\ finite dt /\ lt (zero double) dt /\
  (B2R (k_position s) * B2R dt <= 1)%R /\
  within (soft_min s) (soft_max s) (j_pos j) /\ finite (j_cmd j) /\
  match pos_soft_written l s [] j dt with Some w => lt w (soft_min s) | None => False end.
Proof.
  exists lr, (mkSoft wsoft d1 wk d0), (jx wref d0 (neg d1)), wdt.
  split; [num|]. split; [reflexivity|]. split; [reflexivity|]. split.
  { exact w_gain. }
  split; [num|]. split; [reflexivity|]. vm_compute; reflexivity.
Qed.
Print Assumptions C49_rounding_refuted.

(** * C50: effort saturation *)
Theorem C50_effort (l : limits double) j dt :
  eff_limits_ok finite l -> numeric (j_cmd j) ->
  (has_position_limits l = true -> le (min_position l) (max_position l)) ->
  let w := j_cmd (eff_sat_enforce l j dt) in
  bounded (max_effort l) w /\
  (beyond_low l j -> le (zero double) w) /\
  (beyond_high l j -> le w (zero double)) /\
  (bounded (max_effort l) (j_cmd j) -> (beyond_low l j -> le (zero double) (j_cmd j)) ->
   (beyond_high l j -> le (j_cmd j) (zero double)) -> w = j_cmd j).
Proof. exact (eff_sat_spec double_laws l j dt). Qed.
Print Assumptions C50_effort.
Theorem C50_effort_exact (l : limits exact) j dt :
  eff_limits_ok rational l -> numeric (j_cmd j) ->
  (has_position_limits l = true -> le (min_position l) (max_position l)) ->
  let w := j_cmd (eff_sat_enforce l j dt) in
  bounded (max_effort l) w /\
  (beyond_low l j -> le (zero exact) w) /\
  (beyond_high l j -> le w (zero exact)) /\
  (bounded (max_effort l) (j_cmd j) -> (beyond_low l j -> le (zero exact) (j_cmd j)) ->
   (beyond_high l j -> le (j_cmd j) (zero exact)) -> w = j_cmd j).
Proof. exact (eff_sat_spec exact_laws l j dt). Qed.
Print Assumptions C50_effort_exact.
Example C50_example :
  eff_limits_ok finite (lx false) /\ le (min_position (lx false)) (max_position (lx false)) /\
  shows (j_cmd (eff_sat_enforce (lx false) (jx (neg d2) d0 (neg d4)) ms8)) d0 /\
  shows (j_cmd (eff_sat_enforce (lx false) (jx d0 d2 d128) ms8)) d0 /\
  shows (j_cmd (eff_sat_enforce (lx false) (jx d0 d0 d128) ms8)) d16 /\
  shows (j_cmd (eff_sat_enforce (lx false) (jx d0 d0 (neg d4)) ms8)) (neg d4).
Proof. num. Qed.
(** A joint exactly at its limit is pushed on. *)
Theorem C50_at_limit_refuted : exists (l : limits double) j dt,
  eff_limits_ok finite l /\ finite (j_cmd j) /\ has_position_limits l = true /\
  le (min_position l) (max_position l) /\ le (max_position l) (j_pos j) /\
  lt (zero double) (j_cmd (eff_sat_enforce l j dt)).
Proof. exists (lx false), (jx d1 d0 d4), ms8. num. Qed.
Print Assumptions C50_at_limit_refuted.

(** * C51: soft effort limits *)
Theorem C51_soft_effort (l : limits double) s j dt :
  eff_soft_limits_ok moderate l -> soft_ok moderate s ->
  moderate (j_pos j) -> moderate (j_vel j) -> numeric (j_cmd j) ->
  let w := j_cmd (eff_soft_enforce (mkEffSoft l s) j dt) in
  bounded (max_effort l) w /\
  (has_position_limits l = true ->
   le (max_velocity l) (mul double (k_position s) (sub double (j_pos j) (soft_max s))) ->
   le (opp double (max_velocity l)) (j_vel j) -> le w (zero double)) /\
  (has_position_limits l = true ->
   le (max_velocity l) (opp double (mul double (k_position s) (sub double (j_pos j) (soft_min s)))) ->
   le (j_vel j) (max_velocity l) -> le (zero double) w) /\
  (le (max_velocity l) (j_vel j) -> le w (zero double)) /\
  (le (j_vel j) (opp double (max_velocity l)) -> le (zero double) w).
Proof. exact (eff_soft_spec double_laws l s j dt). Qed.
Print Assumptions C51_soft_effort.
Theorem C51_soft_effort_exact (l : limits exact) s j dt :
  eff_soft_limits_ok rational l -> soft_ok rational s ->
  rational (j_pos j) -> rational (j_vel j) -> numeric (j_cmd j) ->
  let w := j_cmd (eff_soft_enforce (mkEffSoft l s) j dt) in
  bounded (max_effort l) w /\
  (has_position_limits l = true ->
   le (max_velocity l) (mul exact (k_position s) (sub exact (j_pos j) (soft_max s))) ->
   le (opp exact (max_velocity l)) (j_vel j) -> le w (zero exact)) /\
  (has_position_limits l = true ->
   le (max_velocity l) (opp exact (mul exact (k_position s) (sub exact (j_pos j) (soft_min s)))) ->
   le (j_vel j) (max_velocity l) -> le (zero exact) w) /\
  (le (max_velocity l) (j_vel j) -> le w (zero exact)) /\
  (le (j_vel j) (opp exact (max_velocity l)) -> le (zero exact) w).
Proof. exact (eff_soft_spec exact_laws l s j dt). Qed.
Print Assumptions C51_soft_effort_exact.
Example C51_example :
  eff_soft_limits_ok moderate (lx false) /\ soft_ok moderate sx /\
  (* 2 is 9/8 beyond the soft limit, 4 * 9/8 > 1 *)
  le (max_velocity (lx false)) (mul double (k_position sx) (sub double d2 (soft_max sx))) /\
  shows (j_cmd (eff_soft_enforce (mkEffSoft (lx false) sx) (jx d2 d0 d16) ms8)) (neg d2) /\
  shows (j_cmd (eff_soft_enforce (mkEffSoft (lx false) sx) (jx d0 d0 d128) ms8)) d2.
Proof. num. Qed.

(** * C52: velocity saturation *)
Theorem C52_velocity (l : limits double) ops j dt :
  vel_limits_ok finite l -> Forall (vel_call_ok finite) (ops ++ [(j, dt)]) ->
  exists w ref, vel_sat_written l ops j dt = Some w /\ vel_sat_reference l ops = Some ref /\
    bounded (max_velocity l) ref /\ bounded (max_velocity l) w /\
    (has_acceleration_limits l = true -> near (mul double (max_acceleration l) dt) ref w) /\
    (bounded (max_velocity l) (j_cmd j) ->
     (has_acceleration_limits l = true -> near (mul double (max_acceleration l) dt) ref (j_cmd j)) ->
     w = j_cmd j).
Proof. exact (vel_sat_spec double_laws l ops j dt). Qed.
Print Assumptions C52_velocity.
Theorem C52_velocity_exact (l : limits exact) ops j dt :
  vel_limits_ok rational l -> Forall (vel_call_ok rational) (ops ++ [(j, dt)]) ->
  exists w ref, vel_sat_written l ops j dt = Some w /\ vel_sat_reference l ops = Some ref /\
    bounded (max_velocity l) ref /\ bounded (max_velocity l) w /\
    (has_acceleration_limits l = true -> near (mul exact (max_acceleration l) dt) ref w) /\
    (bounded (max_velocity l) (j_cmd j) ->
     (has_acceleration_limits l = true -> near (mul exact (max_acceleration l) dt) ref (j_cmd j)) ->
     w = j_cmd j).
Proof. exact (vel_sat_spec exact_laws l ops j dt). Qed.
Print Assumptions C52_velocity_exact.
Example C52_example :
  vel_limits_ok finite (lx true) /\
  Forall (vel_call_ok finite) [(jx d0 d0 d16, eighth); (jx d0 d0 d16, eighth); (jx d0 d0 (neg d16), eighth)] /\
  option_map B2SF (vel_sat_written (lx true) [] (jx d0 d0 d16) eighth) = Some (B2SF half) /\
  option_map B2SF (vel_sat_written (lx true) [(jx d0 d0 d16, eighth)] (jx d0 d0 d16) eighth) = Some (B2SF d1) /\
  option_map B2SF (vel_sat_written (lx true) [(jx d0 d0 d16, eighth); (jx d0 d0 d16, eighth)]
    (jx d0 d0 (neg d16)) eighth) = Some (B2SF half).
Proof. num. Qed.

(** * C53: soft velocity limits *)
Theorem C53_soft_velocity (l : limits double) h j dt :
  vel_soft_limits_ok finite moderate l h -> moderate (j_pos j) -> numeric (j_cmd j) ->
  period_ok finite dt ->
  (has_acceleration_limits l = true -> bounded (vf_max h) (j_vel j)) ->
  let w := j_cmd (vel_soft_enforce h j dt) in
  let s := vf_soft h in
  bounded (vf_max h) w /\
  (has_position_limits l = true ->
   le w (opp double (mul double (k_position s) (sub double (j_pos j) (soft_max s)))) \/
   le w (opp double (vf_max h))) /\
  (has_position_limits l = true -> has_acceleration_limits l = false ->
   le (opp double (mul double (k_position s) (sub double (j_pos j) (soft_min s)))) w \/
   le (vf_max h) w) /\
  (has_acceleration_limits l = true ->
   le w (add double (j_vel j) (mul double (max_acceleration l) dt))).
Proof. exact (vel_soft_spec double_laws l h j dt). Qed.
Print Assumptions C53_soft_velocity.
Theorem C53_soft_velocity_exact (l : limits exact) h j dt :
  vel_soft_limits_ok rational rational l h -> rational (j_pos j) -> numeric (j_cmd j) ->
  period_ok rational dt ->
  (has_acceleration_limits l = true -> bounded (vf_max h) (j_vel j)) ->
  let w := j_cmd (vel_soft_enforce h j dt) in
  let s := vf_soft h in
  bounded (vf_max h) w /\
  (has_position_limits l = true ->
   le w (opp exact (mul exact (k_position s) (sub exact (j_pos j) (soft_max s)))) \/
   le w (opp exact (vf_max h))) /\
  (has_position_limits l = true -> has_acceleration_limits l = false ->
   le (opp exact (mul exact (k_position s) (sub exact (j_pos j) (soft_min s)))) w \/
   le (vf_max h) w) /\
  (has_acceleration_limits l = true ->
   le w (add exact (j_vel j) (mul exact (max_acceleration l) dt))).
Proof. exact (vel_soft_spec exact_laws l h j dt). Qed.
Print Assumptions C53_soft_velocity_exact.
Example C53_example :
  vel_soft_limits_ok finite moderate (lx false) (vel_soft_make (lx false) sx) /\
  vel_soft_limits_ok finite moderate (lx true) (vel_soft_make (lx true) sx) /\
  shows (j_cmd (vel_soft_enforce (vel_soft_make (lx false) sx) (jx seven8 d0 d16) ms8)) (neg d0) /\
  shows (j_cmd (vel_soft_enforce (vel_soft_make (lx false) sx) (jx d0 d0 d16) ms8)) d1.
Proof. num. Qed.
(** With acceleration limits a joint moving down at a lower soft limit is told to go on: the
    acceleration limit wins there (and not at the upper limit). *)
Theorem C53_lower_refuted : exists (l : limits double) s j dt,
  let h := vel_soft_make l s in
  vel_soft_limits_ok finite moderate l h /\ moderate (j_pos j) /\ finite (j_cmd j) /\
  period_ok finite dt /\ bounded (vf_max h) (j_vel j) /\ has_position_limits l = true /\
  let w := j_cmd (vel_soft_enforce h j dt) in
  lt w (opp double (mul double (k_position s) (sub double (j_pos j) (soft_min s)))) /\
  lt w (vf_max h).
Proof. exists (lx true), sx, (jx (neg seven8) (neg d1) d0), ms8. num. Qed.
Print Assumptions C53_lower_refuted.

(** * C54: nothing happens to a command that is fine; enforcing twice *)
Theorem C54_position_unchanged (l : limits double) ops j dt :
  pos_limits_ok finite l ->
  starts_inside (period_ok finite) (within (min_position l) (max_position l)) true
    (ops ++ [Enforce j dt]) ->
  within (min_position l) (max_position l) (j_cmd j) ->
  (has_velocity_limits l = true ->
   near (mul double (max_velocity l) dt) (pos_sat_reference l ops j) (j_cmd j)) ->
  pos_sat_written l ops j dt = j_cmd j.
Proof. exact (pos_sat_transparent double_laws l ops j dt). Qed.
Print Assumptions C54_position_unchanged.
Theorem C54_position_twice (l : limits double) ops j dt :
  pos_limits_ok finite l ->
  starts_inside (period_ok finite) (within (min_position l) (max_position l)) true
    (ops ++ [Enforce j dt]) ->
  numeric (j_cmd j) ->
  let w := pos_sat_written l ops j dt in
  forall p v, pos_sat_written l (ops ++ [Enforce j dt]) (mkJoint p v w) dt = w.
Proof. exact (pos_sat_twice double_laws l ops j dt). Qed.
Print Assumptions C54_position_twice.
Theorem C54_velocity_twice (l : limits double) ops j dt w :
  vel_limits_ok finite l -> Forall (vel_call_ok finite) (ops ++ [(j, dt)]) ->
  vel_sat_written l ops j dt = Some w ->
  forall p v, vel_sat_written l (ops ++ [(j, dt)]) (mkJoint p v w) dt = Some w.
Proof. exact (vel_sat_twice double_laws l ops j dt w). Qed.
Print Assumptions C54_velocity_twice.
Theorem C54_effort_twice (l : limits double) j dt dt' :
  eff_sat_enforce l (eff_sat_enforce l j dt) dt' = eff_sat_enforce l j dt.
Proof. exact (eff_sat_twice double_laws l j dt dt'). Qed.
Print Assumptions C54_effort_twice.
Theorem C54_soft_effort_twice (h : eff_soft double) j dt dt' :
  eff_soft_enforce h (eff_soft_enforce h j dt) dt' = eff_soft_enforce h j dt.
Proof. exact (eff_soft_twice double_laws h j dt dt'). Qed.
Print Assumptions C54_soft_effort_twice.
Theorem C54_soft_velocity_twice (h : vel_soft double) j dt :
  vel_soft_enforce h (vel_soft_enforce h j dt) dt = vel_soft_enforce h j dt.
Proof. exact (vel_soft_twice double_laws h j dt). Qed.
Print Assumptions C54_soft_velocity_twice.
Example C54_example :
  pos_limits_ok finite (lx false) /\
  starts_inside (period_ok finite) (within (neg d1) d1) true [Enforce (jx half d0 (add double half ms8)) ms8] /\
  near (mul double d1 ms8) (pos_sat_reference (lx false) [] (jx half d0 d0)) (add double half ms8) /\
  within (neg d1) d1 (add double half ms8).
Proof. num. Qed.
(** The soft position limiter moves on when it is called again with what it wrote, if the
    reference is outside the soft limits. *)
Theorem C54_soft_position_refuted : exists (l : limits double) s j dt,
  soft_position_ok modest l s /\ soft_period finite gain_double s dt /\
  within (min_position l) (max_position l) (j_pos j) /\ finite (j_cmd j) /\
  match pos_soft_written l s [] j dt with
  | Some w => match pos_soft_written l s [Enforce j dt] (set_command j w) dt with
              | Some w' => lt w' w
              | None => False
              end
  | None => False
  end.
Proof. exists (lx false), sx, (jx d1 d0 d1), ms8. num. Qed.
Print Assumptions C54_soft_position_refuted.

(** * C55: reset *)
Theorem C55_saturation_reset (l : limits double) ops ops' j dt :
  pos_sat_written l (ops ++ Reset :: ops') j dt = pos_sat_written l ops' j dt.
Proof. exact (pos_sat_reset_forgets l ops ops' j dt). Qed.
Print Assumptions C55_saturation_reset.
Theorem C55_soft_reset (l : limits double) s ops ops' j dt :
  (forall h, pos_soft_make l s = Some h -> pos_soft_after h ops <> None) ->
  pos_soft_written l s (ops ++ Reset :: ops') j dt = pos_soft_written l s ops' j dt.
Proof. exact (pos_soft_reset_forgets l s ops ops' j dt). Qed.
Print Assumptions C55_soft_reset.
Example C55_example :
  (forall h, pos_soft_make (lx false) sx = Some h ->
     pos_soft_after h [Enforce (jx half d0 d16) ms8] <> None) /\
  shows (pos_sat_written (lx false) [Enforce (jx half d0 d16) ms8; Reset] (jx d0 d0 d16) ms8) ms8 /\
  shows (pos_sat_written (lx false) [Enforce (jx half d0 d16) ms8] (jx d0 d0 d16) ms8)
    (add double (add double half ms8) ms8).
Proof.
  split; [|num]. intros h H E.
  assert (G : match pos_soft_make (lx false) sx with
              | Some h => match pos_soft_after h [Enforce (jx half d0 d16) ms8] with
                          | Some _ => true | None => false end
              | None => false end = true) by (vm_compute; reflexivity).
  rewrite H, E in G. discriminate.
Qed.

(** * C56: NaN commands *)
Theorem C56_saturation_nan (l : limits double) ops jn dtn ops' j dt :
  isnan double (j_cmd jn) = true ->
  pos_sat_written l (ops ++ Enforce jn dtn :: ops') j dt = pos_sat_written l ops' j dt.
Proof. exact (pos_sat_nan_forgets double_laws l ops jn dtn ops' j dt). Qed.
Print Assumptions C56_saturation_nan.
Theorem C56_soft_nan (l : limits double) s ops jn dtn ops' j dt :
  isnan double (j_cmd jn) = true ->
  (forall h, pos_soft_make l s = Some h -> pos_soft_after h (ops ++ [Enforce jn dtn]) <> None) ->
  pos_soft_written l s (ops ++ Enforce jn dtn :: ops') j dt = pos_soft_written l s ops' j dt.
Proof. exact (pos_soft_nan_forgets double_laws l s ops jn dtn ops' j dt). Qed.
Print Assumptions C56_soft_nan.
(** Without acceleration limits the velocity limiter remembers nothing. *)
Theorem C56_velocity_nan (l : limits double) h j dt :
  has_acceleration_limits l = false -> vs_limits h = l -> bound_ok finite (max_velocity l) ->
  numeric (j_cmd j) ->
  exists h' j', vel_sat_enforce h j dt = Some (h', j') /\ bounded (max_velocity l) (j_cmd j').
Proof. exact (vel_sat_noacc double_laws l h j dt). Qed.
Print Assumptions C56_velocity_nan.
(** The NaN itself reaches the hardware. *)
Theorem C56_nan_passes (j : joint double) dt : isnan double (j_cmd j) = true ->
  (forall h, j_cmd (snd (pos_sat_enforce h j dt)) = j_cmd j) /\
  (forall h r, pos_soft_enforce h j dt = Some r -> j_cmd (snd r) = j_cmd j) /\
  (forall l, j_cmd (eff_sat_enforce l j dt) = j_cmd j) /\
  (forall h, j_cmd (eff_soft_enforce h j dt) = j_cmd j) /\
  (forall h r, vel_sat_enforce h j dt = Some r -> j_cmd (snd r) = j_cmd j) /\
  (forall h, j_cmd (vel_soft_enforce h j dt) = j_cmd j).
Proof. exact (nan_passes double_laws j dt). Qed.
Print Assumptions C56_nan_passes.
Example C56_example :
  isnan double (nan double) = true /\
  shows (pos_sat_written (lx false) [Enforce (jx half d0 d16) ms8; Enforce (jx d0 d0 (nan double)) ms8]
    (jx d0 d0 d16) ms8) ms8.
Proof. num. Qed.
(** With acceleration limits the command after a NaN is not limited at all. *)
Theorem C56_velocity_refuted : exists (l : limits double) jn j dt,
  vel_limits_ok finite l /\ isnan double (j_cmd jn) = true /\ vel_call_ok finite (j, dt) /\
  match vel_sat_written l [(jn, dt)] j dt with Some w => lt (max_velocity l) w | None => False end.
Proof. exists (lx true), (jx d0 d0 (nan double)), (jx d0 d0 d128), ms8. num. Qed.
Print Assumptions C56_velocity_refuted.
Theorem C56_after_nan_unlimited (l : limits double) h j dt :
  has_acceleration_limits l = true -> vs_limits h = l -> isnan double (vs_prev h) = true ->
  lt (zero double) dt ->
  exists h' j', vel_sat_enforce h j dt = Some (h', j') /\ j_cmd j' = j_cmd j.
Proof. exact (vel_sat_nan_open double_laws l h j dt). Qed.
Print Assumptions C56_after_nan_unlimited.

(** * C57: the limit interfaces *)
Theorem C57_every_joint_once {A : arith} {H : Type}
  (enf : H -> joint A -> num A -> option (H * joint A)) m js dt m' js' :
  lim_enforce enf m js dt = Some (m', js') ->
  NoDup (map (fun p => lh_joint (snd p)) m) ->
  skeys m' = skeys m /\
  (forall nm h, In (nm, h) m -> exists s j, enf (lh_state h) (js (lh_joint h)) dt = Some (s, j) /\
     In (nm, mkLim s (lh_joint h)) m' /\ js' (lh_joint h) = j) /\
  (forall n, (forall nm h, In (nm, h) m -> lh_joint h <> n) -> js' n = js n).
Proof. exact (lim_enforce_spec enf m js dt m' js'). Qed.
Print Assumptions C57_every_joint_once.
Theorem C57_succeeds {A : arith} {H : Type}
  (enf : H -> joint A -> num A -> option (H * joint A)) m js dt :
  NoDup (map (fun p => lh_joint (snd p)) m) ->
  (lim_enforce enf m js dt <> None <->
   forall nm h, In (nm, h) m -> enf (lh_state h) (js (lh_joint h)) dt <> None).
Proof. exact (lim_enforce_some enf m js dt). Qed.
Print Assumptions C57_succeeds.
Theorem C57_reset {H : Type} (rst : H -> H) m :
  skeys (lim_reset rst m) = skeys m /\
  forall nm h, In (nm, h) (lim_reset rst m) <->
    exists h0, In (nm, h0) m /\ h = mkLim (rst (lh_state h0)) (lh_joint h0).
Proof. exact (lim_reset_spec rst m). Qed.
Print Assumptions C57_reset.
Definition enf_ps (h : pos_sat double) (j : joint double) dt := Some (pos_sat_enforce h j dt).
Definition if_ex : lim_iface (pos_sat double) :=
  lim_register (lim_register [] "b" (mkLim (pos_sat_make (lx false)) 1%nat)) "a" (mkLim (pos_sat_make (lx false)) 0%nat).
Example C57_example :
  let js := fun n => jx (match n with O => half | _ => d0 end) d0 d16 in
  skeys if_ex = ["a"; "b"] /\ NoDup (map (fun p => lh_joint (snd p)) if_ex) /\
  match lim_enforce enf_ps if_ex js ms8 with
  | Some (_, js') => shows (j_cmd (js' 0%nat)) (add double half ms8) /\ shows (j_cmd (js' 1%nat)) ms8 /\
                     shows (j_cmd (js' 2%nat)) d16
  | None => False
  end.
Proof.
  split; [reflexivity|]. split; [repeat constructor; simpl; intuition discriminate|].
  vm_compute. auto.
Qed.

(** * C58: limits from the parameter server *)
Theorem C58_limits {A : arith} (p : params A) l : exists l',
  rosparam_limits (Some p) l = (true, l') /\ pos_updated p l l' /\ wrap_updated p l l' /\
  updated p "has_velocity_limits" "max_velocity" (has_velocity_limits l) (max_velocity l)
    (has_velocity_limits l') (max_velocity l') /\
  updated p "has_acceleration_limits" "max_acceleration" (has_acceleration_limits l)
    (max_acceleration l) (has_acceleration_limits l') (max_acceleration l') /\
  updated p "has_jerk_limits" "max_jerk" (has_jerk_limits l) (max_jerk l)
    (has_jerk_limits l') (max_jerk l') /\
  updated p "has_effort_limits" "max_effort" (has_effort_limits l) (max_effort l)
    (has_effort_limits l') (max_effort l').
Proof. exact (rosparam_spec p l). Qed.
Print Assumptions C58_limits.
Theorem C58_nothing_there {A : arith} (l : limits A) (s : soft_limits A) :
  rosparam_limits None l = (false, l) /\ rosparam_soft None s = (false, s).
Proof. exact (conj eq_refl eq_refl). Qed.
Print Assumptions C58_nothing_there.
Theorem C58_soft {A : arith} (p : params A) s :
  (forall s', soft_specified p s' -> rosparam_soft (Some p) s = (true, s')) /\
  (soft_missing p -> rosparam_soft (Some p) s = (false, s)).
Proof. exact (rosparam_soft_spec p s). Qed.
Print Assumptions C58_soft.
Definition p_ex : params exact := fun n =>
  if String.eqb n "has_position_limits" then Some (PBool true)
  else if String.eqb n "min_position" then Some (PNum (q 3))
  else if String.eqb n "max_position" then Some (PNum (q 5))
  else if String.eqb n "has_velocity_limits" then Some (PBool true)
  else if String.eqb n "has_effort_limits" then Some (PBool false)
  else if String.eqb n "has_soft_limits" then Some (PBool true)
  else if String.eqb n "soft_lower_limit" then Some (PNum (q 3))
  else if String.eqb n "soft_upper_limit" then Some (PNum (q 4))
  else if String.eqb n "k_position" then Some (PNum (q 10)) else None.
Example C58_example :
  pos_specified p_ex (q 3) (q 5) /\ switched_off p_ex "has_effort_limits" /\
  ~ switched_off p_ex "has_velocity_limits" /\
  (forall x, ~ specified p_ex "has_velocity_limits" "max_velocity" x) /\
  snd (rosparam_limits (Some p_ex) (qx true)) =
    mkLimits (A:=exact) (q 3) (q 5) (q 1) (q 4) (q 0) (q 16) true true true false false false /\
  soft_missing p_ex /\ rosparam_soft (Some p_ex) qs = (false, qs) /\
  soft_specified (fun n => if String.eqb n "k_velocity" then Some (PNum (q 9)) else p_ex n)
    (mkSoft (A:=exact) (q 3) (q 4) (q 10) (q 9)).
Proof.
  split; [repeat split|]. split; [reflexivity|]. split; [discriminate|].
  split; [intros x [_ H]; discriminate H|]. split; [reflexivity|].
  split; [right; right; right; right; reflexivity|]. split; [reflexivity|]. repeat split.
Qed.
(** A parameter of the wrong type: success is reported and old and new values are mixed. *)
Theorem C58_soft_mixed_refuted : exists (p : params exact) s s',
  rosparam_soft (Some p) s = (true, s') /\ soft_min s' <> soft_min s /\ soft_max s' = soft_max s /\
  p "soft_upper_limit" = Some POther.
Proof.
  exists (fun n => if String.eqb n "k_velocity" then Some (PNum (q 9))
                   else if String.eqb n "soft_upper_limit" then Some POther else p_ex n), qs.
  eexists. split; [reflexivity|]. split; [discriminate|]. split; reflexivity.
Qed.
Print Assumptions C58_soft_mixed_refuted.

(** * C59: limits from a URDF *)
Theorem C59_limits {A : arith} t u sf (l : limits A) : exists l',
  urdf_limits (Some (mkUJoint t (Some u) sf)) l = (true, l') /\ urdf_updated t u l l'.
Proof. exact (urdf_spec t u sf l). Qed.
Print Assumptions C59_limits.
Theorem C59_no_limits {A : arith} (uj : option (urdf_joint A)) l :
  (fst (urdf_limits uj l) = false <-> forall u, uj = Some u -> uj_limits u = None) /\
  (fst (urdf_limits uj l) = false -> urdf_limits uj l = (false, l)).
Proof.
  destruct uj as [[t [u|] sf]|]; simpl; split; try split; auto; try discriminate.
  - intros H. specialize (H _ eq_refl). discriminate.
  - intros _ u H. now injection H as <-.
Qed.
Print Assumptions C59_no_limits.
Theorem C59_soft {A : arith} (uj : option (urdf_joint A)) s :
  (forall t ul us, uj = Some (mkUJoint t ul (Some us)) ->
     urdf_soft uj s = (true, mkSoft (us_lower us) (us_upper us) (us_kpos us) (us_kvel us))) /\
  ((forall u, uj = Some u -> uj_safety u = None) -> urdf_soft uj s = (false, s)).
Proof.
  destruct uj as [[t ul [us|]]|]; simpl; split; intros; try discriminate; auto.
  - now injection H as -> -> ->.
  - specialize (H _ eq_refl). discriminate.
Qed.
Print Assumptions C59_soft.
Example C59_example :
  let u := mkULim (A:=exact) (q 2) (q 3) (q 7) (q 8) in
  snd (urdf_limits (Some (mkUJoint REVOLUTE (Some u) None)) (qx false)) =
    mkLimits (A:=exact) (q 2) (q 3) (q 7) (q 4) (q 0) (q 8) true true false false true false /\
  snd (urdf_limits (Some (mkUJoint CONTINUOUS (Some u) None)) (qx false)) =
    mkLimits (A:=exact) (q (-1)) (q 1) (q 7) (q 4) (q 0) (q 8) false true false false true true.
Proof. split; reflexivity. Qed.
(** An acceleration limit already held, of which the URDF says nothing, is switched off. *)
Theorem C59_acceleration_refuted : exists u (l : limits exact),
  has_acceleration_limits l = true /\
  has_acceleration_limits (snd (urdf_limits (Some (mkUJoint REVOLUTE (Some u) None)) l)) = false.
Proof. exists (mkULim (A:=exact) (q 2) (q 3) (q 7) (q 8)), (qx true). split; reflexivity. Qed.
Print Assumptions C59_acceleration_refuted.

(** * C81: a joint following the soft velocity limiter *)
Theorem C81_follows_inside (l : limits double) h steps pos :
  vf_limits h = l -> has_position_limits l = true -> has_acceleration_limits l = false ->
  bound_ok finite (vf_max h) -> soft_ok modest (vf_soft h) ->
  within (soft_min (vf_soft h)) (soft_max (vf_soft h)) pos ->
  Forall (fun o => numeric (snd (fst o)) /\ soft_period finite gain_double (vf_soft h) (snd o)) steps ->
  within (soft_min (vf_soft h)) (soft_max (vf_soft h)) (follow h pos steps).
Proof. exact (follow_inside double_laws double_gain l h steps pos). Qed.
Print Assumptions C81_follows_inside.
Theorem C81_follows_inside_exact (l : limits exact) h steps pos :
  vf_limits h = l -> has_position_limits l = true -> has_acceleration_limits l = false ->
  bound_ok rational (vf_max h) -> soft_ok rational (vf_soft h) ->
  within (soft_min (vf_soft h)) (soft_max (vf_soft h)) pos ->
  Forall (fun o => numeric (snd (fst o)) /\ soft_period rational gain_exact (vf_soft h) (snd o)) steps ->
  within (soft_min (vf_soft h)) (soft_max (vf_soft h)) (follow h pos steps).
Proof. exact (follow_inside exact_laws exact_gain l h steps pos). Qed.
Print Assumptions C81_follows_inside_exact.
Example C81_example :
  let h := vel_soft_make (lx false) sx in
  bound_ok finite (vf_max h) /\ soft_ok modest (vf_soft h) /\
  within (soft_min (vf_soft h)) (soft_max (vf_soft h)) half /\
  soft_period finite gain_double sx ms8 /\
  shows (follow h half [(d0, d16, ms8); (d0, d16, ms8)]) (add double (add double half ms8) ms8).
Proof. num. Qed.
