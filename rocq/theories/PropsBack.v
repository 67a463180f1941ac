(** Property theorems: limiters bring a joint that is outside its limits back.  How fast is stated for exact rationals; that a call never
    makes it worse also for IEEE 754 doubles, with the place where rounding stops the way back. *)
From Coq Require Import Reals QArith Qround Qminmax Lqa Lia.
From Flocq Require Import Core BinarySingleNaN.
From Verif Require Import LimBackSpec LimExact LimDouble LimProofs LimRest LimGain LimDGain LimMisc LimBack PropsLim.
Local Open Scope list_scope.
Local Open Scope Q_scope.

(** * C131: back inside the limits *)

(** [n] calls with periods of at least [p], whatever the commands are: the distance from a soft limit becomes at most [eps], unless it is
    still at least [n * p * min (k * eps) v] smaller than it was. *)
Theorem C131_soft_position (l : limits exact) s k v lo hi ops h0 h x p before j dt :
  soft_position_ok rational l s -> k_position s = Some k -> max_velocity l = Some v -> soft_min s = Some lo -> soft_max s = Some hi ->
  pos_soft_make l s = Some h0 -> pos_soft_after h0 ops = Some h -> 0 <= p ->
  pos_soft_reference l s ops (fst (hd (j, dt) before)) = Some (Some x) ->
  Forall (fun c => numeric (j_cmd (fst c)) /\ soft_period rational gain_exact s (snd c) /\ le (q p) (snd c)) (before ++ [(j, dt)]) ->
  exists w, pos_soft_written l s (ops ++ enforced before) j dt = Some (Some w) /\
    let n := Z.of_nat (S (length before)) in
    (forall eps, 0 <= eps -> let way := inject_Z n * (p * Qmin (k * eps) v) in
       (x - hi <= eps + way -> w <= hi + eps) /\ (lo - x <= eps + way -> lo - eps <= w)) /\
    (hi <= x -> k * (x - hi) <= v -> w - hi <= Qpower (1 - k * p) n * (x - hi)) /\
    (x <= lo -> k * (lo - x) <= v -> lo - w <= Qpower (1 - k * p) n * (lo - x)).
Proof.
  intros Hok Ek Ev Elo Ehi Hm Ha Pp R F.
  destruct (soft_calls l s k v lo hi Hok Ek Ev Elo Ehi ops h0 h x p Hm Ha before j dt Pp R F) as (w & h' & _ & W & S).
  assert (Pk : 0 <= k) by (destruct Hok as (_ & (_ & _ & _ & (_ & Pk) & _) & _); rewrite Ek in Pk; now apply exact_le_some in Pk).
  assert (Pv : 0 <= v) by (destruct Hok as ((_ & _ & _ & _ & _ & (_ & Pv)) & _); rewrite Ev in Pv; now apply exact_le_some in Pv).
  exists w. split; [exact W|]. destruct (pulled_result k v lo hi p _ x w Pk Pv Pp S) as (S1 & S2 & S3).
  assert (Kp : k * p <= 1).
  { apply Forall_app in F as [_ F]. inversion F as [|? ? (_ & (_ & _ & (k' & d & K1 & K2 & K3)) & G) _]. subst. cbn [snd] in *.
    subst dt. rewrite Ek in K1. injection K1 as <-. apply exact_le_some in G. pose proof (Qmul_mono k p d Pk G). lra. }
  split; [exact S1|]. split; auto.
Qed.
Print Assumptions C131_soft_position.

(** Sooner or later the command is as close to the soft limits as one wants. *)
Theorem C131_soft_position_returns (l : limits exact) s k v lo hi ops h0 h x p eps :
  soft_position_ok rational l s -> k_position s = Some k -> max_velocity l = Some v -> soft_min s = Some lo -> soft_max s = Some hi ->
  pos_soft_make l s = Some h0 -> pos_soft_after h0 ops = Some h -> 0 < p -> 0 < k -> 0 < v -> 0 < eps ->
  exists N, forall before j dt, (N <= length before)%nat ->
  pos_soft_reference l s ops (fst (hd (j, dt) before)) = Some (Some x) ->
  Forall (fun c => numeric (j_cmd (fst c)) /\ soft_period rational gain_exact s (snd c) /\ le (q p) (snd c)) (before ++ [(j, dt)]) ->
  exists w, pos_soft_written l s (ops ++ enforced before) j dt = Some w /\ within (q (lo - eps)) (q (hi + eps)) w.
Proof.
  intros Hok Ek Ev Elo Ehi Hm Ha Pp Pk Pv Pe.
  set (c := p * Qmin (k * eps) v).
  assert (Pc : 0 < c).
  { apply Qmult_lt_0_compat; auto. destruct (Qmin_cases (k * eps) v) as [[-> _]|[-> _]]; auto. now apply Qmult_lt_0_compat. }
  set (D := Qmax (x - hi) (lo - x)). exists (Z.to_nat (Qceiling (D / c))). intros before j dt HN R F.
  destruct (C131_soft_position l s k v lo hi ops h0 h x p before j dt Hok Ek Ev Elo Ehi Hm Ha (Qlt_le_weak _ _ Pp) R F) as (w & W & S & _).
  exists (Some w). split; [exact W|]. cbv zeta in S. specialize (S eps (Qlt_le_weak _ _ Pe)). fold c in S.
  assert (Way : D <= inject_Z (Z.of_nat (Datatypes.S (length before))) * c).
  { assert (G : D / c <= inject_Z (Z.of_nat (Datatypes.S (length before)))).
    { eapply Qle_trans; [apply Qle_ceiling|]. rewrite <- Zle_Qle. lia. }
    apply (Qmult_le_compat_r _ _ c) in G; [|lra]. rewrite (Qmult_comm (D / c)), Qmult_div_r in G by lra. exact G. }
  pose proof (Q.le_max_l (x - hi) (lo - x)). pose proof (Q.le_max_r (x - hi) (lo - x)). fold D in H, H0.
  split; apply exact_le_some; apply S; lra.
Qed.
Print Assumptions C131_soft_position_returns.

(** A joint at 2 with soft limits of 7/8, told to stay there: with periods of a tenth it is led back to 7/8 + 1/100 within 290 calls
    by the first bound; in fact the first call takes it to the hard limit 1 and each later one covers 4/10 of what is left. *)
Definition stay (p : Q) : joint exact * num exact := (qj p 0 2, q (1#10)).
Example C131_soft_position_example :
  let before := repeat (stay 2) 289 in
  soft_position_ok rational (qx false) qs /\ pos_soft_reference (qx false) qs [] (fst (hd (stay 2) before)) = Some (q 2) /\
  Forall (fun c => numeric (j_cmd (fst c)) /\ soft_period rational gain_exact qs (snd c) /\ le (q (1#10)) (snd c)) (before ++ [stay 2]) /\
  2 - (7#8) <= (1#100) + inject_Z (Z.of_nat (S (length before))) * ((1#10) * Qmin (4 * (1#100)) 1).
Proof.
  split; [|split; [|split]].
  - num.
  - reflexivity.
  - apply Forall_app. split; [apply Forall_forall; intros y Hy; apply repeat_spec in Hy; subst|constructor; [|constructor]]; num.
  - vm_compute. discriminate.
Qed.
Example C131_soft_position_values :
  map (fun n => match pos_soft_written (qx false) qs (enforced (repeat (stay 2) n)) (qj 2 0 2) (q (1#10)) with
                | Some (Some w) => Some (Qred w) | _ => None end) [0; 1; 2]%nat =
  [Some 1; Some (19#20); Some (23#25)].
Proof. vm_compute. reflexivity. Qed.

(** A joint that does what the soft velocity limiter commands, without acceleration limits. *)
Theorem C131_soft_velocity (h : vel_soft exact) k v lo hi p steps x :
  has_position_limits (vf_limits h) = true -> has_acceleration_limits (vf_limits h) = false ->
  k_position (vf_soft h) = Some k -> vf_max h = Some v -> soft_min (vf_soft h) = Some lo -> soft_max (vf_soft h) = Some hi ->
  0 <= k -> 0 <= v -> lo <= hi -> 0 <= p ->
  Forall (fun o => numeric (snd (fst o)) /\ soft_period rational gain_exact (vf_soft h) (snd o) /\ le (q p) (snd o)) steps ->
  exists w, follow h (q x) steps = Some w /\
    let n := Z.of_nat (length steps) in
    (forall eps, 0 <= eps -> let way := inject_Z n * (p * Qmin (k * eps) v) in
       (x - hi <= eps + way -> w <= hi + eps) /\ (lo - x <= eps + way -> lo - eps <= w)) /\
    (k * p <= 1 -> hi <= x -> k * (x - hi) <= v -> w - hi <= Qpower (1 - k * p) n * (x - hi)) /\
    (k * p <= 1 -> x <= lo -> k * (lo - x) <= v -> lo - w <= Qpower (1 - k * p) n * (lo - x)).
Proof.
  intros Hp Ha Ek Ev Elo Ehi Pk Pv Hs Pp F.
  destruct (follow_pulled h k v lo hi p Hp Ha Ek Ev Elo Ehi Pk Pv Pp Hs steps x F) as (w & W & S).
  exists w. split; [exact W|]. exact (pulled_result k v lo hi p _ x w Pk Pv Pp S).
Qed.
Print Assumptions C131_soft_velocity.
Example C131_soft_velocity_example :
  let h := vel_soft_make (qx false) qs in
  has_position_limits (vf_limits h) = true /\ has_acceleration_limits (vf_limits h) = false /\ vf_max h = q 1 /\
  soft_period rational gain_exact (vf_soft h) (q (1#10)) /\
  map (fun n => option_map Qred (follow h (q (11#10)) (repeat (q 0, q 9, q (1#10)) n))) [1; 2; 3]%nat =
  [Some (101#100); Some (239#250); Some (2309#2500)].
Proof. split; [reflexivity|]. split; [reflexivity|]. split; [reflexivity|]. split; [num|]. vm_compute. reflexivity. Qed.

(** Plain position limits: at once from above; from below at the velocity limit, whatever the commands are. *)
Theorem C131_position (l : limits exact) ops x p v lo hi before j dt :
  pos_limits_ok rational l -> has_velocity_limits l = true ->
  max_velocity l = Some v -> min_position l = Some lo -> max_position l = Some hi -> 0 <= p ->
  pos_sat_reference l ops (fst (hd (j, dt) before)) = Some x ->
  Forall (fun c => numeric (j_cmd (fst c)) /\ rational (snd c) /\ le (q p) (snd c)) (before ++ [(j, dt)]) ->
  exists w, pos_sat_written l (ops ++ enforced before) j dt = Some w /\ w <= hi /\
    (lo <= w \/ x + inject_Z (Z.of_nat (S (length before))) * (p * v) <= w).
Proof. intros Hok V Ev Elo Ehi Pp R F. exact (sat_calls l ops x p v lo hi Hok V Ev Elo Ehi Pp before j dt R F). Qed.
Print Assumptions C131_position.
Example C131_position_example :
  pos_limits_ok rational (qx false) /\ pos_sat_reference (qx false) [] (qj (-2) 0 (-9)) = q (-2) /\
  map (fun n => option_map Qred (pos_sat_written (qx false) (enforced (repeat (qj (-2) 0 (-9), q (1#10)) n)) (qj (-2) 0 (-9)) (q (1#10))))
    [0; 1; 2]%nat = [Some (-19#10); Some (-9#5); Some (-17#10)].
Proof. split; [num|]. split; [reflexivity|]. vm_compute. reflexivity. Qed.

(** Doubles: a call never leads further away from the soft limits. *)
Theorem C131_never_further_out (l : limits double) s ops j dt h h0 ref : pos_soft_make l s = Some h0 ->
  pos_soft_after h0 ops = Some h -> pos_soft_reference l s ops j = Some ref ->
  soft_pos_limits_ok moderate l -> soft_ok moderate s -> le (soft_min s) (max_position l) -> moderate ref -> finite dt ->
  lt (zero double) dt -> numeric (j_cmd j) ->
  exists w, pos_soft_written l s ops j dt = Some w /\
    (le (soft_max s) ref -> le w ref) /\ (le ref (soft_min s) -> le ref w).
Proof. exact (pos_soft_out double_laws l s ops j dt h h0 ref). Qed.
Print Assumptions C131_never_further_out.
Theorem C131_never_further_out_exact (l : limits exact) s ops j dt h h0 ref : pos_soft_make l s = Some h0 ->
  pos_soft_after h0 ops = Some h -> pos_soft_reference l s ops j = Some ref ->
  soft_pos_limits_ok rational l -> soft_ok rational s -> le (soft_min s) (max_position l) -> rational ref -> rational dt ->
  lt (zero exact) dt -> numeric (j_cmd j) ->
  exists w, pos_soft_written l s ops j dt = Some w /\
    (le (soft_max s) ref -> le w ref) /\ (le ref (soft_min s) -> le ref w).
Proof. exact (pos_soft_out exact_laws l s ops j dt h h0 ref). Qed.
Print Assumptions C131_never_further_out_exact.

(** 7/8 and the double above it. *)
Definition above78 : num double :=
  @B754_finite 53 1024 false 7881299347898369 (-53) (eq_refl : SpecFloat.bounded 53 1024 7881299347898369 (-53) = true).
Example C131_never_further_out_example :
  soft_pos_limits_ok moderate (lx false) /\ soft_ok moderate sx /\ le (soft_min sx) (max_position (lx false)) /\
  pos_soft_reference (lx false) sx [] (jx d1 d0 d16) = Some d1 /\ le (soft_max sx) d1 /\
  match pos_soft_written (lx false) sx [] (jx d1 d0 d16) ms8 with Some w => lt w d1 | None => False end.
Proof. num. Qed.

(** With doubles the way back can end before the soft limit: a joint told to stay just above the soft limit stays there for ever, the
    step that would take it back being too small to change its position. *)
Theorem C131_stall_refuted : exists (l : limits double) s j dt x,
  soft_position_ok modest l s /\ soft_period finite gain_double s dt /\ pos_soft_reference l s [] j = Some x /\
  lt (soft_max s) x /\ lt (zero double) (k_position s) /\ lt (zero double) (max_velocity l) /\
  forall n, pos_soft_written l s (enforced (repeat (j, dt) n)) j dt = Some x.
Proof.
  exists (lx false), sx, (jx above78 d0 above78), ms8, above78.
  split; [num|]. split; [num|]. split; [reflexivity|]. split; [reflexivity|]. split; [reflexivity|]. split; [reflexivity|].
  assert (One : forall b : bool, pos_soft_enforce (mkPosSoft (lx false) sx (if b then nan double else above78)) (jx above78 d0 above78) ms8 =
    Some (mkPosSoft (lx false) sx above78, jx above78 d0 above78)).
  { intros b. rewrite (pf_enforce_eq _ (jx above78 d0 above78) ms8 above78) by (destruct b; reflexivity).
    cbv zeta. cbn [pf_limits pf_soft j_cmd jx].
    set (c := saturate above78 _ _). assert (E : c = above78) by (apply B2SF_inj; vm_compute; reflexivity). rewrite E. reflexivity. }
  intros n. unfold pos_soft_written. change (pos_soft_make (lx false) sx) with (Some (mkPosSoft (lx false) sx (nan double))).
  assert (H : forall n b, exists b', pos_soft_after (mkPosSoft (lx false) sx (if b : bool then nan double else above78))
    (enforced (repeat (jx above78 d0 above78, ms8) n)) = Some (mkPosSoft (lx false) sx (if b' : bool then nan double else above78))).
  { induction n0 as [|n0 IH]; intros b; [exists b; reflexivity|].
    cbn [repeat enforced map fst snd]. unfold pos_soft_after. cbn [fold_left]. rewrite One. cbn [option_map fst].
    exact (IH false). }
  destruct (H n true) as [b' ->]. rewrite One. reflexivity.
Qed.
Print Assumptions C131_stall_refuted.
