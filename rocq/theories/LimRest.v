(** Proofs about the velocity, effort and soft limit handles, for every number type
    satisfying [laws]. *)
From Verif Require Import LimSpec LimProofs.

Section Proofs.
Context {A : arith} {fin tame : num A -> Prop} (L : laws A fin tame).
Notation F := (num A).
Implicit Types a b c v lo hi d dt : F.

Let fnum a : fin a -> numeric a := fin_num _ _ _ L a.
Let tfin a : tame a -> fin a := tame_fin _ _ _ L a.
Let tnum a : tame a -> numeric a := fun H => fnum a (tfin a H).
Let zfin : fin (zero A) := zero_fin L.
Let ztame : tame (zero A) := zero_tame _ _ _ L.
Let lrefl a : numeric a -> le a a := le_refl L a.
Hint Resolve fnum tfin tnum zfin ztame lrefl : core.

Lemma ltb_zero_le dt : lt (zero A) dt -> le (zero A) dt.
Proof. apply (lt_le L). Qed.

(** ** Velocity saturation *)

Definition vs_inv (l : limits A) (h : vel_sat A) : Prop :=
  vs_limits h = l /\ bounded (max_velocity l) (vs_prev h).

Lemma bounded_fin m a : fin m -> bounded m a -> fin a.
Proof.
  intros Fm [H1 H2]. apply (fin_between _ _ _ L (opp A m) m); auto.
  - apply (opp_fin _ _ _ L); auto.
  - split; auto.
Qed.

Lemma bounded_tame m a : tame m -> bounded m a -> tame a.
Proof.
  intros Fm [H1 H2]. apply (tame_between _ _ _ L (opp A m) m); auto.
  - apply (opp_tame _ _ _ L); auto.
  - split; auto.
Qed.

Lemma sat_bounded m v : numeric v -> le (zero A) m -> bounded m (saturate v (opp A m) m).
Proof. intros N H. apply (sat_within L); auto. apply (opp_self L); auto. Qed.

Lemma vs_step l h j dt : vel_limits_ok fin l -> vs_inv l h -> vel_call_ok fin (j, dt) ->
  exists h' j', vel_sat_enforce h j dt = Some (h', j') /\ vs_inv l h' /\ vs_prev h' = j_cmd j' /\
    (has_acceleration_limits l = true ->
     near (mul A (max_acceleration l) dt) (vs_prev h) (j_cmd j')) /\
    (bounded (max_velocity l) (j_cmd j) ->
     (has_acceleration_limits l = true ->
      near (mul A (max_acceleration l) dt) (vs_prev h) (j_cmd j)) -> j_cmd j' = j_cmd j).
Proof.
  intros (Hv & (Fv & Pv) & Ha) (El & Bp) (N & Fdt & Pdt). simpl in N, Fdt, Pdt.
  unfold vel_sat_enforce. rewrite El. destruct (has_acceleration_limits l) eqn:Ea.
  - destruct (Ha eq_refl) as [Fa Pa]. unfold lt in Pdt. rewrite Pdt. simpl.
    pose proof (bounded_fin _ _ Fv Bp) as Fp.
    assert (D : le (zero A) (mul A (max_acceleration l) dt)).
    { apply (mul_nonneg L); auto using ltb_zero_le. }
    set (d := mul A (max_acceleration l) dt) in *.
    pose proof (add_up L _ _ Fp D) as U. pose proof (sub_down L _ _ Fp D) as W.
    destruct Bp as [B1 B2].
    set (lo := fmax _ _). set (hi := fmin _ _).
    assert (H1 : le lo (vs_prev h)) by (apply fmax_lub; auto).
    assert (H2 : le (vs_prev h) hi) by (apply fmin_glb; auto).
    assert (H : le lo hi) by (eapply (le_tr L); eauto).
    destruct (sat_within L (j_cmd j) lo hi N H) as [S1 S2].
    assert (T1 : le (opp A (max_velocity l)) lo)
      by (apply (fmax_r L); [eapply le_numl; eauto | eapply le_numl; eauto]).
    assert (T2 : le hi (max_velocity l)) by (apply (fmin_r L); [eapply le_numr; eauto | auto]).
    assert (T3 : le (sub A (vs_prev h) d) lo)
      by (apply (fmax_l L); [eapply le_numl; eauto | eapply le_numl; eauto]).
    assert (T4 : le hi (add A (vs_prev h) d)) by (apply (fmin_l L); [eapply le_numr; eauto | auto]).
    eexists. eexists. split; [reflexivity|]. simpl. split; [split; [reflexivity|]|].
    { split; eapply (le_tr L); eauto. }
    split; [reflexivity|]. split.
    { intros _. split; eapply (le_tr L); eauto. }
    intros [C1 C2] Hn. destruct (Hn eq_refl) as [C3 C4]. apply sat_id.
    + apply fmax_lub; auto.
    + apply fmin_glb; auto.
  - eexists. eexists. split; [reflexivity|]. simpl. split; [split; [reflexivity|]|].
    { apply sat_bounded; auto. }
    split; [reflexivity|]. split; [discriminate|]. intros [C1 C2] _. apply sat_id; auto.
Qed.

Lemma zero_bounded m : le (zero A) m -> bounded m (zero A).
Proof.
  intros H. split; auto. apply (opp_nonpos L); auto.
Qed.

Lemma vs_after l ops : vel_limits_ok fin l -> Forall (vel_call_ok fin) ops ->
  exists h, vel_sat_after (mkVelSat l (zero A)) ops = Some h /\ vs_inv l h /\
    vel_sat_reference l ops = Some (vs_prev h).
Proof.
  intros Hl. induction ops as [|[j dt] ops IH] using rev_ind; intros Ho.
  - exists (mkVelSat l (zero A)). split; [reflexivity|]. split; [split; [reflexivity|]|reflexivity].
    apply zero_bounded. apply Hl.
  - apply Forall_app in Ho as [Ho H1]. inversion H1 as [|? ? H2 _]; subst. clear H1.
    destruct (IH Ho) as (h & E & Hi & Hr).
    destruct (vs_step l h j dt Hl Hi H2) as (h' & j' & E' & Hi' & P & _ & _).
    exists h'. split; [|split; auto].
    + unfold vel_sat_after in *. rewrite fold_left_app, E. simpl. now rewrite E'.
    + unfold vel_sat_reference. rewrite rev_app_distr. simpl. rewrite rev_involutive.
      unfold vel_sat_written, vel_sat_make. destruct Hl as (-> & _). rewrite E, E'. simpl.
      now rewrite P.
Qed.

Lemma vel_sat_spec l ops j dt : vel_limits_ok fin l ->
  Forall (vel_call_ok fin) (ops ++ [(j, dt)]) ->
  exists w ref, vel_sat_written l ops j dt = Some w /\ vel_sat_reference l ops = Some ref /\
    bounded (max_velocity l) ref /\ bounded (max_velocity l) w /\
    (has_acceleration_limits l = true -> near (mul A (max_acceleration l) dt) ref w) /\
    (bounded (max_velocity l) (j_cmd j) ->
     (has_acceleration_limits l = true -> near (mul A (max_acceleration l) dt) ref (j_cmd j)) ->
     w = j_cmd j).
Proof.
  intros Hl Ho. apply Forall_app in Ho as [Ho H1]. inversion H1 as [|? ? H2 _]; subst. clear H1.
  destruct (vs_after l ops Hl Ho) as (h & E & Hi & Hr).
  destruct (vs_step l h j dt Hl Hi H2) as (h' & j' & E' & Hi' & P & Q1 & Q2).
  exists (j_cmd j'), (vs_prev h). split.
  { unfold vel_sat_written, vel_sat_make. destruct Hl as (-> & _). now rewrite E, E'. }
  split; auto. split; [apply Hi|]. split; [rewrite <- P; apply Hi'|]. auto.
Qed.

(** Without acceleration limits nothing is remembered. *)
Lemma vel_sat_noacc l h j dt : has_acceleration_limits l = false -> vs_limits h = l ->
  bound_ok fin (max_velocity l) -> numeric (j_cmd j) ->
  exists h' j', vel_sat_enforce h j dt = Some (h', j') /\ bounded (max_velocity l) (j_cmd j').
Proof.
  intros Ea El [Fv Pv] N. unfold vel_sat_enforce. rewrite El, Ea.
  eexists. eexists. split; [reflexivity|]. apply sat_bounded; auto.
Qed.

(** ** Effort saturation *)

Lemma lt_not_le a b : lt a b -> le b a -> False.
Proof. unfold lt. intros H1 H2. apply le_lt_false in H2. congruence. Qed.

Lemma lt_tr a b c : le a b -> lt b c -> lt a c.
Proof.
  intros H1 H2. destruct (ltb_num _ _ _ L _ _ H2) as [Nb Nc].
  destruct (ltb A a c) eqn:E; auto. exfalso. apply (lt_not_le b c); auto.
  apply (le_tr L _ a); auto. split; auto. split; auto. eapply le_numl; eauto.
Qed.

(** The pair of bounds chosen by one test "below / above". *)
Lemma test_bounds (t1 t2 : bool) lo0 hi0 lo hi lo' hi' :
  (lo, hi) = (if t1 then (zero A, hi0) else if t2 then (lo0, zero A) else (lo0, hi0)) ->
  (t1 = true -> t2 = true -> False) ->
  le lo0 (zero A) -> le (zero A) hi0 -> le lo' lo0 -> le hi0 hi' ->
  le lo' lo /\ le hi hi' /\ le lo (zero A) /\ le (zero A) hi /\
  (t1 = true -> lo = zero A) /\ (t2 = true -> hi = zero A) /\
  (t1 = false -> lo = lo0) /\ (t2 = false -> hi = hi0).
Proof.
  intros E X H1 H2 H3 H4.
  assert (le lo' (zero A)) by (eapply (le_tr L); eauto).
  assert (le (zero A) hi') by (eapply (le_tr L); eauto).
  destruct t1, t2; injection E as -> ->; try (exfalso; now apply X);
    repeat split; auto; try discriminate; try apply H; try apply H0; try apply H1; try apply H2;
    try apply H3; try apply H4; try (apply (ltb_irrefl L)); auto.
Qed.

Lemma eff_sat_spec l j dt : eff_limits_ok fin l -> numeric (j_cmd j) ->
  (has_position_limits l = true -> le (min_position l) (max_position l)) ->
  let w := j_cmd (eff_sat_enforce l j dt) in
  bounded (max_effort l) w /\
  (beyond_low l j -> le (zero A) w) /\
  (beyond_high l j -> le w (zero A)) /\
  (bounded (max_effort l) (j_cmd j) -> (beyond_low l j -> le (zero A) (j_cmd j)) ->
   (beyond_high l j -> le (j_cmd j) (zero A)) -> w = j_cmd j).
Proof.
  intros (Hv & He & (Fv & Pv) & (Fe & Pe)) N Hp. cbv zeta. unfold eff_sat_enforce.
  pose proof (opp_nonpos L _ Pe) as Oe. pose proof (opp_nonpos L _ Pv) as Ov.
  set (t1 := has_position_limits l && ltb A (j_pos j) (min_position l)).
  set (t2 := has_position_limits l && ltb A (max_position l) (j_pos j)).
  set (t3 := ltb A (j_vel j) (opp A (max_velocity l))).
  set (t4 := ltb A (max_velocity l) (j_vel j)).
  assert (X12 : t1 = true -> t2 = true -> False).
  { unfold t1, t2. intros G1 G2. apply andb_true_iff in G1 as [Hh G1]. apply andb_true_iff in G2 as [_ G2].
    apply (lt_not_le (max_position l) (min_position l)); auto.
    apply (lt_tr _ (j_pos j)); auto. apply (lt_le L); auto. }
  assert (X34 : t3 = true -> t4 = true -> False).
  { unfold t3, t4. intros G1 G2. apply (lt_not_le (max_velocity l) (opp A (max_velocity l))).
    - apply (lt_tr _ (j_vel j)); auto. apply (lt_le L); auto.
    - apply (opp_self L); auto. }
  set (p1 := if t1 then (zero A, max_effort l) else if t2 then (opp A (max_effort l), zero A)
             else (opp A (max_effort l), max_effort l)).
  assert (E1 : (if has_position_limits l
     then if ltb A (j_pos j) (min_position l) then (zero A, max_effort l)
          else if ltb A (max_position l) (j_pos j) then (opp A (max_effort l), zero A)
          else (opp A (max_effort l), max_effort l)
     else (opp A (max_effort l), max_effort l)) = p1).
  { unfold p1, t1, t2. destruct (has_position_limits l); reflexivity. }
  rewrite E1. clear E1. destruct p1 as [lo1 hi1] eqn:P1. unfold p1 in P1. symmetry in P1.
  destruct (test_bounds t1 t2 _ _ _ _ (opp A (max_effort l)) (max_effort l) P1 X12 Oe Pe)
    as (A1 & A2 & A3 & A4 & A5 & A6 & A7 & A8); auto.
  { apply (le_refl L). apply (le_numl _ _ Oe). }
  destruct (if t3 then (zero A, hi1) else if t4 then (lo1, zero A) else (lo1, hi1)) as [lo hi] eqn:P2.
  symmetry in P2.
  destruct (test_bounds t3 t4 _ _ _ _ (opp A (max_effort l)) (max_effort l) P2 X34 A3 A4)
    as (B1 & B2 & B3 & B4 & B5 & B6 & B7 & B8); auto.
  assert (Hlh : le lo hi) by (eapply (le_tr L); eauto).
  simpl. destruct (sat_within L (j_cmd j) lo hi N Hlh) as [S1 S2].
  assert (LowD : beyond_low l j -> t1 = true \/ t3 = true).
  { intros [[G1 G2]|G]; [left; unfold t1; rewrite G1; exact G2 | right; exact G]. }
  assert (HighD : beyond_high l j -> t2 = true \/ t4 = true).
  { intros [[G1 G2]|G]; [left; unfold t2; rewrite G1; exact G2 | right; exact G]. }
  split; [|split; [|split]].
  - split; eapply (le_tr L); eauto.
  - intros D. eapply (le_tr L); [|exact S1].
    destruct t3 eqn:T3. { rewrite B5; auto. }
    rewrite B7 by auto. destruct (LowD D) as [G|G]; [|discriminate]. rewrite A5 by auto. auto.
  - intros D. eapply (le_tr L); [exact S2|].
    destruct t4 eqn:T4. { rewrite B6; auto. }
    rewrite B8 by auto. destruct (HighD D) as [G|G]; [|discriminate]. rewrite A6 by auto. auto.
  - intros [C1 C2] C3 C4. apply sat_id.
    + destruct t3 eqn:T3. { rewrite B5 by auto. apply C3. right. exact T3. }
      rewrite B7 by auto. destruct t1 eqn:T1.
      { rewrite A5 by auto. apply C3. left. unfold t1 in T1. apply andb_true_iff in T1. exact T1. }
      rewrite A7; auto.
    + destruct t4 eqn:T4. { rewrite B6 by auto. apply C4. right. exact T4. }
      rewrite B8 by auto. destruct t2 eqn:T2.
      { rewrite A6 by auto. apply C4. left. unfold t2 in T2. apply andb_true_iff in T2. exact T2. }
      rewrite A8; auto.
Qed.

(** ** Soft velocity bounds *)

Lemma sat_mono v v' lo hi : le v v' -> le lo hi -> le (saturate v lo hi) (saturate v' lo hi).
Proof.
  intros H Hb. assert (Nl := le_numl _ _ Hb). assert (Nh := le_numr _ _ Hb).
  assert (Nv := le_numl _ _ H). assert (Nv' := le_numr _ _ H).
  apply fmin_glb.
  - apply (le_tr L _ (fmax v lo)).
    + apply (fmin_l L); auto. apply fmax_num; auto.
    + apply fmax_lub.
      * apply (le_tr L _ v'); auto. apply (fmax_l L); auto.
      * apply (fmax_r L); auto.
  - apply (sat_hi L); auto.
Qed.

Lemma mul_num a b : fin a -> fin b -> numeric (mul A a b).
Proof.
  intros Fa Fb. pose proof (proj1 (mul_opp _ _ _ L (opp A a) b (opp_fin _ _ _ L a Fa) Fb)) as H.
  apply le_numl in H. rewrite (opp_opp _ _ _ L) in H. exact H.
Qed.

Lemma soft_num s pos b : tame (k_position s) -> tame pos -> tame b ->
  numeric (mul A (opp A (k_position s)) (sub A pos b)).
Proof.
  intros Hk Hp Hb. apply mul_num.
  - apply (opp_fin _ _ _ L). auto.
  - apply (sub_tame _ _ _ L); auto.
Qed.

Lemma soft_vel_bounded s vmax pos b : tame (k_position s) -> tame pos -> tame b ->
  le (zero A) vmax -> bounded vmax (soft_vel s vmax pos b).
Proof. intros. apply sat_bounded; auto. apply soft_num; auto. Qed.

Lemma soft_vel_mono s vmax pos b b' : bound_ok tame (k_position s) -> tame pos -> tame b -> tame b' ->
  le (zero A) vmax -> le b b' -> le (soft_vel s vmax pos b) (soft_vel s vmax pos b').
Proof.
  intros [Fk Pk] Fp Fb Fb' Pv H. apply sat_mono; [|apply (opp_self L); auto].
  apply (mul_ge _ _ _ L).
  - apply (opp_fin _ _ _ L); auto.
  - apply (sub_tame _ _ _ L); auto.
  - apply (sub_tame _ _ _ L); auto.
  - apply (opp_nonpos L); auto.
  - apply (sub_le _ _ _ L); auto.
Qed.

Lemma soft_vel_hi s vmax pos b : tame (k_position s) -> tame pos -> tame b -> le (zero A) vmax ->
  le (soft_vel s vmax pos b) (opp A (mul A (k_position s) (sub A pos b))) \/
  le (soft_vel s vmax pos b) (opp A vmax).
Proof.
  intros Fk Fp Fb Pv. unfold soft_vel, saturate.
  pose proof (soft_num s pos b Fk Fp Fb) as N.
  assert (M := proj1 (mul_opp _ _ _ L (k_position s) (sub A pos b) (tfin _ Fk) (sub_tame _ _ _ L _ _ Fp Fb))).
  assert (No : numeric (opp A vmax)) by (apply (opp_num _ _ _ L); eapply le_numr; eauto).
  set (x := mul A (opp A (k_position s)) (sub A pos b)) in *.
  assert (G : le (fmin (fmax x (opp A vmax)) vmax) (fmax x (opp A vmax))).
  { apply (fmin_l L); [apply fmax_num; auto | eapply le_numr; eauto]. }
  destruct (fmax_or x (opp A vmax)) as [E|E]; rewrite E in G at 2.
  - left. eapply (le_tr L); eauto.
  - right. auto.
Qed.

Lemma soft_vel_lo s vmax pos b : tame (k_position s) -> tame pos -> tame b -> le (zero A) vmax ->
  le (opp A (mul A (k_position s) (sub A pos b))) (soft_vel s vmax pos b) \/
  le vmax (soft_vel s vmax pos b).
Proof.
  intros Fk Fp Fb Pv. unfold soft_vel, saturate.
  pose proof (soft_num s pos b Fk Fp Fb) as N.
  assert (M := proj2 (mul_opp _ _ _ L (k_position s) (sub A pos b) (tfin _ Fk) (sub_tame _ _ _ L _ _ Fp Fb))).
  assert (No : numeric (opp A vmax)) by (apply (opp_num _ _ _ L); eapply le_numr; eauto).
  set (x := mul A (opp A (k_position s)) (sub A pos b)) in *.
  destruct (fmin_or (fmax x (opp A vmax)) vmax) as [E|E]; rewrite E.
  - left. apply (le_tr L _ x); auto. apply (fmax_l L); auto.
  - right. apply (le_refl L). eapply le_numr; eauto.
Qed.

(** ** Soft position limits *)

Definition pf_bounds (l : limits A) (s : soft_limits A) ref dt : F * F :=
  let vlo := if has_position_limits l then soft_vel s (max_velocity l) ref (soft_min s)
             else opp A (max_velocity l) in
  let vhi := if has_position_limits l then soft_vel s (max_velocity l) ref (soft_max s)
             else max_velocity l in
  if has_position_limits l
  then (fmax (add A ref (mul A vlo dt)) (min_position l),
        fmin (add A ref (mul A vhi dt)) (max_position l))
  else (add A ref (mul A vlo dt), add A ref (mul A vhi dt)).

Lemma pf_enforce_eq h j dt : forall ref,
  ref = (if isnan A (pf_prev h) then j_pos j else pf_prev h) -> lt (zero A) dt ->
  pos_soft_enforce h j dt =
  (let b := pf_bounds (pf_limits h) (pf_soft h) ref dt in
   let c := saturate (j_cmd j) (fst b) (snd b) in
   Some (mkPosSoft (pf_limits h) (pf_soft h) c, set_command j c)).
Proof.
  intros ref -> H. unfold pos_soft_enforce, pf_bounds. unfold lt in H. rewrite H. simpl.
  destruct (has_position_limits (pf_limits h)); reflexivity.
Qed.

Lemma pf_step l s ref c dt : soft_pos_limits_ok tame l -> soft_ok tame s ->
  within (min_position l) (max_position l) ref -> fin dt -> lt (zero A) dt -> numeric c ->
  let b := pf_bounds l s ref dt in
  let w := saturate c (fst b) (snd b) in
  le w (max_position l) /\
  le (add A ref (opp A (mul A (max_velocity l) dt))) w /\
  le w (add A ref (mul A (max_velocity l) dt)).
Proof.
  intros (Hp & Hv & Tl & Th & Hlh & (Tv & Pv)) (Ts1 & Ts2 & Hs & Hk & Hkv) Hr Fdt Pdt N.
  assert (Tr : tame ref) by (eapply (tame_between _ _ _ L); [exact Tl | exact Th | auto]).
  pose proof (ltb_zero_le _ Pdt) as Pd.
  destruct Hk as [Tk Pk].
  pose proof (soft_vel_bounded s (max_velocity l) ref (soft_min s) Tk Tr Ts1 Pv) as Bl.
  pose proof (soft_vel_bounded s (max_velocity l) ref (soft_max s) Tk Tr Ts2 Pv) as Bh.
  unfold pf_bounds. rewrite Hp. cbv zeta. simpl.
  set (vlo := soft_vel s (max_velocity l) ref (soft_min s)) in *.
  set (vhi := soft_vel s (max_velocity l) ref (soft_max s)) in *.
  assert (Fl : fin vlo) by (apply (bounded_fin (max_velocity l)); auto).
  assert (Fh : fin vhi) by (apply (bounded_fin (max_velocity l)); auto).
  assert (Fo : fin (opp A (max_velocity l))) by (apply (opp_fin _ _ _ L); auto).
  assert (Nl : numeric (add A ref (mul A vlo dt))).
  { eapply le_numl. apply (add_le _ _ _ L); [auto|]. apply (le_refl L). apply mul_num; auto. }
  assert (M1 : le (mul A (opp A (max_velocity l)) dt) (mul A vlo dt))
    by (apply (mul_le _ _ _ L); auto; apply Bl).
  assert (M2 : le (mul A (opp A (max_velocity l)) dt) (mul A vhi dt))
    by (apply (mul_le _ _ _ L); auto; apply Bh).
  assert (M3 : le (mul A vhi dt) (mul A (max_velocity l) dt))
    by (apply (mul_le _ _ _ L); auto; apply Bh).
  assert (M4 : le (opp A (mul A (max_velocity l) dt)) (mul A (opp A (max_velocity l)) dt))
    by (apply (mul_opp _ _ _ L); auto).
  assert (Nh : numeric (add A ref (mul A vhi dt))).
  { eapply le_numl. apply (add_le _ _ _ L); [auto|exact M3]. }
  set (lo := fmax _ _). set (hi := fmin _ _).
  assert (Nlo : numeric lo) by (apply fmax_num; auto).
  assert (Nhi : numeric hi) by (apply fmin_num; auto).
  pose proof (sat_hi L c lo hi N Nlo Nhi) as S.
  split; [|split].
  - eapply (le_tr L); [exact S|]. apply (fmin_r L); auto.
  - apply (sat_lo L); auto.
    + apply (le_tr L _ (add A ref (mul A vlo dt))); [|apply (fmax_l L); auto].
      apply (add_le _ _ _ L); auto. eapply (le_tr L); eauto.
    + apply fmin_glb.
      * apply (add_le _ _ _ L); auto. eapply (le_tr L); eauto.
      * apply (le_tr L _ ref); [|apply Hr].
        apply (le_tr L _ (add A ref (zero A))); [|apply (add_zero _ _ _ L); auto].
        apply (add_le _ _ _ L); auto. apply (opp_nonpos L). apply (mul_nonneg L); auto.
  - eapply (le_tr L); [exact S|]. eapply (le_tr L); [apply (fmin_l L); auto|].
    apply (add_le _ _ _ L); auto.
Qed.

(** Far enough from both soft limits the limiter is a plain rate limiter: commands within the
    velocity limit and the hard limits pass unchanged. *)
Lemma pf_transparent l s ref c dt : soft_pos_limits_ok tame l -> soft_ok tame s ->
  tame ref -> fin dt -> lt (zero A) dt ->
  le (max_velocity l) (opp A (mul A (k_position s) (sub A ref (soft_max s)))) ->
  le (max_velocity l) (mul A (k_position s) (sub A ref (soft_min s))) ->
  within (min_position l) (max_position l) c ->
  le (add A ref (opp A (mul A (max_velocity l) dt))) c ->
  le c (add A ref (mul A (max_velocity l) dt)) ->
  let b := pf_bounds l s ref dt in saturate c (fst b) (snd b) = c.
Proof.
  intros (Hp & Hv & Tl & Th & Hlh & (Tv & Pv)) (Ts1 & Ts2 & Hs & (Tk & Pk) & Hkv) Tr Fdt Pdt
    D1 D2 [C1 C2] C3 C4.
  pose proof (ltb_zero_le _ Pdt) as Pd.
  pose proof (soft_vel_bounded s (max_velocity l) ref (soft_min s) Tk Tr Ts1 Pv) as Bl.
  pose proof (soft_vel_bounded s (max_velocity l) ref (soft_max s) Tk Tr Ts2 Pv) as Bh.
  assert (Vh : le (max_velocity l) (soft_vel s (max_velocity l) ref (soft_max s))).
  { destruct (soft_vel_lo s (max_velocity l) ref (soft_max s) Tk Tr Ts2 Pv) as [G|G]; [|exact G].
    eapply (le_tr L); [exact D1|exact G]. }
  assert (Vl : le (soft_vel s (max_velocity l) ref (soft_min s)) (opp A (max_velocity l))).
  { destruct (soft_vel_hi s (max_velocity l) ref (soft_min s) Tk Tr Ts1 Pv) as [G|G]; [|exact G].
    eapply (le_tr L); [exact G|]. apply (opp_le _ _ _ L); auto. }
  unfold pf_bounds. rewrite Hp. cbv zeta. simpl.
  assert (Fl : fin (soft_vel s (max_velocity l) ref (soft_min s))) by (eapply bounded_fin; [|exact Bl]; auto).
  assert (Fh : fin (soft_vel s (max_velocity l) ref (soft_max s))) by (eapply bounded_fin; [|exact Bh]; auto).
  apply sat_id.
  - apply fmax_lub; auto. eapply (le_tr L); [|exact C3]. apply (add_le _ _ _ L); auto.
    apply (le_tr L _ (mul A (opp A (max_velocity l)) dt)).
    + apply (mul_le _ _ _ L); auto. apply (opp_fin _ _ _ L); auto.
    + apply (mul_opp _ _ _ L); auto.
  - apply fmin_glb; auto. eapply (le_tr L); [exact C4|]. apply (add_le _ _ _ L); auto.
    apply (mul_le _ _ _ L); auto.
Qed.

(** ** Soft effort limits *)

Definition ef_vlo (l : limits A) (s : soft_limits A) pos : F :=
  if has_position_limits l then soft_vel s (max_velocity l) pos (soft_min s)
  else opp A (max_velocity l).
Definition ef_vhi (l : limits A) (s : soft_limits A) pos : F :=
  if has_position_limits l then soft_vel s (max_velocity l) pos (soft_max s)
  else max_velocity l.
Definition ef_bound (l : limits A) (s : soft_limits A) vel v : F :=
  saturate (mul A (opp A (k_velocity s)) (sub A vel v)) (opp A (max_effort l)) (max_effort l).

Lemma ef_enforce_eq h j dt : eff_soft_enforce h j dt =
  set_command j (saturate (j_cmd j)
    (ef_bound (ef_limits h) (ef_soft h) (j_vel j) (ef_vlo (ef_limits h) (ef_soft h) (j_pos j)))
    (ef_bound (ef_limits h) (ef_soft h) (j_vel j) (ef_vhi (ef_limits h) (ef_soft h) (j_pos j)))).
Proof.
  unfold eff_soft_enforce, ef_vlo, ef_vhi. destruct (has_position_limits (ef_limits h)); reflexivity.
Qed.

Lemma ef_v_bounded l s pos : eff_soft_limits_ok tame l -> soft_ok tame s -> tame pos ->
  bounded (max_velocity l) (ef_vlo l s pos) /\ bounded (max_velocity l) (ef_vhi l s pos) /\
  le (ef_vlo l s pos) (ef_vhi l s pos).
Proof.
  intros (_ & _ & (Tv & Pv) & _) (Ts1 & Ts2 & Hs & Hk & _) Tp. unfold ef_vlo, ef_vhi.
  pose proof (opp_self L _ Pv) as O. assert (No := le_numl _ _ O).
  destruct (has_position_limits l).
  - split; [|split]; try (apply soft_vel_bounded; auto; apply Hk).
    apply soft_vel_mono; auto.
  - split; [|split]; auto; split; auto.
Qed.

Lemma ef_bound_bounded l s vel v : eff_soft_limits_ok tame l -> soft_ok tame s -> tame vel -> tame v ->
  bounded (max_effort l) (ef_bound l s vel v).
Proof.
  intros (_ & _ & _ & (Te & Pe)) (_ & _ & _ & _ & (Tk & _)) Tv Tb. apply sat_bounded; auto.
  apply mul_num; [apply (opp_fin _ _ _ L); auto | apply (sub_tame _ _ _ L); auto].
Qed.

Lemma ef_bound_mono l s vel v v' : eff_soft_limits_ok tame l -> soft_ok tame s -> tame vel ->
  tame v -> tame v' -> le v v' -> le (ef_bound l s vel v) (ef_bound l s vel v').
Proof.
  intros (_ & _ & _ & (Te & Pe)) (_ & _ & _ & _ & (Tk & Pk)) Tv Tb Tb' H.
  apply sat_mono; [|apply (opp_self L); auto].
  apply (mul_ge _ _ _ L); auto using (sub_tame _ _ _ L).
  - apply (opp_fin _ _ _ L); auto.
  - apply (opp_nonpos L); auto.
  - apply (sub_le _ _ _ L); auto.
Qed.

Lemma ef_bound_nonpos l s vel v : eff_soft_limits_ok tame l -> soft_ok tame s -> tame vel -> tame v ->
  le v vel -> le (ef_bound l s vel v) (zero A).
Proof.
  intros (_ & _ & _ & (Te & Pe)) (_ & _ & _ & _ & (Tk & Pk)) Tv Tb H.
  assert (S : le (zero A) (sub A vel v)).
  { apply (le_tr L _ (sub A vel vel)); [apply (sub_same _ _ _ L); auto|].
    apply (sub_le _ _ _ L); auto. }
  assert (M : le (mul A (opp A (k_velocity s)) (sub A vel v)) (zero A)).
  { apply (le_tr L _ (mul A (opp A (k_velocity s)) (zero A))).
    - apply (mul_ge _ _ _ L); auto using (sub_tame _ _ _ L).
      + apply (opp_fin _ _ _ L); auto.
      + apply (opp_nonpos L); auto.
    - apply (mul_zero_r _ _ _ L). apply (opp_fin _ _ _ L); auto. }
  unfold ef_bound, saturate.
  apply (le_tr L _ (fmax (mul A (opp A (k_velocity s)) (sub A vel v)) (opp A (max_effort l)))).
  - apply (fmin_l L); [|auto]. apply fmax_num; [eapply le_numl; eauto|].
    apply (opp_num _ _ _ L). auto.
  - apply fmax_lub; auto. apply (opp_nonpos L); auto.
Qed.

Lemma ef_bound_nonneg l s vel v : eff_soft_limits_ok tame l -> soft_ok tame s -> tame vel -> tame v ->
  le vel v -> le (zero A) (ef_bound l s vel v).
Proof.
  intros (_ & _ & _ & (Te & Pe)) (_ & _ & _ & _ & (Tk & Pk)) Tv Tb H.
  assert (S : le (sub A vel v) (zero A)).
  { apply (le_tr L _ (sub A vel vel)); [|apply (sub_same _ _ _ L); auto].
    apply (sub_le _ _ _ L); auto. }
  assert (M : le (zero A) (mul A (opp A (k_velocity s)) (sub A vel v))).
  { apply (le_tr L _ (mul A (opp A (k_velocity s)) (zero A))).
    - apply (mul_zero_r _ _ _ L). apply (opp_fin _ _ _ L); auto.
    - apply (mul_ge _ _ _ L); auto using (sub_tame _ _ _ L).
      + apply (opp_fin _ _ _ L); auto.
      + apply (opp_nonpos L); auto. }
  unfold ef_bound, saturate. apply fmin_glb; auto.
  apply (le_tr L _ _ _ M). apply (fmax_l L); [eapply le_numr; eauto|].
  apply (opp_num _ _ _ L). auto.
Qed.

Lemma eff_soft_spec l s j dt : eff_soft_limits_ok tame l -> soft_ok tame s ->
  tame (j_pos j) -> tame (j_vel j) -> numeric (j_cmd j) ->
  let w := j_cmd (eff_soft_enforce (mkEffSoft l s) j dt) in
  bounded (max_effort l) w /\
  (has_position_limits l = true ->
   le (max_velocity l) (mul A (k_position s) (sub A (j_pos j) (soft_max s))) ->
   le (opp A (max_velocity l)) (j_vel j) -> le w (zero A)) /\
  (has_position_limits l = true ->
   le (max_velocity l) (opp A (mul A (k_position s) (sub A (j_pos j) (soft_min s)))) ->
   le (j_vel j) (max_velocity l) -> le (zero A) w) /\
  (le (max_velocity l) (j_vel j) -> le w (zero A)) /\
  (le (j_vel j) (opp A (max_velocity l)) -> le (zero A) w).
Proof.
  intros Hl Hs Tp Tv N. cbv zeta. rewrite ef_enforce_eq. simpl.
  destruct (ef_v_bounded l s (j_pos j) Hl Hs Tp) as (Bl & Bh & Hlh).
  assert (Tm : tame (max_velocity l)) by apply Hl.
  assert (Pm : le (zero A) (max_velocity l)) by apply Hl.
  assert (Tl : tame (ef_vlo l s (j_pos j))) by (apply (bounded_tame (max_velocity l)); auto).
  assert (Th : tame (ef_vhi l s (j_pos j))) by (apply (bounded_tame (max_velocity l)); auto).
  pose proof (ef_bound_bounded l s (j_vel j) _ Hl Hs Tv Tl) as [El1 El2].
  pose proof (ef_bound_bounded l s (j_vel j) _ Hl Hs Tv Th) as [Eh1 Eh2].
  pose proof (ef_bound_mono l s (j_vel j) _ _ Hl Hs Tv Tl Th Hlh) as Em.
  set (elo := ef_bound l s (j_vel j) (ef_vlo l s (j_pos j))) in *.
  set (ehi := ef_bound l s (j_vel j) (ef_vhi l s (j_pos j))) in *.
  destruct (sat_within L (j_cmd j) elo ehi N Em) as [S1 S2].
  assert (High : le (ef_vhi l s (j_pos j)) (j_vel j) -> le (saturate (j_cmd j) elo ehi) (zero A)).
  { intros H. eapply (le_tr L); [exact S2|]. apply ef_bound_nonpos; auto. }
  assert (Low : le (j_vel j) (ef_vlo l s (j_pos j)) -> le (zero A) (saturate (j_cmd j) elo ehi)).
  { intros H. eapply (le_tr L); [|exact S1]. apply ef_bound_nonneg; auto. }
  destruct Hs as (Ts1 & Ts2 & Hs & (Tk & Pk) & Hkv).
  split; [split; [exact (le_tr L _ _ _ El1 S1)|exact (le_tr L _ _ _ S2 Eh2)]|]. split; [|split; [|split]].
  - intros Hp D V. apply High. apply (le_tr L _ (opp A (max_velocity l))); auto.
    unfold ef_vhi. rewrite Hp.
    destruct (soft_vel_hi s (max_velocity l) (j_pos j) (soft_max s) Tk Tp Ts2 Pm) as [G|G]; [|exact G].
    eapply (le_tr L); [exact G|]. apply (opp_le _ _ _ L); auto.
  - intros Hp D V. apply Low. apply (le_tr L _ (max_velocity l)); auto.
    unfold ef_vlo. rewrite Hp.
    destruct (soft_vel_lo s (max_velocity l) (j_pos j) (soft_min s) Tk Tp Ts1 Pm) as [G|G]; [|exact G].
    exact (le_tr L _ _ _ D G).
  - intros V. apply High. eapply (le_tr L); [apply Bh|auto].
  - intros V. apply Low. eapply (le_tr L); [exact V|apply Bl].
Qed.

(** ** Soft velocity limits *)

Lemma vf_enforce_eq h j dt : vel_soft_enforce h j dt =
  let l := vf_limits h in
  let lo := if has_position_limits l then soft_vel (vf_soft h) (vf_max h) (j_pos j) (soft_min (vf_soft h))
            else opp A (vf_max h) in
  let hi := if has_position_limits l then soft_vel (vf_soft h) (vf_max h) (j_pos j) (soft_max (vf_soft h))
            else vf_max h in
  let lo := if has_acceleration_limits l then fmax (sub A (j_vel j) (mul A (max_acceleration l) dt)) lo
            else lo in
  let hi := if has_acceleration_limits l then fmin (add A (j_vel j) (mul A (max_acceleration l) dt)) hi
            else hi in
  set_command j (saturate (j_cmd j) lo hi).
Proof.
  unfold vel_soft_enforce. destruct (has_position_limits (vf_limits h)),
    (has_acceleration_limits (vf_limits h)); reflexivity.
Qed.

Lemma vel_soft_spec l h j dt : vel_soft_limits_ok fin tame l h -> tame (j_pos j) -> numeric (j_cmd j) ->
  period_ok fin dt ->
  (has_acceleration_limits l = true -> bounded (vf_max h) (j_vel j)) ->
  let w := j_cmd (vel_soft_enforce h j dt) in
  let s := vf_soft h in
  bounded (vf_max h) w /\
  (has_position_limits l = true ->
   le w (opp A (mul A (k_position s) (sub A (j_pos j) (soft_max s)))) \/ le w (opp A (vf_max h))) /\
  (has_position_limits l = true -> has_acceleration_limits l = false ->
   le (opp A (mul A (k_position s) (sub A (j_pos j) (soft_min s)))) w \/ le (vf_max h) w) /\
  (has_acceleration_limits l = true -> le w (add A (j_vel j) (mul A (max_acceleration l) dt))).
Proof.
  intros (El & (Tm & Pm) & (Ts1 & Ts2 & Hs & (Tk & Pk) & _) & Ha) Tp N Hdt Hv.
  cbv zeta. rewrite vf_enforce_eq. rewrite El. cbv zeta. simpl.
  pose proof (soft_vel_bounded (vf_soft h) (vf_max h) (j_pos j) _ Tk Tp Ts1 Pm) as Bl.
  pose proof (soft_vel_bounded (vf_soft h) (vf_max h) (j_pos j) _ Tk Tp Ts2 Pm) as Bh.
  assert (Hk : bound_ok tame (k_position (vf_soft h))) by (split; auto).
  pose proof (soft_vel_mono (vf_soft h) (vf_max h) (j_pos j) _ _ Hk Tp Ts1 Ts2 Pm Hs) as Hm.
  pose proof (soft_vel_hi (vf_soft h) (vf_max h) (j_pos j) _ Tk Tp Ts2 Pm) as Ph.
  pose proof (soft_vel_lo (vf_soft h) (vf_max h) (j_pos j) _ Tk Tp Ts1 Pm) as Pl.
  pose proof (opp_self L _ Pm) as Om. assert (Nom := le_numl _ _ Om).
  set (slo := soft_vel (vf_soft h) (vf_max h) (j_pos j) (soft_min (vf_soft h))) in *.
  set (shi := soft_vel (vf_soft h) (vf_max h) (j_pos j) (soft_max (vf_soft h))) in *.
  set (lo := if has_position_limits l then slo else opp A (vf_max h)).
  set (hi := if has_position_limits l then shi else vf_max h).
  assert (Blo : bounded (vf_max h) lo).
  { unfold lo. destruct (has_position_limits l); auto. split; auto. }
  assert (Bhi : bounded (vf_max h) hi).
  { unfold hi. destruct (has_position_limits l); auto. split; auto. }
  assert (Hlh : le lo hi).
  { unfold lo, hi. destruct (has_position_limits l); auto. }
  destruct (has_acceleration_limits l) eqn:Ea.
  - destruct (Ha eq_refl) as [Fa Pa]. specialize (Hv eq_refl).
    assert (Fv : fin (j_vel j)) by (eapply bounded_fin; [|exact Hv]; auto).
    destruct Hdt as [Fdt Pdt].
    assert (D : le (zero A) (mul A (max_acceleration l) dt)) by (apply (mul_nonneg L); auto).
    set (d := mul A (max_acceleration l) dt) in *.
    pose proof (add_up L _ _ Fv D) as U. pose proof (sub_down L _ _ Fv D) as W.
    assert (Nu := le_numr _ _ U). assert (Nw := le_numl _ _ W).
    assert (Nlo := le_numr _ _ (proj1 Blo)). assert (Nhi := le_numr _ _ (proj1 Bhi)).
    assert (Nh : numeric (fmin (add A (j_vel j) d) hi)) by (apply fmin_num; auto).
    assert (Nl : numeric (fmax (sub A (j_vel j) d) lo)) by (apply fmax_num; auto).
    pose proof (sat_hi L (j_cmd j) _ _ N Nl Nh) as S.
    pose proof (le_tr L _ _ _ S (fmin_r L _ _ Nu Nhi)) as S'.
    split; [split|split; [|split; [discriminate|]]].
    + apply (sat_lo L); auto.
      * eapply (le_tr L); [apply Blo|]. apply (fmax_r L); auto.
      * apply fmin_glb; [|apply Bhi]. eapply (le_tr L); [apply Hv|auto].
    + eapply (le_tr L); [exact S'|apply Bhi].
    + intros Hp. assert (Ehi : hi = shi) by (unfold hi; now rewrite Hp).
      rewrite <- Ehi in Ph.
      destruct Ph as [G|G]; [left|right]; exact (le_tr L _ _ _ S' G).
    + intros _. eapply (le_tr L); [exact S|]. apply (fmin_l L); auto.
  - destruct (sat_within L (j_cmd j) lo hi N Hlh) as [S1 S2].
    split; [split; [exact (le_tr L _ _ _ (proj1 Blo) S1)|exact (le_tr L _ _ _ S2 (proj2 Bhi))]|].
    split; [|split; [|discriminate]].
    + intros Hp. assert (Ehi : hi = shi) by (unfold hi; now rewrite Hp).
      assert (S3 : le (saturate (j_cmd j) lo hi) shi) by (rewrite <- Ehi; exact S2).
      destruct Ph as [G|G]; [left|right]; exact (le_tr L _ _ _ S3 G).
    + intros Hp _. assert (Elo : lo = slo) by (unfold lo; now rewrite Hp).
      assert (S3 : le slo (saturate (j_cmd j) lo hi)) by (rewrite <- Elo; exact S1).
      destruct Pl as [G|G]; [left|right]; exact (le_tr L _ _ _ G S3).
Qed.

End Proofs.
