(** Proofs that every limiter writes the permitted command nearest to the one given, for every
    number type satisfying [laws]. *)
From Verif Require Import LimNearSpec LimProofs LimRest LimMisc SMapProofs.

Section Proofs.
Context {A : arith} {fin tame : num A -> Prop} (L : laws A fin tame).
Notation F := (num A).
Implicit Types a b c v lo hi d dt : F.

Let fnum a : fin a -> numeric a := fin_num _ _ _ L a.
Let tfin a : tame a -> fin a := tame_fin _ _ _ L a.
Let tnum a : tame a -> numeric a := fun H => fnum a (tfin a H).
Let zfin : fin (zero A) := zero_fin L.
Let lrefl a : numeric a -> le a a := le_refl L a.
Let ofin a : fin a -> fin (opp A a) := opp_fin _ _ _ L a.
Hint Resolve fnum tfin tnum zfin lrefl ofin : core.

Lemma sat_nearest c lo hi : numeric c -> numeric lo -> numeric hi -> nearest lo hi c (saturate c lo hi).
Proof.
  intros Nc Nl Nh. split.
  - intros H. apply (sat_crossed L); auto.
  - intros H. split; [|split].
    + intros [H1 H2]. apply (sat_id); auto.
    + intros H1. unfold saturate, fmax, fmin. unfold lt in H1. rewrite H1.
      now rewrite (le_lt_false _ _ H).
    + intros H1. unfold saturate, fmax, fmin. unfold lt in H1.
      rewrite (le_lt_false lo c).
      * now rewrite H1.
      * apply (le_tr L _ _ _ H). now apply (lt_le L).
Qed.

Lemma fmax_greater a b : numeric a -> numeric b -> greater a b (fmax a b).
Proof. intros. split; [apply fmax_or|]. split; [apply (fmax_l L)|apply (fmax_r L)]; auto. Qed.
Lemma fmin_smaller a b : numeric a -> numeric b -> smaller a b (fmin a b).
Proof. intros. split; [apply fmin_or|]. split; [apply (fmin_l L)|apply (fmin_r L)]; auto. Qed.

Lemma mul_num a d : fin a -> fin d -> le (zero A) d -> numeric (mul A a d).
Proof.
  intros Fa Fd Pd. eapply le_numl. apply (mul_le _ _ _ L a a d); auto.
Qed.
Lemma add_num a d : fin a -> numeric d -> numeric (add A a d).
Proof. intros Fa Nd. eapply le_numl. apply (add_le _ _ _ L a d d); auto. Qed.
Lemma sub_num a d : fin a -> numeric d -> numeric (sub A a d).
Proof. intros Fa Nd. eapply le_numl. apply (sub_le _ _ _ L a d d); auto. Qed.

Lemma around_ok a d lo0 hi0 : fin a -> numeric d -> numeric lo0 -> numeric hi0 ->
  around a d lo0 hi0 (fmax (sub A a d) lo0) (fmin (add A a d) hi0).
Proof.
  intros. split; [apply fmax_greater|apply fmin_smaller]; auto using sub_num, add_num.
Qed.

(** ** Position saturation *)

Lemma ps_reference_eq l ops j : numeric (pos_sat_reference l ops j) ->
  pos_sat_reference l ops j =
  (let h := pos_sat_after (pos_sat_make l) ops in if isnan A (ps_prev h) then j_pos j else ps_prev h).
Proof.
  unfold pos_sat_reference. destruct ops as [|o ops _] using rev_ind.
  - simpl. intros _. destruct (ps_make_prev L l) as [-> _]. reflexivity.
  - rewrite rev_app_distr. simpl. rewrite rev_involutive. rewrite ps_after_app.
    destruct o as [j' dt'|]; simpl.
    + unfold pos_sat_written. set (h := pos_sat_after _ ops).
      rewrite (ps_enforce_eq h j' dt' _ eq_refl). simpl.
      destruct (isnan A (j_cmd j')) eqn:N.
      * rewrite (sat_nan L) by auto. now rewrite N.
      * intros H. unfold numeric in H. now rewrite H.
    + intros _. now rewrite (nan_nan _ _ _ L).
Qed.

Lemma pos_sat_limited l ops j dt :
  (has_position_limits l = true -> numeric (min_position l) /\ numeric (max_position l)) ->
  (has_velocity_limits l = true -> fin (max_velocity l)) ->
  period_ok fin dt -> fin (pos_sat_reference l ops j) -> numeric (j_cmd j) ->
  exists lo hi, position_window l (pos_sat_reference l ops j) dt lo hi /\
    limited j (snd (pos_sat_enforce (pos_sat_after (pos_sat_make l) ops) j dt)) lo hi.
Proof.
  intros Hp Hv [Fdt Pdt] Fr Nc.
  pose proof (ps_reference_eq l ops j (fnum _ Fr)) as E. cbv zeta in E.
  rewrite (ps_enforce_eq _ j dt _ E). cbv zeta. simpl.
  destruct (ps_after_const (pos_sat_make l) ops) as (E1 & E2 & E3).
  destruct (ps_make_prev L l) as [_ E0]. rewrite E1, E0, E2, E3.
  set (ref := pos_sat_reference l ops j) in *. clearbody ref. clear E E1 E2 E3 E0.
  unfold pos_sat_make. set (h := pos_sat_make l).
  assert (Nb : numeric (ps_min h) /\ numeric (ps_max h)).
  { unfold h, pos_sat_make. destruct (has_position_limits l) eqn:P; simpl; auto.
    split; auto using (max_fin _ _ _ L). }
  assert (B : ps_min h = (if has_position_limits l then min_position l else opp A (maxnum A)) /\
              ps_max h = (if has_position_limits l then max_position l else maxnum A)).
  { unfold h, pos_sat_make. destruct (has_position_limits l); auto. }
  destruct Nb as [Nl Nh]. destruct B as [Bl Bh].
  change (if has_position_limits l then mkPosSat l (min_position l) (max_position l) (nan A)
          else mkPosSat l (opp A (maxnum A)) (maxnum A) (nan A)) with h.
  exists (fst (ps_bounds l (ps_min h) (ps_max h) ref dt)), (snd (ps_bounds l (ps_min h) (ps_max h) ref dt)).
  unfold position_window, ps_bounds, limited. cbv zeta. rewrite <- Bl, <- Bh.
  destruct (has_velocity_limits l) eqn:V; simpl.
  - assert (Nd : numeric (mul A (max_velocity l) dt)) by (apply mul_num; auto).
    split; [apply around_ok; auto|]. split; [reflexivity|]. split; [reflexivity|].
    apply sat_nearest; auto; [apply fmax_num|apply fmin_num]; auto using sub_num, add_num.
  - split; [auto|]. split; [reflexivity|]. split; [reflexivity|]. apply sat_nearest; auto.
Qed.

(** ** Soft limits *)

Lemma k_num (k p b : F) : tame k -> tame p -> tame b -> le (zero A) k -> numeric (mul A (opp A k) (sub A p b)).
Proof.
  intros Tk Tp Tb Pk. eapply le_numl.
  apply (mul_ge _ _ _ L (opp A k) (sub A p b) (sub A p b)); auto.
  - apply (sub_tame _ _ _ L); auto.
  - apply (sub_tame _ _ _ L); auto.
  - apply (opp_nonpos L); auto.
  - apply lrefl, fnum, (sub_tame _ _ _ L); auto.
Qed.

Definition vlo_of (l : limits A) (s : soft_limits A) vmax p : F :=
  if has_position_limits l then soft_vel s vmax p (soft_min s) else opp A vmax.
Definition vhi_of (l : limits A) (s : soft_limits A) vmax p : F :=
  if has_position_limits l then soft_vel s vmax p (soft_max s) else vmax.

Lemma soft_velocities_ok l s vmax p : gains_ok tame s -> tame p -> fin vmax ->
  soft_velocities l s vmax p (vlo_of l s vmax p) (vhi_of l s vmax p).
Proof.
  intros (T1 & T2 & (Tk & Pk) & _) Tp Fm.
  unfold soft_velocities, vlo_of, vhi_of. destruct (has_position_limits l); [|auto].
  split; apply sat_nearest; auto using k_num.
Qed.

Lemma v_bounded l s vmax p : gains_ok tame s -> tame p -> bound_ok fin vmax ->
  bounded vmax (vlo_of l s vmax p) /\ bounded vmax (vhi_of l s vmax p).
Proof.
  intros (T1 & T2 & (Tk & Pk) & _) Tp (Fm & Pm).
  assert (B : bounded vmax (opp A vmax) /\ bounded vmax vmax).
  { pose proof (opp_self L _ Pm). split; split; auto. }
  unfold vlo_of, vhi_of. destruct (has_position_limits l); [|auto].
  split; apply (sat_bounded L); auto using k_num.
Qed.

Lemma pf_reference_eq l s ops j h ref : has_velocity_limits l = true ->
  pos_soft_after (mkPosSoft l s (nan A)) ops = Some h ->
  pos_soft_reference l s ops j = Some ref -> numeric ref ->
  ref = if isnan A (pf_prev h) then j_pos j else pf_prev h.
Proof.
  intros V H. unfold pos_soft_reference.
  destruct ops as [|o ops _] using rev_ind.
  - injection H as <-. simpl. intros [= <-] _. now rewrite (nan_nan _ _ _ L).
  - rewrite rev_app_distr. simpl. rewrite rev_involutive.
    rewrite pf_after_app in H. unfold pos_soft_written, pos_soft_make. rewrite V.
    destruct (pos_soft_after _ ops) as [h1|] eqn:E; [|discriminate].
    destruct o as [j' dt'|]; unfold pos_soft_after in H; simpl in H.
    + destruct (ltb A (zero A) dt') eqn:P.
      2:{ unfold pos_soft_enforce in H. rewrite P in H. discriminate. }
      rewrite (pf_enforce_eq h1 j' dt' _ eq_refl P) in *. cbv zeta in *. simpl in *.
      injection H as <-. simpl. destruct (isnan A (j_cmd j')) eqn:N.
      * intros [= <-] _. rewrite (sat_nan L) by auto. now rewrite N.
      * intros [= <-] H. unfold numeric in H. now rewrite H.
    + injection H as <-. simpl. intros [= <-] _. now rewrite (nan_nan _ _ _ L).
Qed.

Lemma pos_soft_limited l s ops j dt h h0 ref : pos_soft_make l s = Some h0 ->
  pos_soft_after h0 ops = Some h -> pos_soft_reference l s ops j = Some ref ->
  (has_position_limits l = true -> numeric (min_position l) /\ numeric (max_position l)) ->
  bound_ok fin (max_velocity l) -> gains_ok tame s ->
  fin dt -> lt (zero A) dt -> tame ref -> numeric (j_cmd j) ->
  exists h' j' lo hi, pos_soft_enforce h j dt = Some (h', j') /\
    soft_position_window l s ref dt lo hi /\ limited j j' lo hi.
Proof.
  unfold pos_soft_make. destruct (has_velocity_limits l) eqn:V; [|discriminate].
  intros [= <-] H Hr Hp Bv Hs Fdt Pdt Tr Nc.
  pose proof (pf_reference_eq _ _ _ _ _ _ V H Hr (tnum _ Tr)) as E.
  destruct (pf_after_const _ _ _ H) as [E1 E2]. simpl in E1, E2.
  rewrite (pf_enforce_eq h j dt ref E Pdt). cbv zeta. rewrite E1, E2.
  do 2 eexists.
  exists (fst (pf_bounds l s ref dt)), (snd (pf_bounds l s ref dt)).
  split; [reflexivity|].
  pose proof (soft_velocities_ok l s (max_velocity l) ref Hs Tr (proj1 Bv)) as W.
  pose proof (v_bounded l s (max_velocity l) ref Hs Tr Bv) as [Bl Bh].
  pose proof (lt_le L _ _ Pdt) as Pd.
  assert (Nl : numeric (add A ref (mul A (vlo_of l s (max_velocity l) ref) dt))).
  { apply add_num; auto. apply mul_num; auto. apply (bounded_fin L (max_velocity l)); auto. apply Bv. }
  assert (Nh : numeric (add A ref (mul A (vhi_of l s (max_velocity l) ref) dt))).
  { apply add_num; auto. apply mul_num; auto. apply (bounded_fin L (max_velocity l)); auto. apply Bv. }
  split.
  - exists (vlo_of l s (max_velocity l) ref), (vhi_of l s (max_velocity l) ref). split; auto.
    unfold pf_bounds, vlo_of, vhi_of in *. destruct (has_position_limits l) eqn:P; simpl; auto.
    destruct (Hp eq_refl). split; [apply fmax_greater|apply fmin_smaller]; auto.
  - split; [reflexivity|]. split; [reflexivity|]. simpl.
    unfold pf_bounds, vlo_of, vhi_of in *. destruct (has_position_limits l) eqn:P; simpl.
    + destruct (Hp eq_refl). apply sat_nearest; auto; [apply fmax_num|apply fmin_num]; auto.
    + apply sat_nearest; auto.
Qed.

(** ** Efforts *)

Lemma lt_asym a b : lt a b -> ~ lt b a.
Proof. unfold lt. intros H1 H2. apply (ltb_asym _ _ _ L) in H1. congruence. Qed.

Lemma lt_none a b c : le b c -> lt a b -> ~ lt c a.
Proof.
  intros H1 H2 H3. pose proof (le_tr L _ _ _ H1 (lt_le L _ _ H3)) as H.
  apply le_lt_false in H. unfold lt in H2. congruence.
Qed.

Lemma eff_sat_limited l l' j dt : eff_sat_make l = Some l' ->
  (has_position_limits l = true -> le (min_position l) (max_position l)) ->
  bound_ok fin (max_velocity l) -> bound_ok fin (max_effort l) -> numeric (j_cmd j) ->
  exists lo hi, effort_window l j lo hi /\ limited j (eff_sat_enforce l' j dt) lo hi.
Proof.
  intros H Hp (Fv & Pv) (Fe & Pe) Nc.
  unfold eff_sat_make in H. destruct (has_velocity_limits l); [|discriminate].
  destruct (has_effort_limits l); [|discriminate]. injection H as <-.
  assert (Dec : forall a b, {lt a b} + {~ lt a b}).
  { intros. unfold lt. destruct (ltb A a b); [left|right]; auto; discriminate. }
  assert (DL : beyond_low l j \/ ~ beyond_low l j).
  { unfold beyond_low. destruct (has_position_limits l), (Dec (j_pos j) (min_position l)),
      (Dec (j_vel j) (opp A (max_velocity l))); intuition discriminate. }
  assert (DH : beyond_high l j \/ ~ beyond_high l j).
  { unfold beyond_high. destruct (has_position_limits l), (Dec (max_position l) (j_pos j)),
      (Dec (max_velocity l) (j_vel j)); intuition discriminate. }
  set (lo := if has_position_limits l && ltb A (j_pos j) (min_position l) ||
                ltb A (j_vel j) (opp A (max_velocity l)) then zero A else opp A (max_effort l)).
  set (hi := if has_position_limits l && ltb A (max_position l) (j_pos j) ||
                ltb A (max_velocity l) (j_vel j) then zero A else max_effort l).
  exists lo, hi.
  assert (BL : has_position_limits l && ltb A (j_pos j) (min_position l) ||
               ltb A (j_vel j) (opp A (max_velocity l)) = true <-> beyond_low l j).
  { unfold beyond_low, lt. now rewrite orb_true_iff, andb_true_iff. }
  assert (BH : has_position_limits l && ltb A (max_position l) (j_pos j) ||
               ltb A (max_velocity l) (j_vel j) = true <-> beyond_high l j).
  { unfold beyond_high, lt. now rewrite orb_true_iff, andb_true_iff. }
  split.
  - unfold effort_window, lo, hi.
    destruct (_ || _) eqn:E1 in BL |- *; destruct (_ || _) eqn:E2 in BH |- *; intuition discriminate.
  - assert (E : eff_sat_enforce l j dt = set_command j (saturate (j_cmd j) lo hi)).
    { assert (C1 : has_position_limits l = true -> ltb A (j_pos j) (min_position l) = true ->
                   ltb A (max_position l) (j_pos j) = true -> False).
      { intros P H1 H2. exact (lt_none _ _ _ (Hp P) H1 H2). }
      assert (C2 : ltb A (j_vel j) (opp A (max_velocity l)) = true ->
                   ltb A (max_velocity l) (j_vel j) = true -> False).
      { intros H1 H2. exact (lt_none _ _ _ (opp_self L _ Pv) H1 H2). }
      unfold eff_sat_enforce, lo, hi. clear - C1 C2.
      destruct (has_position_limits l); simpl in *;
        destruct (ltb A (j_pos j) (min_position l)); destruct (ltb A (max_position l) (j_pos j));
        destruct (ltb A (j_vel j) (opp A (max_velocity l)));
        destruct (ltb A (max_velocity l) (j_vel j)); simpl in *; try reflexivity;
        exfalso; auto. }
    rewrite E. split; [reflexivity|]. split; [reflexivity|]. simpl.
    assert (If : forall (b : bool) (x y : F), numeric x -> numeric y -> numeric (if b then x else y))
      by (intros []; auto).
    apply sat_nearest; [auto|apply If; auto|apply If; auto].
Qed.

Lemma eff_soft_limited l s h j dt : eff_soft_make l s = Some h -> gains_ok tame s ->
  bound_ok tame (max_velocity l) -> bound_ok fin (max_effort l) ->
  tame (j_pos j) -> tame (j_vel j) -> numeric (j_cmd j) ->
  exists lo hi, soft_effort_window l s j lo hi /\ limited j (eff_soft_enforce h j dt) lo hi.
Proof.
  intros H Hs (Tv & Pv) (Fe & Pe) Tp Tw Nc.
  unfold eff_soft_make in H. destruct (has_velocity_limits l); [|discriminate].
  destruct (has_effort_limits l); [|discriminate]. injection H as <-.
  assert (Bv : bound_ok fin (max_velocity l)) by (split; auto).
  pose proof (soft_velocities_ok l s (max_velocity l) (j_pos j) Hs Tp (tfin _ Tv)) as W.
  pose proof (v_bounded l s (max_velocity l) (j_pos j) Hs Tp Bv) as [Bl Bh].
  apply (bounded_tame L) in Bl; auto. apply (bounded_tame L) in Bh; auto.
  rewrite ef_enforce_eq. simpl.
  set (vlo := vlo_of l s (max_velocity l) (j_pos j)) in *.
  set (vhi := vhi_of l s (max_velocity l) (j_pos j)) in *.
  change (ef_vlo l s (j_pos j)) with vlo. change (ef_vhi l s (j_pos j)) with vhi.
  destruct Hs as (_ & _ & _ & Tk & Pk).
  assert (Nl : nearest (opp A (max_effort l)) (max_effort l)
                 (mul A (opp A (k_velocity s)) (sub A (j_vel j) vlo)) (ef_bound l s (j_vel j) vlo)).
  { apply sat_nearest; auto using k_num. }
  assert (Nh : nearest (opp A (max_effort l)) (max_effort l)
                 (mul A (opp A (k_velocity s)) (sub A (j_vel j) vhi)) (ef_bound l s (j_vel j) vhi)).
  { apply sat_nearest; auto using k_num. }
  exists (ef_bound l s (j_vel j) vlo), (ef_bound l s (j_vel j) vhi). split.
  - exists vlo, vhi. auto.
  - split; [reflexivity|]. split; [reflexivity|]. simpl.
    apply sat_nearest; auto; apply sat_num; auto using k_num.
Qed.

(** ** Velocities *)

Lemma vel_sat_limited l h0 h j dt ops ref : vel_sat_make l = Some h0 ->
  vel_sat_after h0 ops = Some h -> vel_sat_reference l ops = Some ref ->
  fin (max_velocity l) ->
  (has_acceleration_limits l = true ->
   fin (max_acceleration l) /\ fin dt /\ lt (zero A) dt /\ fin ref) ->
  numeric (j_cmd j) ->
  exists h' j' lo hi, vel_sat_enforce h j dt = Some (h', j') /\
    velocity_window l ref dt lo hi /\ limited j j' lo hi.
Proof.
  intros Hm H Hr Fv Ha Nc. unfold vel_sat_make in Hm.
  destruct (has_velocity_limits l) eqn:V; [|discriminate]. injection Hm as <-.
  assert (C : vs_limits h = l /\ vs_prev h = ref).
  { unfold vel_sat_reference in Hr. destruct ops as [|[j' dt'] ops _] using rev_ind.
    - injection H as <-. injection Hr as <-. auto.
    - rewrite rev_app_distr in Hr. simpl in Hr. rewrite rev_involutive in Hr.
      unfold vel_sat_after in H. rewrite fold_left_app in H. simpl in H.
      unfold vel_sat_written, vel_sat_make in Hr. rewrite V in Hr.
      fold (vel_sat_after (mkVelSat l (zero A)) ops) in H.
      destruct (vel_sat_after (mkVelSat l (zero A)) ops) as [h1|] eqn:E; [|discriminate].
      assert (El : vs_limits h1 = l).
      { clear - E. revert h1 E. induction ops as [|[j dt] ops IH] using rev_ind; intros h1 E.
        - injection E as <-. reflexivity.
        - unfold vel_sat_after in E. rewrite fold_left_app in E. simpl in E.
          fold (vel_sat_after (mkVelSat l (zero A)) ops) in E.
          destruct (vel_sat_after (mkVelSat l (zero A)) ops) as [h2|]; [|discriminate].
          specialize (IH _ eq_refl). unfold vel_sat_enforce in E.
          destruct (has_acceleration_limits (vs_limits h2)).
          + destruct (negb _); [discriminate|]. injection E as <-. exact IH.
          + injection E as <-. exact IH. }
      simpl in H. unfold vel_sat_enforce in *. rewrite El in *.
      destruct (has_acceleration_limits l).
      + destruct (negb _); [discriminate|]. injection H as <-. injection Hr as <-. auto.
      + injection H as <-. injection Hr as <-. auto. }
  destruct C as [-> ->] || (destruct C as [C1 C2]; unfold vel_sat_enforce, velocity_window; rewrite C1, C2).
  destruct (has_acceleration_limits l) eqn:Ea.
  - destruct (Ha eq_refl) as (Fa & Fdt & Pdt & Fr). unfold lt in Pdt. rewrite Pdt. simpl.
    pose proof (lt_le L _ _ Pdt) as Pd.
    assert (Nd : numeric (mul A (max_acceleration l) dt)) by (apply mul_num; auto).
    do 4 eexists. split; [reflexivity|]. split; [apply around_ok; auto|].
    split; [reflexivity|]. split; [reflexivity|]. simpl.
    apply sat_nearest; auto; [apply fmax_num|apply fmin_num]; auto using sub_num, add_num.
  - do 4 eexists. split; [reflexivity|]. split; [auto|].
    split; [reflexivity|]. split; [reflexivity|]. simpl. apply sat_nearest; auto.
Qed.

Lemma vel_soft_limited l s j dt : gains_ok tame s ->
  (has_velocity_limits l = true -> bound_ok fin (max_velocity l)) ->
  (has_acceleration_limits l = true -> fin (max_acceleration l) /\ fin (j_vel j) /\ period_ok fin dt) ->
  tame (j_pos j) -> numeric (j_cmd j) ->
  exists lo hi, soft_velocity_window l s j dt lo hi /\
    limited j (vel_soft_enforce (vel_soft_make l s) j dt) lo hi.
Proof.
  intros Hs Hv Ha Tp Nc. rewrite vf_enforce_eq. cbv zeta. simpl.
  set (vmax := if has_velocity_limits l then max_velocity l else maxnum A).
  assert (Bv : bound_ok fin vmax).
  { unfold vmax. destruct (has_velocity_limits l); auto. split; [apply (max_fin _ _ _ L)|apply (max_pos _ _ _ L)]. }
  pose proof (soft_velocities_ok l s vmax (j_pos j) Hs Tp (proj1 Bv)) as W.
  pose proof (v_bounded l s vmax (j_pos j) Hs Tp Bv) as [[Nl1 _] [Nh1 _]].
  apply le_numr in Nl1. apply le_numr in Nh1.
  change (if has_position_limits l then soft_vel s vmax (j_pos j) (soft_min s) else opp A vmax)
    with (vlo_of l s vmax (j_pos j)).
  change (if has_position_limits l then soft_vel s vmax (j_pos j) (soft_max s) else vmax)
    with (vhi_of l s vmax (j_pos j)).
  set (vlo := vlo_of l s vmax (j_pos j)) in *. set (vhi := vhi_of l s vmax (j_pos j)) in *.
  unfold soft_velocity_window. fold vmax. destruct (has_acceleration_limits l).
  - destruct (Ha eq_refl) as (Fa & Fw & Fdt & Pdt).
    assert (Nd : numeric (mul A (max_acceleration l) dt)) by (apply mul_num; auto).
    do 2 eexists. split; [exists vlo, vhi; split; [exact W|apply around_ok; auto]|].
    split; [reflexivity|]. split; [reflexivity|]. simpl.
    apply sat_nearest; auto; [apply fmax_num|apply fmin_num]; auto using sub_num, add_num.
  - exists vlo, vhi. split; [exists vlo, vhi; auto|].
    split; [reflexivity|]. split; [reflexivity|]. apply sat_nearest; auto.
Qed.
End Proofs.

(** ** When the limiters refuse *)

Lemma constructed_iff {A : arith} c (l : limits A) s : constructed c l s <->
  ((needs_velocity c = true -> has_velocity_limits l = true) /\
   (needs_effort c = true -> has_effort_limits l = true)).
Proof.
  destruct c; simpl; unfold pos_soft_make, eff_sat_make, eff_soft_make, vel_sat_make;
    destruct (has_velocity_limits l), (has_effort_limits l); simpl; intuition congruence.
Qed.

Lemma soft_abort {A : arith} (h : pos_soft A) j dt :
  pos_soft_enforce h j dt = None <-> ~ lt (zero A) dt.
Proof.
  unfold pos_soft_enforce, lt. destruct (ltb A (zero A) dt); simpl.
  - destruct (has_position_limits (pf_limits h)); split; intros H; try discriminate; congruence.
  - split; auto; discriminate.
Qed.

Lemma vel_abort {A : arith} (h : vel_sat A) j dt :
  vel_sat_enforce h j dt = None <-> has_acceleration_limits (vs_limits h) = true /\ ~ lt (zero A) dt.
Proof.
  unfold vel_sat_enforce, lt. destruct (has_acceleration_limits (vs_limits h)), (ltb A (zero A) dt); simpl;
    intuition (discriminate || congruence).
Qed.

(** ** The order in which an interface limits its joints *)
Section Order.
Context {A : arith} {H : Type} (enf : H -> joint A -> num A -> option (H * joint A)).

Lemma lim_enforce_app m1 : forall m2 js dt,
  lim_enforce enf (m1 ++ m2) js dt =
  match lim_enforce enf m1 js dt with
  | None => None
  | Some (m1', js1) =>
      match lim_enforce enf m2 js1 dt with
      | None => None
      | Some (m2', js2) => Some (m1' ++ m2', js2)
      end
  end.
Proof.
  induction m1 as [|[n h] m1 IH]; intros m2 js dt; simpl.
  - destruct (lim_enforce enf m2 js dt) as [[? ?]|]; reflexivity.
  - destruct (enf _ _ _) as [[s j]|]; [|reflexivity]. rewrite IH.
    destruct (lim_enforce enf m1 _ dt) as [[m1' js1]|]; [|reflexivity].
    destruct (lim_enforce enf m2 js1 dt) as [[m2' js2]|]; reflexivity.
Qed.
End Order.
