(** The soft position limiter over whole histories.  This needs the gain and the period to fit
    together: one step must not carry the reference over the soft limit it is pulled to. *)
From Coq Require Import QArith Lqa.
From Verif Require Import LimSpec LimProofs LimRest LimExact.

(** [gain k dt]: the step [ref - k * (ref - b) * dt], as the number type computes it, does not
    overshoot [b].  [small]: so far from the largest number that k * (ref - b) is finite. *)
Record gain_laws {A : arith} (fin tame small : num A -> Prop) (gain : num A -> num A -> Prop) : Prop :=
  mkGainLaws {
  small_tame : forall a, small a -> tame a;
  small_between : forall lo hi a, small lo -> small hi -> within lo hi a -> small a;
  small_fin : forall k a b, small k -> small a -> small b -> fin (mul A (opp A k) (sub A a b));
  gain_down : forall k dt ref b, small k -> small ref -> small b -> le (zero A) k -> fin dt ->
    le (zero A) dt -> gain k dt -> le b ref ->
    le b (add A ref (mul A (mul A (opp A k) (sub A ref b)) dt));
  gain_up : forall k dt ref b, small k -> small ref -> small b -> le (zero A) k -> fin dt ->
    le (zero A) dt -> gain k dt -> le ref b ->
    le (add A ref (mul A (mul A (opp A k) (sub A ref b)) dt)) b
}.

Section Gain.
Context {A : arith} {fin tame small : num A -> Prop} {gain : num A -> num A -> Prop}.
Context (L : laws A fin tame) (G : gain_laws fin tame small gain).
Notation F := (num A).

Let st a : small a -> tame a := small_tame _ _ _ _ G a.
Let tfin a : tame a -> fin a := tame_fin _ _ _ L a.
Let fnum a : fin a -> numeric a := fin_num _ _ _ L a.
Hint Resolve st tfin fnum : core.

Lemma soft_position_weak l s : soft_position_ok small l s -> soft_pos_limits_ok tame l /\ soft_ok tame s.
Proof.
  intros ((Hp & Hv & Tl & Th & Hlh & (Tv & Pv)) & (Ts1 & Ts2 & Hs & (Tk & Pk) & (Tkv & Pkv)) & _).
  split.
  - split; auto. split; auto. split; auto. split; auto. split; auto. split; auto.
  - split; auto. split; auto. split; auto. split; split; auto.
Qed.

Let le_z : numeric (zero A) := fnum _ (zero_fin L).

(** Which of its three arguments the soft velocity bound is. *)
Lemma soft_vel_cases (s : soft_limits A) vmax pos b :
  let x := mul A (opp A (k_position s)) (sub A pos b) in
  numeric x -> numeric vmax -> le (zero A) vmax ->
  (soft_vel s vmax pos b = x \/
   soft_vel s vmax pos b = opp A vmax /\ le x (opp A vmax) \/
   soft_vel s vmax pos b = vmax /\ le vmax x).
Proof.
  intros x Nx Nv Pv. unfold soft_vel, saturate. fold x.
  pose proof (opp_self L _ Pv) as O. assert (No := le_numl _ _ O).
  unfold fmax. destruct (ltb A x (opp A vmax)) eqn:E1.
  - right; left. unfold fmin. rewrite (le_lt_false _ _ O). split; auto. apply (lt_le L); auto.
  - unfold fmin. destruct (ltb A vmax x) eqn:E2; auto.
    right; right. split; auto. apply (lt_le L); auto.
Qed.

(** One call, with the reference in the hard limits. *)
Lemma pf_zones l s ref c dt : soft_position_ok small l s -> soft_period fin gain s dt ->
  within (min_position l) (max_position l) ref -> numeric c ->
  let b := pf_bounds l s ref dt in
  let w := saturate c (fst b) (snd b) in
  within (min_position l) (max_position l) w /\
  (within (soft_min s) (soft_max s) ref -> within (soft_min s) (soft_max s) w).
Proof.
  intros Hok (Fdt & Pdt & Hg) Hr Nc.
  destruct Hok as ((Hp & Hv & Sl & Sh & Hlh & (Sv & Pv)) & (Ss1 & Ss2 & Hs & (Sk & Pk) & Hkv) & X1 & X2).
  assert (Sr : small ref) by (eapply (small_between _ _ _ _ G); [exact Sl | exact Sh | auto]).
  assert (Pd : le (zero A) dt) by (apply (lt_le L); auto).
  unfold pf_bounds. rewrite Hp. cbv zeta. simpl.
  set (vlo := soft_vel s (max_velocity l) ref (soft_min s)).
  set (vhi := soft_vel s (max_velocity l) ref (soft_max s)).
  pose (x1 := mul A (opp A (k_position s)) (sub A ref (soft_min s))).
  pose (x2 := mul A (opp A (k_position s)) (sub A ref (soft_max s))).
  assert (Fx1 : fin x1) by (apply (small_fin _ _ _ _ G); auto).
  assert (Fx2 : fin x2) by (apply (small_fin _ _ _ _ G); auto).
  assert (Fv : fin (max_velocity l)) by auto.
  assert (Fo : fin (opp A (max_velocity l))) by (apply (opp_fin _ _ _ L); auto).
  assert (Fr : fin ref) by auto.
  destruct Hr as [Hr1 Hr2].
  pose proof (soft_vel_cases s (max_velocity l) ref (soft_min s) (fnum _ Fx1) (fnum _ Fv) Pv) as C1.
  pose proof (soft_vel_cases s (max_velocity l) ref (soft_max s) (fnum _ Fx2) (fnum _ Fv) Pv) as C2.
  fold vlo x1 in C1. fold vhi x2 in C2.
  assert (Fvlo : fin vlo) by (destruct C1 as [-> | [[-> _] | [-> _]]]; auto).
  assert (Fvhi : fin vhi) by (destruct C2 as [-> | [[-> _] | [-> _]]]; auto).
  assert (Nl : numeric (add A ref (mul A vlo dt))).
  { eapply le_numl. apply (add_le _ _ _ L); [auto|]. apply (le_refl L). apply (mul_num L); auto. }
  assert (Nh : numeric (add A ref (mul A vhi dt))).
  { eapply le_numl. apply (add_le _ _ _ L); [auto|]. apply (le_refl L). apply (mul_num L); auto. }
  assert (Up : forall v, fin v -> le (zero A) v -> le ref (add A ref (mul A v dt))).
  { intros v F1 P1. apply (add_up L); auto. apply (mul_nonneg L); auto. }
  assert (Mono : forall v v', fin v -> fin v' -> le v v' ->
                 le (add A ref (mul A v dt)) (add A ref (mul A v' dt))).
  { intros v v' F1 F2 H. apply (add_le _ _ _ L); auto. apply (mul_le _ _ _ L); auto. }
  (* the step towards each soft limit, bounded *)
  assert (Hhi_ge : forall m, le m ref -> le m (soft_max s) -> le m (add A ref (mul A vhi dt))).
  { intros m M1 M2. assert (Nm := le_numl _ _ M1).
    destruct (le_or_lt ref (soft_max s)) as [Q|Q]; auto.
    - (* below the soft limit: the velocity is not negative *)
      apply (le_tr L _ ref); auto. apply Up; auto.
      assert (Z : le (zero A) x2).
      { unfold x2. apply (le_tr L _ (mul A (opp A (k_position s)) (zero A))).
        - apply (mul_zero_r _ _ _ L). apply (opp_fin _ _ _ L); auto.
        - apply (mul_ge _ _ _ L); auto.
          + apply (opp_fin _ _ _ L); auto.
          + apply (sub_tame _ _ _ L); auto.
          + apply (zero_fin L).
          + apply (opp_nonpos L); auto.
          + apply (le_tr L _ (sub A (soft_max s) (soft_max s))); [|apply (sub_same _ _ _ L); auto].
            apply (sub_le_l _ _ _ L); auto. }
      destruct C2 as [-> | [[-> E] | [-> _]]]; auto.
      apply (le_tr L _ x2); auto.
    - apply (lt_le L) in Q. apply (le_tr L _ (soft_max s)); auto.
      apply (le_tr L _ (add A ref (mul A x2 dt))).
      + apply (gain_down _ _ _ _ G); auto.
      + destruct C2 as [-> | [[-> E] | [-> E]]].
        * apply (le_refl L). eapply le_numl. apply (add_le _ _ _ L); [auto|]. apply (le_refl L).
          apply (mul_num L); auto.
        * apply Mono; auto.
        * (* impossible unless both are equal: x2 <= 0 <= max_velocity *)
          apply Mono; auto.
          assert (Z : le x2 (zero A)).
          { unfold x2. apply (le_tr L _ (mul A (opp A (k_position s)) (zero A))).
            - apply (mul_ge _ _ _ L); auto.
              + apply (opp_fin _ _ _ L); auto.
              + apply (zero_fin L).
              + apply (sub_tame _ _ _ L); auto.
              + apply (opp_nonpos L); auto.
              + apply (le_tr L _ (sub A (soft_max s) (soft_max s))); [apply (sub_same _ _ _ L); auto|].
                apply (sub_le_l _ _ _ L); auto.
            - apply (mul_zero_r _ _ _ L). apply (opp_fin _ _ _ L); auto. }
          apply (le_tr L _ (zero A)); auto. }
  assert (Nlo : numeric (fmax (add A ref (mul A vlo dt)) (min_position l))) by (apply fmax_num; auto).
  assert (Nhi : numeric (fmin (add A ref (mul A vhi dt)) (max_position l))) by (apply fmin_num; auto).
  pose proof (sat_hi L c _ _ Nc Nlo Nhi) as S.
  split; [split|].
  - apply (sat_lo L); auto.
    + apply (fmax_r L); auto.
    + apply fmin_glb; auto.
  - eapply (le_tr L); [exact S|]. apply (fmin_r L); auto.
  - intros [Z1 Z2]. split.
    + apply (sat_lo L); auto.
      * (* the lower bound is at least the soft minimum *)
        apply (le_tr L _ (add A ref (mul A vlo dt))); [|apply (fmax_l L); auto].
        destruct C1 as [E | [[E H] | [E H]]].
        -- rewrite E. apply (gain_down _ _ _ _ G); auto.
        -- rewrite E. apply (le_tr L _ (add A ref (mul A x1 dt))); [apply (gain_down _ _ _ _ G); auto|].
           apply Mono; auto.
        -- rewrite E. apply (le_tr L _ ref); auto.
      * apply fmin_glb; auto.
    + eapply (le_tr L); [exact S|]. eapply (le_tr L); [apply (fmin_l L); auto|].
      destruct C2 as [E | [[E H] | [E H]]].
      * rewrite E. apply (gain_up _ _ _ _ G); auto.
      * rewrite E. apply (le_tr L _ ref); auto.
        apply (le_tr L _ (add A ref (zero A))); [|apply (add_zero _ _ _ L); auto].
        apply (add_le _ _ _ L); auto.
        apply (le_tr L _ (mul A (zero A) dt)); [|apply (mul_zero _ _ _ L); auto].
        apply (mul_le _ _ _ L); auto; [apply (zero_fin L) | apply (opp_nonpos L); auto].
      * rewrite E. apply (le_tr L _ (add A ref (mul A x2 dt))); [apply Mono; auto|].
        apply (gain_up _ _ _ _ G); auto.
Qed.

(** ** Histories *)

Definition pf_inv (Z : F -> Prop) (l : limits A) (s : soft_limits A) (fresh : bool) (h : pos_soft A) : Prop :=
  pf_limits h = l /\ pf_soft h = s /\ isnan A (pf_prev h) = fresh /\ (fresh = false -> Z (pf_prev h)).

(** A zone that one call does not leave. *)
Definition kept (Z : F -> Prop) (l : limits A) (s : soft_limits A) : Prop :=
  (forall ref, Z ref -> numeric ref) /\
  forall ref c dt, soft_period fin gain s dt -> Z ref -> numeric c ->
    Z (let b := pf_bounds l s ref dt in saturate c (fst b) (snd b)).

Lemma pf_inv_step Z l s fresh h j dt : kept Z l s -> pf_inv Z l s fresh h ->
  soft_period fin gain s dt -> (fresh = true -> Z (j_pos j)) ->
  exists h' j', pos_soft_enforce h j dt = Some (h', j') /\ pf_inv Z l s (isnan A (j_cmd j)) h' /\
    pf_prev h' = j_cmd j' /\
    j_cmd j' = (let b := pf_bounds l s (if fresh then j_pos j else pf_prev h) dt in
                saturate (j_cmd j) (fst b) (snd b)).
Proof.
  intros [K1 K2] (E1 & E2 & E3 & E4) Hdt Hj.
  rewrite (pf_enforce_eq h j dt _ eq_refl) by apply Hdt. cbv zeta. rewrite E1, E2, E3.
  eexists. eexists. split; [reflexivity|]. simpl. split; [|split; reflexivity].
  split; auto. split; auto. simpl.
  assert (R : Z (if fresh then j_pos j else pf_prev h)) by (destruct fresh; auto).
  destruct (isnan A (j_cmd j)) eqn:N.
  - rewrite (sat_nan L) by auto. split; auto. discriminate.
  - specialize (K2 _ (j_cmd j) dt Hdt R N). cbv zeta in K2. split; auto. apply K1 in K2. exact K2.
Qed.

Lemma pf_after Z l s ops : kept Z l s -> has_velocity_limits l = true ->
  starts_inside (soft_period fin gain s) Z true ops ->
  exists h, pos_soft_after (mkPosSoft l s (nan A)) ops = Some h /\
    pf_inv Z l s (fresh_after true ops) h /\
    forall j, pos_soft_reference l s ops j = Some (if fresh_after true ops then j_pos j else pf_prev h).
Proof.
  intros K Hv. induction ops as [|o ops IH] using rev_ind; intros Hs.
  - exists (mkPosSoft l s (nan A)). split; [reflexivity|]. split; [|reflexivity].
    split; auto. split; auto. split; [apply (nan_nan _ _ _ L)|discriminate].
  - apply starts_inside_app in Hs as [Hs Ho]. destruct (IH Hs) as (h & E & Hi & Hr).
    assert (FA : forall fr, fresh_after fr (ops ++ [o]) =
              match o with Enforce j' _ => isnan A (j_cmd j') | Reset => true end).
    { intros fr. unfold fresh_after. rewrite rev_app_distr. destruct o; reflexivity. }
    unfold pos_soft_after in *. rewrite fold_left_app, E, !FA. simpl.
    unfold pos_soft_reference. rewrite rev_app_distr. simpl. rewrite rev_involutive.
    destruct o as [j dt|].
    + destruct Ho as [P2 P3].
      destruct (pf_inv_step Z l s _ h j dt K Hi P2 P3) as (h' & j' & E' & Hi' & P & _).
      rewrite E'. exists h'. split; [reflexivity|]. split; auto. intros j0.
      destruct (isnan A (j_cmd j)); auto. unfold pos_soft_written, pos_soft_make. rewrite Hv.
      unfold pos_soft_after. rewrite E, E'. simpl. now rewrite P.
    + exists (pos_soft_reset h). split; [reflexivity|]. split; [|reflexivity].
      destruct Hi as (E1 & E2 & E3 & _). unfold pos_soft_reset, pf_inv. simpl. rewrite E1, E2.
      split; auto. split; auto. split; [apply (nan_nan _ _ _ L)|discriminate].
Qed.

Lemma hard_kept l s : soft_position_ok small l s -> kept (within (min_position l) (max_position l)) l s.
Proof.
  intros H. split.
  - intros ref [R _]. eapply le_numr; eauto.
  - intros ref c dt Hdt Hr N. apply pf_zones; auto.
Qed.

Lemma soft_kept l s : soft_position_ok small l s ->
  kept (fun p => within (min_position l) (max_position l) p /\ within (soft_min s) (soft_max s) p) l s.
Proof.
  intros H. split.
  - intros ref [[R _] _]. eapply le_numr; eauto.
  - intros ref c dt Hdt [Hr1 Hr2] N. destruct (pf_zones l s ref c dt H Hdt Hr1 N). auto.
Qed.

Lemma pos_soft_spec l s ops j dt : soft_position_ok small l s ->
  starts_inside (soft_period fin gain s) (within (min_position l) (max_position l)) true
    (ops ++ [Enforce j dt]) ->
  numeric (j_cmd j) ->
  exists w ref, pos_soft_written l s ops j dt = Some w /\ pos_soft_reference l s ops j = Some ref /\
    within (min_position l) (max_position l) ref /\
    within (min_position l) (max_position l) w /\
    le (add A ref (opp A (mul A (max_velocity l) dt))) w /\
    le w (add A ref (mul A (max_velocity l) dt)) /\
    (within (soft_min s) (soft_max s) ref -> within (soft_min s) (soft_max s) w) /\
    (le (max_velocity l) (opp A (mul A (k_position s) (sub A ref (soft_max s)))) ->
     le (max_velocity l) (mul A (k_position s) (sub A ref (soft_min s))) ->
     within (min_position l) (max_position l) (j_cmd j) ->
     le (add A ref (opp A (mul A (max_velocity l) dt))) (j_cmd j) ->
     le (j_cmd j) (add A ref (mul A (max_velocity l) dt)) -> w = j_cmd j).
Proof.
  intros Hok Hs N. apply starts_inside_app in Hs as (Hs & P2 & P3).
  pose proof (hard_kept l s Hok) as K.
  assert (Hv : has_velocity_limits l = true) by apply Hok.
  destruct (pf_after _ l s ops K Hv Hs) as (h & E & Hi & Hr).
  destruct (pf_inv_step _ l s _ h j dt K Hi P2 P3) as (h' & j' & E' & Hi' & P & Q).
  set (ref := if fresh_after true ops then j_pos j else pf_prev h) in *.
  exists (j_cmd j'), ref. split.
  { unfold pos_soft_written, pos_soft_make. rewrite Hv, E, E'. reflexivity. }
  split; [exact (Hr j)|].
  assert (R : within (min_position l) (max_position l) ref).
  { unfold ref. destruct (fresh_after true ops) eqn:Ef; auto. destruct Hi as (_ & _ & _ & Hi); auto. }
  split; auto. destruct (soft_position_weak _ _ Hok) as [W1 W2].
  destruct P2 as (Fdt & Pdt & Hg).
  destruct (pf_zones l s ref (j_cmd j) dt Hok (conj Fdt (conj Pdt Hg)) R N) as [Z1 Z2].
  destruct (pf_step L l s ref (j_cmd j) dt W1 W2 R Fdt Pdt N) as (_ & S2 & S3).
  cbv zeta in Z1, Z2, S2, S3, Q. rewrite Q. split; auto. split; auto. split; auto. split; auto.
  intros. apply (pf_transparent L); auto.
  eapply (tame_between _ _ _ L); [| |exact R]; apply W1.
Qed.

(** Once inside the soft limits, always inside the soft limits. *)
Lemma pos_soft_stays l s ops j dt : soft_position_ok small l s ->
  starts_inside (soft_period fin gain s)
    (fun p => within (min_position l) (max_position l) p /\ within (soft_min s) (soft_max s) p) true
    (ops ++ [Enforce j dt]) ->
  numeric (j_cmd j) ->
  exists w, pos_soft_written l s ops j dt = Some w /\
    within (min_position l) (max_position l) w /\ within (soft_min s) (soft_max s) w.
Proof.
  intros Hok Hs N. apply starts_inside_app in Hs as (Hs & P2 & P3).
  pose proof (soft_kept l s Hok) as K.
  assert (Hv : has_velocity_limits l = true) by apply Hok.
  destruct (pf_after _ l s ops K Hv Hs) as (h & E & Hi & Hr).
  destruct (pf_inv_step _ l s _ h j dt K Hi P2 P3) as (h' & j' & E' & Hi' & P & Q).
  exists (j_cmd j'). split.
  { unfold pos_soft_written, pos_soft_make. rewrite Hv, E, E'. reflexivity. }
  rewrite <- P. destruct Hi' as (_ & _ & _ & Hi'). apply Hi'. exact N.
Qed.
End Gain.

(** ** Exact arithmetic: the gain times the period is at most one *)

Definition gain_exact (k dt : num exact) : Prop :=
  exists x y, k = Some x /\ dt = Some y /\ x * y <= 1.

Lemma exact_gain : @gain_laws exact rational rational rational gain_exact.
Proof.
  assert (N : forall a : num exact, rational a -> exists x, a = Some x).
  { intros [x|] H; [eauto | now elim H]. }
  assert (R : forall x : Q, rational (Some x)) by (intros x; unfold rational; discriminate).
  constructor; auto.
  - apply (fin_between _ _ _ exact_laws).
  - intros k a b Hk Ha Hb. apply N in Hk as (x & ->). apply N in Ha as (y & ->). apply N in Hb as (z & ->).
    apply R.
  - intros k dt ref b Hk Hr Hb Pk _ Pdt (x & y & -> & -> & Hg) H.
    apply N in Hr as (r & ->). apply N in Hb as (z & ->).
    apply exact_le_some in H. apply exact_le_some in Pk. apply exact_le_some in Pdt.
    apply exact_le_some. nra.
  - intros k dt ref b Hk Hr Hb Pk _ Pdt (x & y & -> & -> & Hg) H.
    apply N in Hr as (r & ->). apply N in Hb as (z & ->).
    apply exact_le_some in H. apply exact_le_some in Pk. apply exact_le_some in Pdt.
    apply exact_le_some. nra.
Qed.
