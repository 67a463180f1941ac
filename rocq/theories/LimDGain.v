(** The gain condition of the soft position limiter (LimGain.v) for doubles. *)
From Coq Require Import Reals Psatz.
From Flocq Require Import Core BinarySingleNaN.
From Flocq.Prop Require Import Relative.
From Verif Require Import LimLaws LimDouble LimGain.

Open Scope R_scope.

(** A finite double of magnitude at most 2^500. *)
Definition modest (a : num double) : Prop :=
  is_finite a = true /\ Rabs (B2R a) <= bpow radix2 500.

(** Gain times period is at most one eighth; or, for periods up to one second, less than one
    by a few units in the last place. *)
Definition gain_double (k dt : num double) : Prop :=
  B2R k * B2R dt <= 1 / 8 \/
  (B2R k * B2R dt <= 1 - bpow radix2 (-50) /\ B2R dt <= 1).

#[local] Instance vexp64 : Valid_exp (SpecFloat.fexp 53 1024) := fexp_correct 53 1024 _.

(** Rounding to nearest moves a number at most as far as zero is away. *)
Lemma rnd_two y : Rabs (rnd y - y) <= Rabs y.
Proof.
  pose proof (round_N_pt radix2 (SpecFloat.fexp 53 1024) (fun x => negb (Z.even x)) y) as [_ H].
  specialize (H 0 (generic_format_0 _ _)).
  rewrite Rminus_0_l, Rabs_Ropp in H. exact H.
Qed.

Lemma rnd_pos y : 0 <= y -> 0 <= rnd y <= 2 * y.
Proof.
  intros H. pose proof (rnd_two y) as B. rewrite (Rabs_pos_eq y) in B by auto.
  apply Rabs_le_inv in B. apply rnd_mono in H. rewrite rnd_zero in H. lra.
Qed.

Lemma rnd_neg y : y <= 0 -> 2 * y <= rnd y <= 0.
Proof.
  intros H. pose proof (rnd_two y) as B. rewrite (Rabs_left1 y) in B by auto.
  apply Rabs_le_inv in B. apply rnd_mono in H. rewrite rnd_zero in H. lra.
Qed.

Lemma clamp_pos r : 0 <= r -> 0 <= clamp r <= r.
Proof.
  pose proof top_pos. intros H1. unfold clamp, Rmax, Rmin. repeat destruct Rle_dec; lra.
Qed.

Lemma clamp_neg r : r <= 0 -> r <= clamp r <= 0.
Proof.
  pose proof top_pos. intros H1. unfold clamp, Rmax, Rmin. repeat destruct Rle_dec; lra.
Qed.

Lemma cr_pos y : 0 <= y -> 0 <= clamp (rnd y) <= 2 * y.
Proof. intros H. pose proof (rnd_pos y H). pose proof (clamp_pos (rnd y)). lra. Qed.

Lemma cr_neg y : y <= 0 -> 2 * y <= clamp (rnd y) <= 0.
Proof. intros H. pose proof (rnd_neg y H). pose proof (clamp_neg (rnd y)). lra. Qed.

Lemma modest_moderate a : modest a -> moderate a.
Proof.
  intros [H1 H2]. split; auto. eapply Rle_trans; [exact H2|]. apply bpow_le. lia.
Qed.

Lemma modest_mult_fin a b : is_finite a = true -> Rabs (B2R a) <= bpow radix2 502 -> modest b ->
  finite (mul double b a).
Proof.
  intros Fa Ba [Fb Bb]. destruct (mult_val b a Fb Fa) as (M & G).
  apply val_finite; [exact M|]. change (val (mul double b a)) with (val (Bmult mode_NE b a)). rewrite G.
  assert (B : Rabs (val b * val a) <= bpow radix2 1002).
  { rewrite Rabs_mult, !val_fin by auto. change 1002%Z with (500 + 502)%Z. rewrite bpow_plus.
    apply Rmult_le_compat; auto using Rabs_pos. }
  assert (B2 : bpow radix2 1002 < bpow radix2 1003) by (apply bpow_lt; reflexivity).
  assert (B3 : 2 * bpow radix2 1003 = bpow radix2 1004).
  { change 1004%Z with (1 + 1003)%Z. rewrite bpow_plus. reflexivity. }
  assert (B4 : bpow radix2 1004 < bpow radix2 1024) by (apply bpow_lt; reflexivity).
  apply Rabs_le_inv in B.
  destruct (Rle_or_lt 0 (val b * val a)) as [H|H].
  - pose proof (cr_pos _ H). lra.
  - pose proof (cr_neg (val b * val a)). lra.
Qed.

Lemma sub_fin a b : modest a -> modest b ->
  is_finite (Bminus mode_NE a b) = true /\ val (Bminus mode_NE a b) = clamp (rnd (val a - val b)) /\
  Rabs (B2R (Bminus mode_NE a b)) <= bpow radix2 502.
Proof.
  intros Ha Hb. pose proof (modest_moderate _ Ha) as Ma. pose proof (modest_moderate _ Hb) as Mb.
  pose proof (sub_tame _ _ _ double_laws a b Ma Mb) as F.
  destruct Ha as [Fa Ba], Hb as [Fb Bb].
  destruct (minus_plus a b Fa Fb) as (M & G).
  assert (F' : is_finite (Bminus mode_NE a b) = true) by exact F.
  split; auto. split; auto. rewrite <- val_fin by auto. rewrite G.
  apply Rabs_le_inv in Ba. apply Rabs_le_inv in Bb.
  rewrite !val_fin by auto.
  assert (E : bpow radix2 502 = 4 * bpow radix2 500).
  { change 502%Z with (2 + 500)%Z. rewrite bpow_plus. reflexivity. }
  rewrite E. apply Rabs_le.
  destruct (Rle_or_lt 0 (B2R a - B2R b)) as [H|H].
  - pose proof (cr_pos _ H). lra.
  - pose proof (cr_neg (B2R a - B2R b)). lra.
Qed.

Notation eta64 := (bpow radix2 (-1074)).
Notation uu := (bpow radix2 (-53)).

(** A multiple of the smallest positive double. *)
Definition grid (x : R) : Prop := exists m : Z, x = IZR m * eta64.

Lemma format_grid x : generic_format radix2 (SpecFloat.fexp 53 1024) x -> grid x.
Proof.
  intros H. change (SpecFloat.fexp 53 1024) with (FLT_exp (-1074) 53) in H.
  apply generic_format_FIX_FLT in H. apply FIX_format_generic in H. destruct H as [[m e] -> E].
  simpl in E. subst e. exists m. reflexivity.
Qed.

Lemma grid_minus x y : grid x -> grid y -> grid (x - y).
Proof. intros [m ->] [n ->]. exists (m - n)%Z. rewrite minus_IZR. ring. Qed.

Lemma grid_small x : grid x -> Rabs x < bpow radix2 (-1021) ->
  generic_format radix2 (SpecFloat.fexp 53 1024) x.
Proof.
  intros [m ->] B. change (SpecFloat.fexp 53 1024) with (FLT_exp (-1074) 53).
  apply generic_format_FLT. exists (Float radix2 m (-1074)).
  - reflexivity.
  - simpl. rewrite Rabs_mult, (Rabs_pos_eq eta64) in B by apply bpow_ge_0.
    apply lt_IZR. rewrite abs_IZR. apply (Rmult_lt_reg_r eta64); [apply bpow_gt_0|].
    eapply Rlt_le_trans; [exact B|]. change (IZR (Z.pow_pos 2 53)) with (bpow radix2 53).
    rewrite <- bpow_plus. apply Rle_refl.
  - simpl. lia.
Qed.

Lemma grid_gap x y : grid x -> grid y -> x < y + eta64 -> x <= y.
Proof.
  intros [m ->] [n ->] H. apply Rmult_le_compat_r; [apply bpow_ge_0|]. apply IZR_le.
  assert (m < n + 1)%Z; [|lia]. apply lt_IZR. rewrite plus_IZR.
  apply (Rmult_lt_reg_r eta64); [apply bpow_gt_0|]. lra.
Qed.

(** The error of rounding: relative, or absolute for tiny results. *)
Lemma rnd_err y : 0 <= y -> rnd y <= y * (1 + uu) \/ rnd y <= y + eta64 / 2.
Proof.
  intros H.
  destruct (error_N_FLT radix2 (-1074) 53 eq_refl (fun x => negb (Z.even x)) y) as (e & n & E1 & E2 & E3 & E4).
  change (FLT_exp (-1074) 53) with (SpecFloat.fexp 53 1024) in E4.
  change (Znearest (fun x => negb (Z.even x))) with (round_mode mode_NE) in E4.
  rewrite E4. 
  assert (U : / 2 * bpow radix2 (- (53) + 1) = uu).
  { change (/2) with (bpow radix2 (-1)). rewrite <- bpow_plus. reflexivity. }
  rewrite U in E1. apply Rabs_le_inv in E1. apply Rabs_le_inv in E2.
  apply Rmult_integral in E3 as [-> | ->].
  - right. lra.
  - left. rewrite Rplus_0_r. apply Rmult_le_compat_l; lra.
Qed.

Lemma uu_val : uu = / 9007199254740992.
Proof. reflexivity. Qed.

Lemma gain_round k dt d : 0 <= k -> 0 <= dt -> dt <= 1 -> k * dt <= 1 - bpow radix2 (-50) ->
  0 <= d -> grid d -> rnd (rnd (k * rnd d) * dt) <= d.
Proof.
  intros Pk Pdt Hdt Hg Pd Gd.
  assert (U50 : bpow radix2 (-50) = 8 * uu).
  { change (-50)%Z with (3 + -53)%Z. rewrite bpow_plus. reflexivity. }
  rewrite U50 in Hg.
  assert (Hu : 0 < uu < 1 / 1000) by (rewrite uu_val; lra).
  assert (Hn : bpow radix2 (-1021) <= d -> eta64 / 2 <= uu / 2 * d).
  { intros S. assert (E : eta64 = uu * bpow radix2 (-1021)) by (rewrite <- bpow_plus; reflexivity).
    rewrite E. apply Rle_trans with (uu / 2 * bpow radix2 (-1021)); [lra|].
    apply Rmult_le_compat_l; lra. }
  pose proof rnd_err as rnd_err. set (u := uu) in *. clearbody u.
  pose proof (bpow_gt_0 radix2 (-1074)) as He. set (eta := eta64) in *.
  assert (Pd' : 0 <= rnd d) by apply rnd_pos, Pd.
  assert (Px : 0 <= k * rnd d) by nra.
  assert (Pt : 0 <= rnd (k * rnd d)) by apply rnd_pos, Px.
  assert (Pz : 0 <= rnd (k * rnd d) * dt) by nra.
  destruct (Rlt_or_le d (bpow radix2 (-1021))) as [S|S].
  - assert (Fd : generic_format radix2 (SpecFloat.fexp 53 1024) d).
    { apply grid_small; auto. now rewrite Rabs_pos_eq. }
    assert (Ed : rnd d = d) by (apply round_generic; [apply valid_rnd_round_mode|exact Fd]).
    rewrite Ed in *.
    assert (Mono : forall z, z <= d -> rnd z <= d) by (intros z Hz; rewrite <- Ed; apply rnd_mono; auto).
    destruct (rnd_err _ Px) as [E|E].
    + apply Mono.
      assert (A1 : rnd (k * d) * dt <= k * d * (1 + u) * dt) by (apply Rmult_le_compat_r; auto).
      assert (A2 : k * dt * (d * (1 + u)) <= (1 - 8 * u) * (d * (1 + u)))
        by (apply Rmult_le_compat_r; [apply Rmult_le_pos; lra|auto]).
      assert (A3 : (1 - 8 * u) * (1 + u) <= 1) by nra.
      assert (A4 : d * ((1 - 8 * u) * (1 + u)) <= d * 1) by (apply Rmult_le_compat_l; auto).
      nra.
    + destruct (Rle_or_lt (rnd (k * d) * dt) d) as [C|C]; auto.
      set (z := rnd (k * d) * dt) in *.
      assert (A1 : z <= (k * d + eta / 2) * dt) by (apply Rmult_le_compat_r; auto).
      assert (A2 : k * dt * d <= (1 - 8 * u) * d) by (apply Rmult_le_compat_r; auto).
      assert (A3 : eta / 2 * dt <= eta / 2 * 1) by (apply Rmult_le_compat_l; lra).
      assert (Dp : 0 < d).
      { destruct Pd as [|<-]; auto. exfalso. unfold z in C.
        rewrite Rmult_0_r, rnd_zero in C. lra. }
      assert (A4 : z < d + eta / 2) by nra.
      apply grid_gap; [apply format_grid, generic_format_round; [exact _|apply valid_rnd_round_mode] | auto | ].
      pose proof (round_N_pt radix2 (SpecFloat.fexp 53 1024) (fun x => negb (Z.even x)) z) as [_ H].
      specialize (H d Fd). change (Znearest (fun x => negb (Z.even x))) with (round_mode mode_NE) in H.
      rewrite (Rabs_left (d - z)) in H by lra. apply Rabs_le_inv in H. fold eta. lra.
  - specialize (Hn S).  clear S.
    assert (A1 : rnd d <= d * (1 + u)) by (destruct (rnd_err d Pd) as [E|E] ; nra).
    set (x := k * rnd d) in *. set (t := rnd x) in *. set (z := t * dt) in *.
    assert (A2 : x * dt <= (1 - 8 * u) * (d * (1 + u))).
    { unfold x. replace (k * rnd d * dt) with (k * dt * rnd d) by ring.
      apply Rmult_le_compat; auto. nra. }
    assert (A3 : z <= x * dt * (1 + u) + u * d).
    { assert (0 <= x * dt) by nra. unfold z. destruct (rnd_err x Px) as [E|E]; fold t in E.
      - assert (t * dt <= x * (1 + u) * dt) by (apply Rmult_le_compat_r; auto). nra.
      - assert (t * dt <= (x + eta / 2) * dt) by (apply Rmult_le_compat_r; auto).
        assert (eta / 2 * dt <= eta / 2 * 1) by (apply Rmult_le_compat_l; lra). nra. }
    assert (A4 : z <= d * (1 - 4 * u)).
    { assert (x * dt * (1 + u) <= (1 - 8 * u) * (d * (1 + u)) * (1 + u)) by (apply Rmult_le_compat_r; lra).
      assert ((1 - 8 * u) * (1 + u) * (1 + u) + u <= 1 - 4 * u) by nra.
      assert (d * ((1 - 8 * u) * (1 + u) * (1 + u) + u) <= d * (1 - 4 * u)) by (apply Rmult_le_compat_l; auto).
      lra. }
    destruct (rnd_err z Pz) as [E|E].
    + assert (z * (1 + u) <= d * (1 - 4 * u) * (1 + u)) by (apply Rmult_le_compat_r; lra).
      assert ((1 - 4 * u) * (1 + u) <= 1) by nra. nra.
    + nra.
Qed.

Lemma clamp_inner r : - top < clamp r < top -> clamp r = r.
Proof. pose proof top_pos. unfold clamp, Rmax, Rmin. repeat destruct Rle_dec; lra. Qed.

Lemma rnd_opp y : rnd (- y) = - rnd y.
Proof. apply round_NE_opp. Qed.

Lemma double_grid a : is_finite a = true -> grid (val a).
Proof. intros H. rewrite val_fin by auto. apply format_grid, generic_format_B2R. Qed.

(** The step towards a limit [b] as computed, for a reference above it and one below it. *)
Lemma step_down k dt d sv xv mv : 0 <= k -> 0 <= dt -> dt <= 1 -> k * dt <= 1 - bpow radix2 (-50) ->
  0 <= d -> grid d -> sv = clamp (rnd d) -> - top < sv < top ->
  xv = clamp (rnd (- k * sv)) -> - top < xv < top -> mv = clamp (rnd (xv * dt)) -> - d <= mv.
Proof.
  intros Pk Pdt Hdt Hg Pd Gd -> Bs -> Bx ->. rewrite (clamp_inner _ Bs) in *.
  rewrite (clamp_inner _ Bx) in *.
  pose proof (gain_round k dt d Pk Pdt Hdt Hg Pd Gd) as G.
  replace (- k * rnd d) with (- (k * rnd d)) by ring. rewrite rnd_opp.
  replace (- rnd (k * rnd d) * dt) with (- (rnd (k * rnd d) * dt)) by ring. rewrite rnd_opp.
  assert (P1 : 0 <= rnd d) by apply rnd_pos, Pd.
  assert (P2 : 0 <= rnd (k * rnd d)) by (apply rnd_pos; nra).
  assert (P3 : 0 <= rnd (rnd (k * rnd d) * dt)) by (apply rnd_pos; nra).
  pose proof (clamp_neg (- rnd (rnd (k * rnd d) * dt))). lra.
Qed.

Lemma step_up k dt d sv xv mv : 0 <= k -> 0 <= dt -> dt <= 1 -> k * dt <= 1 - bpow radix2 (-50) ->
  d <= 0 -> grid (- d) -> sv = clamp (rnd d) -> - top < sv < top ->
  xv = clamp (rnd (- k * sv)) -> - top < xv < top -> mv = clamp (rnd (xv * dt)) -> mv <= - d.
Proof.
  intros Pk Pdt Hdt Hg Pd Gd -> Bs -> Bx ->. rewrite (clamp_inner _ Bs) in *.
  rewrite (clamp_inner _ Bx) in *.
  pose proof (gain_round k dt (- d) Pk Pdt Hdt Hg ltac:(lra) Gd) as G.
  rewrite rnd_opp in G. replace (k * - rnd d) with (- k * rnd d) in G by ring.
  assert (P1 : 2 * d <= rnd d <= 0) by apply rnd_neg, Pd.
  assert (P2 : 0 <= rnd (- k * rnd d)) by (apply rnd_pos; nra).
  assert (P3 : 0 <= rnd (rnd (- k * rnd d) * dt)) by (apply rnd_pos; nra).
  pose proof (clamp_pos (rnd (rnd (- k * rnd d) * dt))). lra.
Qed.

Lemma double_gain : @gain_laws double finite moderate modest gain_double.
Proof.
  assert (SF : forall k a b : num double, modest k -> modest a -> modest b ->
                 finite (mul double (opp double k) (sub double a b))).
  { intros k a b Hk Ha Hb. destruct (sub_fin a b Ha Hb) as (F & _ & B).
    apply modest_mult_fin; auto. destruct Hk as [Fk Bk]. split; simpl.
    - rewrite is_finite_Bopp. auto.
    - rewrite B2R_Bopp, Rabs_Ropp. auto. }
  constructor.
  - exact modest_moderate.
  - intros lo hi a Hl Hh Hw.
    assert (Fa : finite a) by (apply (fin_between _ _ _ double_laws lo hi); auto; [apply Hl | apply Hh]).
    split; auto. destruct Hl as [Fl Bl], Hh as [Fh Bh], Hw as [H1 H2].
    apply le_val in H1 as (_ & _ & H1). apply le_val in H2 as (_ & _ & H2).
    rewrite !val_fin in * by auto. apply Rabs_le. apply Rabs_le_inv in Bl. apply Rabs_le_inv in Bh. lra.
  - exact SF.
  - intros k dt ref b Hk Hr Hb Pk Fdt Pdt Hg H.
    pose proof (SF k ref b Hk Hr Hb) as Fx.
    destruct (sub_fin ref b Hr Hb) as (Fs & Vs & Bs).
    destruct Hk as [Fk Bk], Hr as [Fr Br], Hb as [Fb Bb].
    apply le_val in H as (Nb & Nr & H). apply le_val in Pk as (_ & _ & Pk). change (0 <= val k) in Pk.
    apply le_val in Pdt as (_ & _ & Pdt). change (0 <= val dt) in Pdt.
    assert (Fo : is_finite (Bopp k) = true) by (rewrite is_finite_Bopp; auto).
    destruct (mult_val (Bopp k) (Bminus mode_NE ref b) Fo Fs) as (Nx & Vx).
    destruct (mult_val (Bmult mode_NE (Bopp k) (Bminus mode_NE ref b)) dt Fx Fdt) as (Nm & Vm).
    destruct (plus_any ref (Bmult mode_NE (Bmult mode_NE (Bopp k) (Bminus mode_NE ref b)) dt) Fr Nm)
      as (Na & _ & Va).
    unfold gain_double in Hg. rewrite <- (val_fin k), <- (val_fin dt) in Hg by auto.
    set (x := Bmult mode_NE (Bopp k) (Bminus mode_NE ref b)) in *.
    set (m := Bmult mode_NE x dt) in *.
    rewrite opp_val in Vx.
    assert (D : 0 <= val ref - val b) by lra.
    pose proof (cr_pos _ D) as S1. rewrite <- Vs in S1.
    set (sv := val (Bminus mode_NE ref b)) in *.
    assert (X0 : - val k * sv <= 0) by nra.
    pose proof (cr_neg _ X0) as X1. rewrite <- Vx in X1.
    assert (M0 : val x * val dt <= 0) by nra.
    pose proof (cr_neg _ M0) as M1. rewrite <- Vm in M1.
    assert (K : - (val ref - val b) <= val m).
    { destruct Hg as [Hg|[Hg Hd1]];
        [|eapply (step_down (val k) (val dt) (val ref - val b) sv (val x)); eauto;
          [apply grid_minus; apply double_grid; auto | apply val_fin_bound; auto
          | apply val_fin_bound; auto]].
      assert (val k * val dt * sv <= 1 / 8 * sv) by (apply Rmult_le_compat_r; lra).
      assert (2 * (- val k * sv) * val dt <= val x * val dt) by (apply Rmult_le_compat_r; lra).
      lra. }
    assert (Fm : is_finite m = true).
    { apply val_finite; auto. pose proof (val_fin_bound ref Fr). pose proof (val_fin_bound b Fb).
      destruct (Rle_or_lt (bpow radix2 502) (val ref - val b)) as [C|C].
      - exfalso. rewrite (val_fin ref), (val_fin b) in C by auto.
        apply Rabs_le_inv in Br. apply Rabs_le_inv in Bb.
        assert (E : bpow radix2 502 = 4 * bpow radix2 500).
        { change 502%Z with (2 + 500)%Z. rewrite bpow_plus. reflexivity. }
        pose proof (bpow_gt_0 radix2 500). lra.
      - assert (bpow radix2 502 < bpow radix2 1024) by (apply bpow_lt; reflexivity). 
        pose proof top_pos. lra. }
    apply le_val. split; [auto|]. split; [exact Na|].
    change (val b <= val (Bplus mode_NE ref m)). rewrite (Va Fm).
    rewrite <- (rnd_val b Fb), <- (clamp_id (rnd (val b))).
    + apply clamp_mono, rnd_mono. lra.
    + rewrite rnd_val by auto. apply val_bound.
  - intros k dt ref b Hk Hr Hb Pk Fdt Pdt Hg H.
    pose proof (SF k ref b Hk Hr Hb) as Fx.
    destruct (sub_fin ref b Hr Hb) as (Fs & Vs & Bs).
    destruct Hk as [Fk Bk], Hr as [Fr Br], Hb as [Fb Bb].
    apply le_val in H as (Nb & Nr & H). apply le_val in Pk as (_ & _ & Pk). change (0 <= val k) in Pk.
    apply le_val in Pdt as (_ & _ & Pdt). change (0 <= val dt) in Pdt.
    assert (Fo : is_finite (Bopp k) = true) by (rewrite is_finite_Bopp; auto).
    destruct (mult_val (Bopp k) (Bminus mode_NE ref b) Fo Fs) as (Nx & Vx).
    destruct (mult_val (Bmult mode_NE (Bopp k) (Bminus mode_NE ref b)) dt Fx Fdt) as (Nm & Vm).
    destruct (plus_any ref (Bmult mode_NE (Bmult mode_NE (Bopp k) (Bminus mode_NE ref b)) dt) Fr Nm)
      as (Na & _ & Va).
    unfold gain_double in Hg. rewrite <- (val_fin k), <- (val_fin dt) in Hg by auto.
    set (x := Bmult mode_NE (Bopp k) (Bminus mode_NE ref b)) in *.
    set (m := Bmult mode_NE x dt) in *.
    rewrite opp_val in Vx.
    assert (D : val ref - val b <= 0) by lra.
    pose proof (cr_neg _ D) as S1. rewrite <- Vs in S1.
    set (sv := val (Bminus mode_NE ref b)) in *.
    assert (X0 : 0 <= - val k * sv) by nra.
    pose proof (cr_pos _ X0) as X1. rewrite <- Vx in X1.
    assert (M0 : 0 <= val x * val dt) by nra.
    pose proof (cr_pos _ M0) as M1. rewrite <- Vm in M1.
    assert (K : val m <= val b - val ref).
    { destruct Hg as [Hg|[Hg Hd1]];
        [|replace (val b - val ref) with (- (val ref - val b)) by ring;
          eapply (step_up (val k) (val dt) (val ref - val b) sv (val x)); eauto;
          [replace (- (val ref - val b)) with (val b - val ref) by ring;
           apply grid_minus; apply double_grid; auto | apply val_fin_bound; auto
          | apply val_fin_bound; auto]].
      assert (val k * val dt * - sv <= 1 / 8 * - sv) by (apply Rmult_le_compat_r; lra).
      assert (val x * val dt <= 2 * (- val k * sv) * val dt) by (apply Rmult_le_compat_r; lra).
      lra. }
    assert (Fm : is_finite m = true).
    { apply val_finite; auto.
      destruct (Rle_or_lt (bpow radix2 502) (val b - val ref)) as [C|C].
      - exfalso. rewrite (val_fin ref), (val_fin b) in C by auto.
        apply Rabs_le_inv in Br. apply Rabs_le_inv in Bb.
        assert (E : bpow radix2 502 = 4 * bpow radix2 500).
        { change 502%Z with (2 + 500)%Z. rewrite bpow_plus. reflexivity. }
        pose proof (bpow_gt_0 radix2 500). lra.
      - assert (bpow radix2 502 < bpow radix2 1024) by (apply bpow_lt; reflexivity).
        pose proof top_pos. lra. }
    apply le_val. split; [exact Na|]. split; [auto|].
    change (val (Bplus mode_NE ref m) <= val b). rewrite (Va Fm).
    rewrite <- (rnd_val b Fb), <- (clamp_id (rnd (val b))).
    + apply clamp_mono, rnd_mono. lra.
    + rewrite rnd_val by auto. apply val_bound.
Qed.
