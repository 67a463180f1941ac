(** IEEE 754 binary64 arithmetic, rounding to nearest even, as an instance of the dictionary
    of LimModel.v: the C++ [double] of joint_limits_interface.h:53-524.  The operations are
    those of Flocq (with a single NaN: no NaN payload is ever looked at by the code). *)
From Coq Require Import Reals Psatz.
From Flocq Require Import Core BinarySingleNaN.
From Verif Require Import LimLaws.

Definition prec64 : Prec_gt_0 53 := eq_refl.
Definition emax64 : Prec_lt_emax 53 1024 := eq_refl.
#[global] Existing Instance prec64.
#[global] Existing Instance emax64.

(** The dictionary (LimModel.v) for joint_limits_interface.h:53-524 with doubles. *)
Definition double : arith := mkArith (binary_float 53 1024)
  (Bplus mode_NE) (Bminus mode_NE) (Bmult mode_NE) Bopp Bltb is_nan
  (B754_zero false) (@Bmax_float 53 1024 prec64 emax64) B754_nan.

(** A finite double. *)
Definition finite (a : num double) : Prop := is_finite a = true.
(** A finite double of magnitude at most 2^1022 (about 4.5e307). *)
Definition moderate (a : num double) : Prop :=
  is_finite a = true /\ (Rabs (B2R a) <= bpow radix2 1022)%R.

#[local] Instance vexp64 : Valid_exp (SpecFloat.fexp 53 1024) := fexp_correct 53 1024 _.
#[local] Instance vrnd64 : Valid_rnd (round_mode mode_NE) := valid_rnd_round_mode mode_NE.

Open Scope R_scope.

Notation top := (bpow radix2 1024).
Notation rnd := (round radix2 (SpecFloat.fexp 53 1024) (round_mode mode_NE)).

(** The value of a double that is not NaN, infinities being put at +-2^1024. *)
Definition val (a : binary_float 53 1024) : R :=
  match a with
  | B754_infinity false => top
  | B754_infinity true => - top
  | _ => B2R a
  end.

Definition clamp (r : R) : R := Rmax (- top) (Rmin r top).

Lemma top_pos : 0 < top. Proof. apply bpow_gt_0. Qed.

Lemma val_fin a : is_finite a = true -> val a = B2R a.
Proof. destruct a as [s|s| |]; simpl; try discriminate; auto. Qed.

Lemma val_fin_bound a : is_finite a = true -> - top < val a < top.
Proof.
  intros H. rewrite val_fin by auto.
  pose proof (abs_B2R_lt_emax 53 1024 a) as B. apply Rabs_def2 in B. lra.
Qed.

Lemma val_bound a : - top <= val a <= top.
Proof.
  destruct (is_finite a) eqn:E.
  - pose proof (val_fin_bound a E). lra.
  - pose proof top_pos. destruct a as [s|s| |]; simpl in *; try discriminate; [destruct s|]; lra.
Qed.

Lemma ltb_val a b : is_nan a = false -> is_nan b = false ->
  Bltb a b = true <-> val a < val b.
Proof.
  intros Ha Hb.
  destruct (is_finite a) eqn:Fa, (is_finite b) eqn:Fb.
  - rewrite Bltb_correct, !val_fin by auto.
    case Rlt_bool_spec; intros; split; intros; try lra; try discriminate; auto.
  - pose proof (val_fin_bound a Fa). pose proof top_pos.
    destruct b as [s|s| |]; try discriminate. unfold val at 2.
    destruct a as [t|t| |t m e Hm]; try discriminate; destruct s; try destruct t;
      cbv beta iota delta [Bltb SpecFloat.SFltb SpecFloat.SFcompare B2SF val];
      split; intros; try discriminate; unfold val in *; try lra; auto.
  - pose proof (val_fin_bound b Fb). pose proof top_pos.
    destruct a as [s|s| |]; try discriminate. unfold val at 1.
    destruct b as [t|t| |t m e Hm]; try discriminate; destruct s; try destruct t;
      cbv beta iota delta [Bltb SpecFloat.SFltb SpecFloat.SFcompare B2SF val];
      split; intros; try discriminate; unfold val in *; try lra; auto.
  - pose proof top_pos.
    destruct a as [s|s| |]; try discriminate. destruct b as [t|t| |]; try discriminate.
    destruct s, t; cbv beta iota delta [Bltb SpecFloat.SFltb SpecFloat.SFcompare B2SF val]; split; intros;
      try discriminate; unfold val in *; try lra; auto.
Qed.

Lemma le_val (a b : num double) :
  le a b <-> is_nan a = false /\ is_nan b = false /\ val a <= val b.
Proof.
  unfold le, numeric. simpl. split; intros (Ha & Hb & H); split; auto; split; auto.
  - destruct (Rle_or_lt (val a) (val b)) as [|G]; auto.
    apply ltb_val in G; auto. congruence.
  - destruct (Bltb b a) eqn:E; auto. apply ltb_val in E; auto. lra.
Qed.

Lemma rnd_mono x y : x <= y -> rnd x <= rnd y.
Proof. apply round_le; try exact _. Qed.

Lemma clamp_mono x y : x <= y -> clamp x <= clamp y.
Proof.
  intros H. unfold clamp. apply Rle_max_compat_l. apply Rle_min_compat_r; auto.
Qed.

Lemma clamp_id x : - top <= x <= top -> clamp x = x.
Proof.
  intros [H1 H2]. unfold clamp. rewrite Rmin_left by auto. apply Rmax_right; auto.
Qed.

Lemma rnd_val a : is_finite a = true -> rnd (val a) = val a.
Proof.
  intros H. rewrite val_fin by auto. apply round_generic; try exact _.
  apply generic_format_B2R.
Qed.

Lemma rnd_zero : rnd 0 = 0.
Proof. apply round_0; exact _. Qed.

Lemma overflow_val (z : binary_float 53 1024) s : B2SF z = binary_overflow 53 1024 mode_NE s ->
  is_nan z = false /\ val z = if s then - top else top.
Proof.
  intros H. destruct z as [t|t| |t m e Hm]; simpl in *; try discriminate.
  injection H as ->. split; [reflexivity|]. unfold val. reflexivity.
Qed.

Lemma sign_val a : is_finite a = true -> (Bsign a = true -> val a <= 0) /\ (Bsign a = false -> 0 <= val a).
Proof.
  intros H. destruct a as [s|s| |s m e Hm]; simpl in *; try discriminate.
  - lra.
  - split; intros ->.
    + apply F2R_le_0. simpl. lia.
    + apply F2R_ge_0. simpl. lia.
Qed.

Lemma clamp_high r : top <= r -> clamp r = top.
Proof.
  pose proof top_pos. intros H1. unfold clamp. rewrite Rmin_right by auto. apply Rmax_right. lra.
Qed.

Lemma clamp_low r : r <= - top -> clamp r = - top.
Proof.
  pose proof top_pos. intros H1. unfold clamp. rewrite Rmin_left by lra. apply Rmax_left. lra.
Qed.

Lemma over_sign r s : top <= Rabs (rnd r) ->
  (s = true -> r <= 0) -> (s = false -> 0 <= r) -> clamp (rnd r) = if s then - top else top.
Proof.
  pose proof top_pos as T.
  intros H Hn Hp. destruct s.
  - specialize (Hn eq_refl). apply rnd_mono in Hn. rewrite rnd_zero in Hn.
    rewrite Rabs_left1 in H by auto. apply clamp_low. lra.
  - specialize (Hp eq_refl). apply rnd_mono in Hp. rewrite rnd_zero in Hp.
    rewrite Rabs_pos_eq in H by auto. apply clamp_high. lra.
Qed.

Lemma plus_val a b : is_finite a = true -> is_finite b = true ->
  is_nan (Bplus mode_NE a b) = false /\ val (Bplus mode_NE a b) = clamp (rnd (val a + val b)).
Proof.
  intros Fa Fb. pose proof (Bplus_correct 53 1024 _ _ mode_NE a b Fa Fb) as H.
  pose proof (sign_val a Fa) as Sa. pose proof (sign_val b Fb) as Sb.
  rewrite (val_fin a Fa) in Sa |- *. rewrite (val_fin b Fb) in Sb |- *.
  revert H. case Rlt_bool_spec; intros L H.
  - destruct H as (H1 & H2 & _). split.
    + destruct (Bplus mode_NE a b); try discriminate; auto.
    + rewrite val_fin by auto. rewrite H1. symmetry. apply clamp_id.
      apply Rabs_def2 in L. lra.
  - destruct H as (H1 & H2). apply overflow_val in H1 as (H1 & H3). split; auto. rewrite H3.
    symmetry. apply over_sign; auto; intros E; rewrite E in *; symmetry in H2.
    + destruct Sa as [Sa _], Sb as [Sb _].
      specialize (Sa eq_refl). specialize (Sb H2). lra.
    + destruct Sa as [_ Sa], Sb as [_ Sb]. specialize (Sa eq_refl). specialize (Sb H2). lra.
Qed.

Lemma minus_plus a b : is_finite a = true -> is_finite b = true ->
  is_nan (Bminus mode_NE a b) = false /\ val (Bminus mode_NE a b) = clamp (rnd (val a - val b)).
Proof.
  intros Fa Fb. pose proof (Bminus_correct 53 1024 _ _ mode_NE a b Fa Fb) as H.
  pose proof (sign_val a Fa) as Sa. pose proof (sign_val b Fb) as Sb.
  rewrite (val_fin a Fa) in Sa |- *. rewrite (val_fin b Fb) in Sb |- *.
  revert H. case Rlt_bool_spec; intros L H.
  - destruct H as (H1 & H2 & _). split.
    + destruct (Bminus mode_NE a b); try discriminate; auto.
    + rewrite val_fin by auto. rewrite H1. symmetry. apply clamp_id.
      apply Rabs_def2 in L. lra.
  - destruct H as (H1 & H2). apply overflow_val in H1 as (H1 & H3). split; auto. rewrite H3.
    symmetry. destruct Sa as [Sa Sa'], Sb as [Sb Sb'].
    apply over_sign; auto; intros E; rewrite E in *; symmetry in H2.
    + specialize (Sa eq_refl). apply negb_true_iff in H2. specialize (Sb' H2). lra.
    + specialize (Sa' eq_refl). apply negb_false_iff in H2. specialize (Sb H2). lra.
Qed.

Lemma mult_val a b : is_finite a = true -> is_finite b = true ->
  is_nan (Bmult mode_NE a b) = false /\ val (Bmult mode_NE a b) = clamp (rnd (val a * val b)).
Proof.
  intros Fa Fb. pose proof (Bmult_correct 53 1024 _ _ mode_NE a b) as H.
  pose proof (sign_val a Fa) as Sa. pose proof (sign_val b Fb) as Sb.
  rewrite (val_fin a Fa) in Sa |- *. rewrite (val_fin b Fb) in Sb |- *.
  revert H. case Rlt_bool_spec; intros L H.
  - destruct H as (H1 & H2 & _). rewrite Fa, Fb in H2. simpl in H2. split.
    + destruct (Bmult mode_NE a b); try discriminate; auto.
    + rewrite val_fin by auto. rewrite H1. symmetry. apply clamp_id.
      apply Rabs_def2 in L. lra.
  - apply overflow_val in H as (H1 & H3). split; auto. rewrite H3.
    symmetry. destruct Sa as [Sa Sa'], Sb as [Sb Sb'].
    apply over_sign; auto; destruct (Bsign a), (Bsign b); simpl; intros E; try discriminate;
      try specialize (Sa eq_refl); try specialize (Sb eq_refl);
      try specialize (Sa' eq_refl); try specialize (Sb' eq_refl); nra.
Qed.

(** Addition and subtraction of an infinite second operand. *)
Lemma plus_inf (a : binary_float 53 1024) s : is_finite a = true ->
  Bplus mode_NE a (B754_infinity s) = B754_infinity s.
Proof. destruct a; try discriminate; reflexivity. Qed.

Lemma minus_inf (a : binary_float 53 1024) s : is_finite a = true ->
  Bminus mode_NE a (B754_infinity s) = B754_infinity (negb s).
Proof. destruct a; try discriminate; reflexivity. Qed.

Lemma not_finite a : is_nan a = false -> is_finite a = false -> exists s, a = @B754_infinity 53 1024 s.
Proof. destruct a; try discriminate; eauto. Qed.

Lemma clamp_bound r : - top <= clamp r <= top.
Proof.
  pose proof top_pos. unfold clamp. split; [apply Rmax_l|]. apply Rmax_lub; [lra|]. apply Rmin_r.
Qed.

Lemma clamp_inside r : - top < r < top -> - top < clamp r < top.
Proof. intros H. rewrite clamp_id; lra. Qed.

(** Sum with any second operand that is not NaN. *)
Lemma plus_any a b : is_finite a = true -> is_nan b = false ->
  is_nan (Bplus mode_NE a b) = false /\
  (is_finite b = false -> val (Bplus mode_NE a b) = val b) /\
  (is_finite b = true -> val (Bplus mode_NE a b) = clamp (rnd (val a + val b))).
Proof.
  intros Fa Nb. destruct (is_finite b) eqn:Fb.
  - destruct (plus_val a b Fa Fb). split; auto. split; [discriminate|auto].
  - destruct (not_finite b Nb Fb) as (s & ->). rewrite plus_inf by auto.
    split; [reflexivity|]. split; [reflexivity|discriminate].
Qed.

Lemma minus_any a b : is_finite a = true -> is_nan b = false ->
  is_nan (Bminus mode_NE a b) = false /\
  (is_finite b = false -> val (Bminus mode_NE a b) = - val b) /\
  (is_finite b = true -> val (Bminus mode_NE a b) = clamp (rnd (val a - val b))).
Proof.
  intros Fa Nb. destruct (is_finite b) eqn:Fb.
  - destruct (minus_plus a b Fa Fb). split; auto. split; [discriminate|auto].
  - destruct (not_finite b Nb Fb) as (s & ->). rewrite minus_inf by auto.
    split; [reflexivity|]. split; [|discriminate]. intros _. destruct s; unfold val, negb; lra.
Qed.

Lemma inf_val b : is_nan b = false -> is_finite b = false -> val b = top \/ val b = - top.
Proof. intros Nb Fb. destruct (not_finite b Nb Fb) as ([] & ->); auto. Qed.

Lemma val_finite b : is_nan b = false -> - top < val b < top -> is_finite b = true.
Proof.
  intros Nb H. destruct (is_finite b) eqn:Fb; auto.
  destruct (inf_val b Nb Fb) as [E|E]; rewrite E in H; lra.
Qed.

Lemma opp_val a : val (Bopp a) = - val a.
Proof.
  destruct a as [s|s| |s m e Hm].
  - simpl. lra.
  - destruct s; unfold val, Bopp, negb; lra.
  - simpl. lra.
  - rewrite !val_fin by reflexivity. apply B2R_Bopp.
Qed.

Lemma fin_nan (a : binary_float 53 1024) : is_finite a = true -> is_nan a = false.
Proof. destruct a; try discriminate; auto. Qed.

Lemma double_laws : laws double finite moderate.
Proof.
  pose proof top_pos as T.
  assert (V0 : val (B754_zero false) = 0) by reflexivity.
  assert (V0' : val (zero double) = 0) by reflexivity.
  assert (LF : forall lo hi a : num double, finite lo -> finite hi -> within lo hi a -> finite a).
  { intros lo hi a Fl Fh [H1 H2]. apply le_val in H1 as (N1 & N2 & H1).
    apply le_val in H2 as (_ & N3 & H2). apply val_finite; auto.
    pose proof (val_fin_bound _ Fl). pose proof (val_fin_bound _ Fh). lra. }
  constructor.
  - intros a [H _]. exact H.
  - intros a H. apply fin_nan. exact H.
  - reflexivity.
  - intros [| | |] b H; try discriminate. reflexivity.
  - intros [| | |] b H; try discriminate. reflexivity.
  - intros a b H. unfold numeric. simpl in *. split.
    + destruct a; try reflexivity. destruct b as [| | |]; discriminate.
    + destruct b; try reflexivity. destruct a as [|[]| |[]]; discriminate.
  - intros a b H. simpl in *.
    assert (N : is_nan a = false /\ is_nan b = false).
    { split; [destruct a; try reflexivity; destruct b as [| | |]; discriminate|].
      destruct b; try reflexivity. destruct a as [|[]| |[]]; discriminate. }
    destruct N as [Na Nb]. apply ltb_val in H; auto.
    destruct (Bltb b a) eqn:E; auto. apply ltb_val in E; auto. lra.
  - intros a b c H1 H2. apply le_val in H1 as (N1 & N2 & H1). apply le_val in H2 as (_ & N3 & H2).
    apply le_val. split; auto. split; auto. lra.
  - exact LF.
  - intros lo hi a [Fl Bl] [Fh Bh] Hw. assert (Fa := LF lo hi a Fl Fh Hw). split; auto.
    destruct Hw as [H1 H2]. apply le_val in H1 as (_ & _ & H1). apply le_val in H2 as (_ & _ & H2).
    rewrite !val_fin in * by auto. apply Rabs_le.
    apply Rabs_le_inv in Bl. apply Rabs_le_inv in Bh. lra.
  - split; [reflexivity|]. change (B2R (zero double)) with 0. rewrite Rabs_R0. apply bpow_ge_0.
  - reflexivity.
  - apply le_val. split; [reflexivity|]. split; [reflexivity|]. change (0 <= val (maxnum double)).
    apply sign_val; reflexivity.
  - intros a H. unfold numeric in *. simpl in *. rewrite is_nan_Bopp. auto.
  - intros a H. unfold finite in *. simpl. rewrite is_finite_Bopp. auto.
  - intros a [H1 H2]. split; simpl.
    + rewrite is_finite_Bopp. auto.
    + rewrite B2R_Bopp, Rabs_Ropp. auto.
  - intros a b H. apply le_val in H as (N1 & N2 & H). apply le_val. simpl.
    rewrite !is_nan_Bopp, !opp_val. split; auto. split; auto. lra.
  - split; apply le_val; simpl; split; auto; split; auto; lra.
  - intros a. simpl. apply Bopp_involutive. 
  - intros a b c Fa H. apply le_val in H as (N1 & N2 & H). apply le_val.
    destruct (plus_any a b Fa N1) as (M1 & I1 & G1). destruct (plus_any a c Fa N2) as (M2 & I2 & G2).
    split; [exact M1|]. split; [exact M2|]. simpl.
    destruct (is_finite b) eqn:Fb, (is_finite c) eqn:Fc.
    + rewrite G1, G2 by auto. apply clamp_mono, rnd_mono. lra.
    + rewrite I2, G1 by auto. destruct (inf_val c N2 Fc) as [E|E]; rewrite E in *.
      * apply clamp_bound.
      * pose proof (val_fin_bound b Fb). lra.
    + rewrite I1, G2 by auto. destruct (inf_val b N1 Fb) as [E|E]; rewrite E in *.
      * pose proof (val_fin_bound c Fc). lra.
      * apply clamp_bound.
    + rewrite I1, I2 by auto. auto.
  - intros a Fa. destruct (plus_val a (B754_zero false) Fa eq_refl) as (M & G).
    rewrite V0, Rplus_0_r, rnd_val in G by auto.
    rewrite clamp_id in G by (apply val_bound).
    split; apply le_val; simpl; rewrite G; split; auto using fin_nan; split; auto using fin_nan; lra.
  - intros a b c Fa H. apply le_val in H as (N1 & N2 & H). apply le_val.
    destruct (minus_any a b Fa N1) as (M1 & I1 & G1). destruct (minus_any a c Fa N2) as (M2 & I2 & G2).
    split; [exact M2|]. split; [exact M1|]. simpl.
    destruct (is_finite b) eqn:Fb, (is_finite c) eqn:Fc.
    + rewrite G1, G2 by auto. apply clamp_mono, rnd_mono. lra.
    + rewrite I2, G1 by auto. destruct (inf_val c N2 Fc) as [E|E]; rewrite E in *.
      * apply clamp_bound.
      * pose proof (val_fin_bound b Fb). lra.
    + rewrite I1, G2 by auto. destruct (inf_val b N1 Fb) as [E|E]; rewrite E in *.
      * pose proof (val_fin_bound c Fc). lra.
      * rewrite Ropp_involutive. apply clamp_bound.
    + rewrite I1, I2 by auto. lra.
  - intros a b c Fa Fb Fc H. apply le_val in H as (N1 & N2 & H). apply le_val.
    destruct (minus_plus a c Fa Fc) as (M1 & G1). destruct (minus_plus b c Fb Fc) as (M2 & G2).
    split; [exact M1|]. split; [exact M2|]. simpl. rewrite G1, G2. apply clamp_mono, rnd_mono. lra.
  - intros a Fa. destruct (minus_plus a (B754_zero false) Fa eq_refl) as (M & G).
    rewrite V0, Rminus_0_r, rnd_val in G by auto.
    rewrite clamp_id in G by (apply val_bound).
    split; apply le_val; simpl; rewrite G; split; auto using fin_nan; split; auto using fin_nan; lra.
  - intros a Fa. destruct (minus_plus a a Fa Fa) as (M & G).
    replace (val a - val a) with 0 in G by lra. rewrite rnd_zero, clamp_id in G by lra.
    split; apply le_val; simpl; rewrite G; split; auto; split; auto; lra.
  - intros a b [Fa Ba] [Fb Bb]. destruct (minus_plus a b Fa Fb) as (M & G).
    apply val_finite; auto. simpl. rewrite G.
    assert (B : - bpow radix2 1023 <= rnd (val a - val b) <= bpow radix2 1023).
    { assert (Ht : bpow radix2 1023 = 2 * bpow radix2 1022).
      { change 1023%Z with (1 + 1022)%Z. rewrite bpow_plus. reflexivity. }
      apply Rabs_le_inv in Ba. apply Rabs_le_inv in Bb. rewrite !val_fin by auto. split.
      - apply round_ge_generic; try exact _; [|lra].
        apply generic_format_opp. apply generic_format_bpow. vm_compute. discriminate.
      - apply round_le_generic; try exact _; [|lra].
        apply generic_format_bpow. vm_compute. discriminate. }
    assert (bpow radix2 1023 < top) by (apply bpow_lt; reflexivity).
    apply clamp_inside. lra.
  - intros a b Fa Fb. destruct (minus_plus a b Fa Fb) as (M & G).
    assert (Fo : is_finite (Bopp b) = true) by (rewrite is_finite_Bopp; auto).
    destruct (plus_val a (Bopp b) Fa Fo) as (M' & G'). rewrite opp_val in G'.
    split; apply le_val; simpl; rewrite G, G'; split; auto; split; auto;
      unfold Rminus; lra.
  - intros a b d Fa Fb Fd Hd H. apply le_val in H as (N1 & N2 & H). apply le_val in Hd as (_ & _ & Hd).
    change (0 <= val d) in Hd. apply le_val.
    destruct (mult_val a d Fa Fd) as (M1 & G1). destruct (mult_val b d Fb Fd) as (M2 & G2).
    split; [exact M1|]. split; [exact M2|]. simpl. rewrite G1, G2. apply clamp_mono, rnd_mono.
    apply Rmult_le_compat_r; auto.
  - intros k a b Fk Fa Fb Hk H. apply le_val in H as (N1 & N2 & H). apply le_val in Hk as (_ & _ & Hk).
    change (val k <= 0) in Hk. apply le_val.
    destruct (mult_val k b Fk Fb) as (M1 & G1). destruct (mult_val k a Fk Fa) as (M2 & G2).
    split; [exact M1|]. split; [exact M2|]. simpl. rewrite G1, G2. apply clamp_mono, rnd_mono. nra.
  - intros d Fd. destruct (mult_val (B754_zero false) d eq_refl Fd) as (M & G).
    rewrite V0, Rmult_0_l, rnd_zero, clamp_id in G by lra.
    split; apply le_val; [split; [exact M|]; split; [reflexivity|] | split; [reflexivity|]; split; [exact M|]].
    + rewrite V0'. apply Req_le. exact G.
    + rewrite V0'. apply Req_le. symmetry. exact G.
  - intros d Fd. destruct (mult_val d (B754_zero false) Fd eq_refl) as (M & G).
    rewrite V0, Rmult_0_r, rnd_zero, clamp_id in G by lra.
    split; apply le_val; [split; [exact M|]; split; [reflexivity|] | split; [reflexivity|]; split; [exact M|]].
    + rewrite V0'. apply Req_le. exact G.
    + rewrite V0'. apply Req_le. symmetry. exact G.
  - intros a b Fa Fb.
    assert (Fo : is_finite (Bopp a) = true) by (rewrite is_finite_Bopp; auto).
    destruct (mult_val a b Fa Fb) as (M1 & G1). destruct (mult_val (Bopp a) b Fo Fb) as (M2 & G2).
    rewrite opp_val in G2. 
    assert (E : clamp (rnd (- val a * val b)) = - clamp (rnd (val a * val b))).
    { replace (- val a * val b) with (- (val a * val b)) by ring.
      change (round_mode mode_NE) with ZnearestE. rewrite round_NE_opp.
      unfold clamp, Rmax, Rmin. repeat destruct Rle_dec; lra. }
    split; apply le_val; simpl; rewrite is_nan_Bopp, opp_val, G1, G2, E; split; auto; split; auto; lra.
Qed.
