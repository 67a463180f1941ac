(** Transmissions computed with IEEE 754 doubles (TransModel.v, TransSpec.v). *)
From Coq Require Import Reals Psatz.
From Flocq Require Import Core BinarySingleNaN Relative.
From Verif Require Import LimDouble TransModel TransSpec TransProofs TransHandle.

(** [2.0] (differential_transmission.h:266, 282-283 and so on). *)
Definition two64 : binary_float 53 1024 :=
  B754_finite false 4503599627370496 (-51) (eq_refl : SpecFloat.bounded 53 1024 4503599627370496 (-51) = true).
(** [0.0 == x] (simple_transmission.h:191, differential_transmission.h:248-253,
    four_bar_linkage_transmission.h:233-238): both zeros are equal to [0.0], NaN is not. *)
Definition zero64 (x : binary_float 53 1024) : bool := match x with B754_zero _ => true | _ => false end.
(** The dictionary (TransModel.v) of simple_transmission.h, differential_transmission.h and
    four_bar_linkage_transmission.h for the C++ [double]. *)
Definition doubled : darith := mkDarith double (Bdiv mode_NE) zero64 two64.

#[local] Instance vexp64 : Valid_exp (SpecFloat.fexp 53 1024) := fexp_correct 53 1024 _.
#[local] Instance vrnd64 : Valid_rnd (round_mode mode_NE) := valid_rnd_round_mode mode_NE.
Open Scope R_scope.

Lemma two64_val : B2R two64 = 2.
Proof. unfold two64, B2R, F2R; simpl. lra. Qed.

Lemma zero_val x : is_finite x = true -> zero64 x = false -> B2R x <> 0.
Proof.
  destruct x as [s|s| |s m e B]; simpl; try discriminate. intros _ _ K.
  apply eq_0_F2R in K. destruct s; discriminate K.
Qed.

Lemma twice_format x : generic_format radix2 (SpecFloat.fexp 53 1024) x -> generic_format radix2 (SpecFloat.fexp 53 1024) (2 * x).
Proof.
  intros H. change (SpecFloat.fexp 53 1024) with (FLT_exp (-1074) 53) in *.
  apply generic_format_FLT. apply FLT_format_generic in H; [|reflexivity].
  destruct H as [f E HM HE]. exists (Float radix2 (Fnum f) (Fexp f + 1)).
  - rewrite E. unfold F2R; simpl. rewrite bpow_plus. simpl. lra.
  - exact HM.
  - simpl. simpl in HE. lia.
Qed.

Lemma doubled_doubling : doubling doubled.
Proof.
  intros x HZ. change (zero64 (Bmult mode_NE two64 x) = false). change (zero64 x = false) in HZ.
  destruct (is_finite x) eqn:F.
  - pose proof (zero_val x F HZ) as NZ.
    pose proof (Bmult_correct 53 1024 _ _ mode_NE two64 x) as H. cbv zeta in H.
    rewrite two64_val in H. rewrite (round_generic _ _ _ (2 * B2R x)) in H by apply twice_format, generic_format_B2R.
    destruct (Rlt_bool _ _) eqn:RB.
    + destruct H as (H & _). destruct (Bmult mode_NE two64 x) as [s| | |]; auto. simpl in H. exfalso. lra.
    + destruct (Bmult mode_NE two64 x) as [s| | |]; auto. simpl in H. unfold binary_overflow in H.
      destruct (overflow_to_inf _ _) in H; discriminate H.
  - destruct x as [s|s| |s m e B]; try discriminate F; reflexivity.
Qed.

(** ** Rounding errors of a multiplication or division that neither over- nor underflows *)

Notation tiny := (bpow radix2 (-1022)).
Notation big := (bpow radix2 1023).

Lemma rel_round r : tiny <= Rabs r -> exists e, Rabs e <= bpow radix2 (-53) /\ rnd r = r * (1 + e).
Proof.
  intros H. change (SpecFloat.fexp 53 1024) with (FLT_exp (-1074) 53).
  destruct (relative_error_N_FLT_ex radix2 (-1074) 53 eq_refl (fun x => negb (Z.even x)) r) as (e & He & E).
  - exact H.
  - exists e. split; [|exact E].
    replace (bpow radix2 (-53)) with (/ 2 * bpow radix2 (-53 + 1)); [exact He|].
    rewrite bpow_plus. simpl (bpow radix2 1). lra.
Qed.

Lemma u_small : 0 < bpow radix2 (-53) <= 1 / 8.
Proof. split; [apply bpow_gt_0|]. apply Rle_trans with (bpow radix2 (-3)); [apply bpow_le; lia|]. simpl. lra. Qed.

Lemma top_twice : top = 2 * big.
Proof. change 1024%Z with (1023 + 1)%Z. rewrite bpow_plus. simpl (bpow radix2 1). lra. Qed.

Lemma round_in_range r : tiny <= Rabs r <= big -> Rabs (rnd r) < top.
Proof.
  intros [H1 H2]. destruct (rel_round r H1) as (e & He & ->). rewrite Rabs_mult.
  pose proof u_small as U. pose proof (bpow_gt_0 radix2 1023) as B. pose proof top_twice as T.
  assert (Rabs (1 + e) <= 9 / 8). { apply Rabs_le. apply Rabs_le_inv in He. lra. }
  pose proof (Rabs_pos r). pose proof (Rabs_pos (1 + e)). generalize dependent (bpow radix2 1023). intros. nra.
Qed.

Lemma mult_near a b : is_finite a = true -> is_finite b = true -> tiny <= Rabs (B2R a * B2R b) <= big ->
  exists e, Rabs e <= bpow radix2 (-53) /\ is_finite (Bmult mode_NE a b) = true /\
            B2R (Bmult mode_NE a b) = B2R a * B2R b * (1 + e).
Proof.
  intros Fa Fb R. pose proof (Bmult_correct 53 1024 _ _ mode_NE a b) as H. cbv zeta in H.
  rewrite Rlt_bool_true in H by now apply round_in_range.
  destruct H as (E & F & _). destruct (rel_round _ (proj1 R)) as (e & He & Er).
  exists e. rewrite F, Fa, Fb, E. auto.
Qed.

Lemma div_near a b : is_finite a = true -> B2R b <> 0 -> tiny <= Rabs (B2R a / B2R b) <= big ->
  exists e, Rabs e <= bpow radix2 (-53) /\ is_finite (Bdiv mode_NE a b) = true /\
            B2R (Bdiv mode_NE a b) = B2R a / B2R b * (1 + e).
Proof.
  intros Fa Nb R. pose proof (Bdiv_correct 53 1024 _ _ mode_NE a b Nb) as H. cbv zeta in H.
  rewrite Rlt_bool_true in H by now apply round_in_range.
  destruct H as (E & F & _). destruct (rel_round _ (proj1 R)) as (e & He & Er).
  exists e. rewrite F, Fa, E. auto.
Qed.

Lemma two_errors x e1 e2 : Rabs e1 <= bpow radix2 (-53) -> Rabs e2 <= bpow radix2 (-53) ->
  Rabs (x * (1 + e1) * (1 + e2) - x) <= 3 * bpow radix2 (-53) * Rabs x.
Proof.
  intros H1 H2. replace (x * (1 + e1) * (1 + e2) - x) with (x * (e1 + e2 + e1 * e2)) by ring.
  rewrite Rabs_mult, Rmult_comm. apply Rmult_le_compat_r; [apply Rabs_pos|].
  pose proof u_small. apply Rabs_le_inv in H1, H2. apply Rabs_le. generalize dependent (bpow radix2 (-53)). intros. nra.
Qed.

Lemma near_range x e : Rabs e <= bpow radix2 (-53) -> bpow radix2 (-1021) <= Rabs x <= bpow radix2 1022 ->
  tiny <= Rabs (x * (1 + e)) <= big.
Proof.
  intros He [H1 H2]. rewrite Rabs_mult. pose proof u_small as U. apply Rabs_le_inv in He.
  assert (7 / 8 <= Rabs (1 + e) <= 9 / 8). { rewrite Rabs_pos_eq by lra. lra. }
  assert (bpow radix2 (-1021) = 2 * tiny) by (change (-1021)%Z with (-1022 + 1)%Z; rewrite bpow_plus; simpl (bpow radix2 1); lra).
  assert (big = 2 * bpow radix2 1022) by (change 1023%Z with (1022 + 1)%Z; rewrite bpow_plus; simpl (bpow radix2 1); lra).
  pose proof (bpow_gt_0 radix2 (-1022)). pose proof (bpow_gt_0 radix2 1022).
  generalize dependent (bpow radix2 (-1021)). generalize dependent (bpow radix2 (-1022)).
  generalize dependent (bpow radix2 1023). generalize dependent (bpow radix2 1022). intros. nra.
Qed.

(** Divide and multiply back. *)
Lemma div_mult x r : is_finite x = true -> is_finite r = true -> B2R r <> 0 ->
  tiny <= Rabs (B2R x / B2R r) <= big -> bpow radix2 (-1021) <= Rabs (B2R x) <= bpow radix2 1022 ->
  is_finite (Bmult mode_NE (Bdiv mode_NE x r) r) = true /\
  Rabs (B2R (Bmult mode_NE (Bdiv mode_NE x r) r) - B2R x) <= 3 * bpow radix2 (-53) * Rabs (B2R x).
Proof.
  intros Fx Fr NZ H1 H2. destruct (div_near x r Fx NZ H1) as (e1 & He1 & F1 & E1).
  assert (EX : B2R (Bdiv mode_NE x r) * B2R r = B2R x * (1 + e1)) by (rewrite E1; field; exact NZ).
  destruct (mult_near (Bdiv mode_NE x r) r F1 Fr) as (e2 & He2 & F2 & E2).
  - rewrite EX. now apply near_range.
  - split; [exact F2|]. rewrite E2, EX. now apply two_errors.
Qed.

(** Multiply and divide back. *)
Lemma mult_div x r : is_finite x = true -> is_finite r = true -> B2R r <> 0 ->
  tiny <= Rabs (B2R x * B2R r) <= big -> bpow radix2 (-1021) <= Rabs (B2R x) <= bpow radix2 1022 ->
  is_finite (Bdiv mode_NE (Bmult mode_NE x r) r) = true /\
  Rabs (B2R (Bdiv mode_NE (Bmult mode_NE x r) r) - B2R x) <= 3 * bpow radix2 (-53) * Rabs (B2R x).
Proof.
  intros Fx Fr NZ H1 H2. destruct (mult_near x r Fx Fr H1) as (e1 & He1 & F1 & E1).
  assert (EX : B2R (Bmult mode_NE x r) / B2R r = B2R x * (1 + e1)) by (rewrite E1; field; exact NZ).
  destruct (div_near (Bmult mode_NE x r) r F1 NZ) as (e2 & He2 & F2 & E2).
  - rewrite EX. now apply near_range.
  - split; [exact F2|]. rewrite E2, EX. now apply two_errors.
Qed.

(** ** Round trips through a simple transmission *)

(** The value computed in the middle neither over- nor underflows. *)
Definition in_range (r : R) : Prop := tiny <= Rabs r <= big.

Lemma simple_wired (r o : num doubled) q act jnt a j : side q act = [Some a] -> side q jnt = [Some j] -> a <> j ->
  wired doubled (Simple doubled r o) q act jnt [a] [j].
Proof.
  intros E1 E2 N. repeat split; auto. constructor; [intros [K|[]]; congruence|]. repeat constructor; auto.
Qed.

Lemma one_disjoint a j : a <> j -> disjoint [a] [j].
Proof. intros N c [<-|[]] [K|[]]. congruence. Qed.

Lemma upd_eq (m : mem doubled) a (x : binary_float 53 1024) : upd doubled m a x a = x.
Proof. exact (upd_same doubled m a x). Qed.
Lemma upd_ne (m : mem doubled) a b (x : binary_float 53 1024) : b <> a -> upd doubled m a x b = m b.
Proof. exact (upd_other doubled m a b x). Qed.

Lemma simple_a2j (r o : num doubled) q act jnt a j (m : mem doubled) : zero64 r = false ->
  side q act = [Some a] -> side q jnt = [Some j] -> a <> j -> q = Velocity \/ q = Effort ->
  to_joint doubled q (Simple doubled r o) act jnt m =
  Ok (upd doubled m j (match q with Velocity => Bdiv mode_NE (m a) r | _ => Bmult mode_NE (m a) r end)).
Proof.
  intros NZ E1 E2 N HQ.
  rewrite (a2j_eval doubled (Simple doubled r o) q act jnt [a] [j] m).
  - destruct HQ as [-> | ->]; [|reflexivity]. cbn [map pure_a2j]. unfold divide.
    change (is_zero doubled r) with (zero64 r). rewrite NZ. reflexivity.
  - exact NZ.
  - repeat split; auto.
  - repeat constructor; auto.
  - now apply one_disjoint.
  - destruct HQ as [-> | ->]; exact I.
Qed.

Lemma simple_j2a (r o : num doubled) q act jnt a j (m : mem doubled) : zero64 r = false ->
  side q act = [Some a] -> side q jnt = [Some j] -> a <> j -> q = Velocity \/ q = Effort ->
  to_actuator doubled q (Simple doubled r o) jnt act m =
  Ok (upd doubled m a (match q with Velocity => Bmult mode_NE (m j) r | _ => Bdiv mode_NE (m j) r end)).
Proof.
  intros NZ E1 E2 N HQ.
  rewrite (j2a_eval doubled (Simple doubled r o) q act jnt [a] [j] m).
  - destruct HQ as [-> | ->]; [reflexivity|]. cbn [map pure_j2a]. unfold divide.
    change (is_zero doubled r) with (zero64 r). rewrite NZ. reflexivity.
  - exact NZ.
  - destruct HQ as [-> | ->]; unfold both_ways; auto.
  - repeat split; auto.
  - repeat constructor; auto.
  - now apply one_disjoint, not_eq_sym.
Qed.

Lemma simple_there r o q act jnt a j (m : mem doubled) t :
  make_simple doubled r o = Some t -> is_finite r = true ->
  side q act = [Some a] -> side q jnt = [Some j] -> a <> j ->
  is_finite (m a) = true -> bpow radix2 (-1021) <= Rabs (B2R (m a)) <= bpow radix2 1022 ->
  match q with
  | Velocity => in_range (B2R (m a) / B2R r)
  | Effort => in_range (B2R (m a) * B2R r)
  | _ => False
  end ->
  exists m1 m2, to_joint doubled q t act jnt m = Ok m1 /\ to_actuator doubled q t jnt act m1 = Ok m2 /\
    is_finite (m2 a) = true /\ Rabs (B2R (m2 a) - B2R (m a)) <= 3 * bpow radix2 (-53) * Rabs (B2R (m a)).
Proof.
  intros HM Fr E1 E2 N Fx Hx HR. unfold make_simple in HM. change (is_zero doubled r) with (zero64 r) in HM.
  destruct (zero64 r) eqn:NZ; [discriminate|]. injection HM as <-.
  pose proof (zero_val r Fr NZ) as RZ.
  destruct q; try contradiction; (eexists; eexists; split; [apply (simple_a2j r o _ act jnt a j m NZ E1 E2 N); auto|];
    split; [eapply (simple_j2a r o _ act jnt a j _ NZ E1 E2 N); auto|]; rewrite upd_eq, upd_eq).
  - apply div_mult; auto.
  - apply mult_div; auto.
Qed.

Lemma simple_back r o q act jnt a j (m : mem doubled) t :
  make_simple doubled r o = Some t -> is_finite r = true ->
  side q act = [Some a] -> side q jnt = [Some j] -> a <> j ->
  is_finite (m j) = true -> bpow radix2 (-1021) <= Rabs (B2R (m j)) <= bpow radix2 1022 ->
  match q with
  | Velocity => in_range (B2R (m j) * B2R r)
  | Effort => in_range (B2R (m j) / B2R r)
  | _ => False
  end ->
  exists m1 m2, to_actuator doubled q t jnt act m = Ok m1 /\ to_joint doubled q t act jnt m1 = Ok m2 /\
    is_finite (m2 j) = true /\ Rabs (B2R (m2 j) - B2R (m j)) <= 3 * bpow radix2 (-53) * Rabs (B2R (m j)).
Proof.
  intros HM Fr E1 E2 N Fx Hx HR. unfold make_simple in HM. change (is_zero doubled r) with (zero64 r) in HM.
  destruct (zero64 r) eqn:NZ; [discriminate|]. injection HM as <-.
  pose proof (zero_val r Fr NZ) as RZ.
  destruct q; try contradiction; (eexists; eexists; split; [apply (simple_j2a r o _ act jnt a j m NZ E1 E2 N); auto|];
    split; [eapply (simple_a2j r o _ act jnt a j _ NZ E1 E2 N); auto|]; rewrite upd_eq, upd_eq).
  - apply mult_div; auto.
  - apply div_mult; auto.
Qed.

Lemma simple_example :
  let u1 := B754_finite false 4503599627370496 (-52) (eq_refl : SpecFloat.bounded 53 1024 4503599627370496 (-52) = true) in
  let u3 := B754_finite false 6755399441055744 (-51) (eq_refl : SpecFloat.bounded 53 1024 6755399441055744 (-51) = true) in
  (exists t, make_simple doubled u3 (B754_zero false) = Some t) /\ is_finite u3 = true /\
  in_range (B2R u1 / B2R u3) /\ bpow radix2 (-1021) <= Rabs (B2R u1) <= bpow radix2 1022.
Proof.
  intros u1 u3. split; [eexists; reflexivity|]. split; [reflexivity|].
  assert (E1 : B2R u1 = 1) by (unfold u1, B2R, F2R, bpow; simpl Fnum; simpl Fexp; cbv [cond_Zopp]; simpl Z.pow_pos; lra).
  assert (E3 : B2R u3 = 3) by (unfold u3, B2R, F2R, bpow; simpl Fnum; simpl Fexp; cbv [cond_Zopp]; simpl Z.pow_pos; lra).
  rewrite E1, E3. unfold in_range. rewrite !Rabs_pos_eq by lra. repeat split.
  - apply Rle_trans with (bpow radix2 (-2)); [apply bpow_le; lia | simpl; lra].
  - apply Rle_trans with (bpow radix2 0); [simpl; lra | apply bpow_le; lia].
  - apply Rle_trans with (bpow radix2 0); [apply bpow_le; lia | simpl; lra].
  - apply Rle_trans with (bpow radix2 0); [simpl; lra | apply bpow_le; lia].
Qed.
