(** Rounding errors of the transmission maps with doubles: each operation, and chains of them (TransModel.v, TransDouble.v). *)
From Coq Require Import Reals Psatz.
From Flocq Require Import Core BinarySingleNaN Relative Plus_error.
From Verif Require Import LimDouble TransModel TransSpec TransProofs TransHandle TransDouble.
Open Scope R_scope.
#[local] Instance vexp64 : Valid_exp (SpecFloat.fexp 53 1024) := fexp_correct 53 1024 _.
#[local] Instance vrnd64 : Valid_rnd (round_mode mode_NE) := valid_rnd_round_mode mode_NE.
Notation pw := (bpow radix2).
Notation u := (bpow radix2 (-53)).
Notation f64 := (binary_float 53 1024).

Lemma pw_pos e : 0 < pw e. Proof. apply bpow_gt_0. Qed.
Lemma pw_le a b : (a <= b)%Z -> pw a <= pw b. Proof. apply bpow_le. Qed.
Lemma pw_S a : pw (a + 1) = 2 * pw a.
Proof. rewrite bpow_plus. simpl (pw 1). lra. Qed.
Lemma pw_2 : pw 2 = 4. Proof. simpl. lra. Qed.
Lemma u_tiny : 0 < u <= / 1024.
Proof. split; [apply pw_pos|]. apply Rle_trans with (pw (-10)); [apply pw_le; lia|]. simpl. lra. Qed.

(** ** One operation *)

Lemma round_err r : exists e h, Rabs e <= u /\ Rabs h <= pw (-1075) /\ rnd r = r * (1 + e) + h.
Proof.
  change (SpecFloat.fexp 53 1024) with (FLT_exp (-1074) 53).
  destruct (error_N_FLT radix2 (-1074) 53 eq_refl (fun x => negb (Z.even x)) r) as (e & h & He & Hh & _ & E).
  exists e, h. split; [|split; [|exact E]].
  - replace u with (/ 2 * pw (-53 + 1)); [exact He|]. rewrite bpow_plus. simpl (pw 1). lra.
  - replace (pw (-1075)) with (/ 2 * pw (-1074)); [exact Hh|]. change (-1074)%Z with (-1075 + 1)%Z. rewrite pw_S. lra.
Qed.

Lemma round_fits r : Rabs r <= pw 1010 -> Rabs (rnd r) < top.
Proof.
  intros H. destruct (round_err r) as (e & h & He & Hh & ->). pose proof u_tiny as U.
  apply Rle_lt_trans with (2 * pw 1010 + 1).
  - eapply Rle_trans; [apply Rabs_triang|]. rewrite Rabs_mult. apply Rplus_le_compat.
    + assert (Rabs (1 + e) <= 2). { apply Rabs_le. apply Rabs_le_inv in He. lra. }
      pose proof (Rabs_pos r). pose proof (Rabs_pos (1 + e)). generalize dependent (pw 1010). intros. nra.
    + eapply Rle_trans; [exact Hh|]. change 1 with (pw 0). apply pw_le. lia.
  - apply Rlt_le_trans with (4 * pw 1010).
    + assert (1 < pw 1010) by (change 1 with (pw 0); apply bpow_lt; lia). lra.
    + replace (4 * pw 1010) with (pw (1010 + 2)) by (rewrite bpow_plus; simpl (pw 2); lra). apply pw_le. lia.
Qed.

Lemma mult_err (a b : f64) : is_finite a = true -> is_finite b = true -> Rabs (B2R a * B2R b) <= pw 1010 ->
  exists e h, Rabs e <= u /\ Rabs h <= pw (-1075) /\ is_finite (Bmult mode_NE a b) = true /\
            B2R (Bmult mode_NE a b) = B2R a * B2R b * (1 + e) + h.
Proof.
  intros Fa Fb R. pose proof (Bmult_correct 53 1024 _ _ mode_NE a b) as H. cbv zeta in H.
  rewrite Rlt_bool_true in H by now apply round_fits. destruct H as (E & F & _). destruct (round_err (B2R a * B2R b)) as (e & h & He & Hh & Er).
  exists e, h. rewrite F, Fa, Fb, E. auto.
Qed.

Lemma div_err (a b : f64) : is_finite a = true -> B2R b <> 0 -> Rabs (B2R a / B2R b) <= pw 1010 ->
  exists e h, Rabs e <= u /\ Rabs h <= pw (-1075) /\ is_finite (Bdiv mode_NE a b) = true /\
            B2R (Bdiv mode_NE a b) = B2R a / B2R b * (1 + e) + h.
Proof.
  intros Fa Nb R. pose proof (Bdiv_correct 53 1024 _ _ mode_NE a b Nb) as H. cbv zeta in H.
  rewrite Rlt_bool_true in H by now apply round_fits. destruct H as (E & F & _). destruct (round_err (B2R a / B2R b)) as (e & h & He & Hh & Er).
  exists e, h. rewrite F, Fa, E. auto.
Qed.

Lemma plus_round (x y : R) : generic_format radix2 (SpecFloat.fexp 53 1024) x -> generic_format radix2 (SpecFloat.fexp 53 1024) y ->
  exists e, Rabs e <= u /\ rnd (x + y) = (x + y) * (1 + e).
Proof.
  change (SpecFloat.fexp 53 1024) with (FLT_exp (-1074) 53). intros Fx Fy.
  destruct (FLT_plus_error_N_ex radix2 (-1074) 53 (fun x => negb (Z.even x)) x y Fx Fy) as (e & He & E). exists e. split; [|exact E].
  assert (Eu : u_ro radix2 53 = u). { unfold u_ro. rewrite pw_S. change (- (53))%Z with (-53)%Z. lra. }
  rewrite Eu in He. eapply Rle_trans; [exact He|]. pose proof u_tiny as [U _].
  apply (Rmult_le_reg_r (1 + u)); [lra|]. unfold Rdiv. rewrite Rmult_assoc, Rinv_l by lra. nra.
Qed.

Lemma plus_err (a b : f64) : is_finite a = true -> is_finite b = true -> Rabs (B2R a + B2R b) <= pw 1010 ->
  exists e, Rabs e <= u /\ is_finite (Bplus mode_NE a b) = true /\ B2R (Bplus mode_NE a b) = (B2R a + B2R b) * (1 + e).
Proof.
  intros Fa Fb R. pose proof (Bplus_correct 53 1024 _ _ mode_NE a b Fa Fb) as H. cbv zeta in H.
  rewrite Rlt_bool_true in H by now apply round_fits. destruct H as (E & F & _).
  destruct (plus_round (B2R a) (B2R b)) as (e & He & Er); try apply generic_format_B2R. exists e. rewrite E. auto.
Qed.

Lemma minus_err (a b : f64) : is_finite a = true -> is_finite b = true -> Rabs (B2R a - B2R b) <= pw 1010 ->
  exists e, Rabs e <= u /\ is_finite (Bminus mode_NE a b) = true /\ B2R (Bminus mode_NE a b) = (B2R a - B2R b) * (1 + e).
Proof.
  intros Fa Fb R. pose proof (Bminus_correct 53 1024 _ _ mode_NE a b Fa Fb) as H. cbv zeta in H.
  rewrite Rlt_bool_true in H by now apply round_fits. destruct H as (E & F & _).
  destruct (plus_round (B2R a) (- B2R b)) as (e & He & Er); [apply generic_format_B2R|apply generic_format_opp, generic_format_B2R|].
  exists e. rewrite E. auto.
Qed.

(** ** Chains of operations *)

(** [x] computes [X]; [M] is the sum of the magnitudes of the terms of [X]. *)
Definition near (x : f64) (X M k : R) (E F : Z) : Prop :=
  is_finite x = true /\ Rabs X <= M /\ M <= pw E /\ Rabs (B2R x - X) <= k * u * M + pw F.
(** A reduction: a double of moderate magnitude. *)
Definition moderate_reduction (r : f64) : Prop := is_finite r = true /\ pw (-64) <= Rabs (B2R r) <= pw 64.

Lemma near_exact x E : is_finite x = true -> Rabs (B2R x) <= pw E -> near x (B2R x) (Rabs (B2R x)) 0 E (-1075).
Proof. intros Fx H. split; [exact Fx|]. split; [lra|]. split; [exact H|]. rewrite Rminus_eq_0, Rabs_R0. pose proof (pw_pos (-1075)). lra. Qed.

Lemma near_weaken x X M k E F k' E' F' : near x X M k E F -> k <= k' -> (E <= E')%Z -> (F <= F')%Z -> near x X M k' E' F'.
Proof.
  intros (A & B & C & D) Hk HE HF. split; [exact A|]. split; [exact B|]. split; [eapply Rle_trans; [exact C|]; now apply pw_le|].
  eapply Rle_trans; [exact D|]. apply Rplus_le_compat; [|now apply pw_le].
  pose proof u_tiny. pose proof (Rabs_pos X). apply Rmult_le_compat_r; [lra|]. apply Rmult_le_compat_r; lra.
Qed.

Lemma near_eq x X M k E F X' M' : near x X M k E F -> X = X' -> M = M' -> near x X' M' k E F.
Proof. now intros H <- <-. Qed.

(** The value of a double that computes something is at most about as large. *)
Lemma near_size x X M k E F : near x X M k E F -> 0 <= k <= 64 -> (F <= E)%Z -> Rabs (B2R x) <= pw (E + 2).
Proof.
  intros (_ & HX & HM & HE) Hk HF. replace (B2R x) with (X + (B2R x - X)) by ring. eapply Rle_trans; [apply Rabs_triang|].
  pose proof u_tiny. pose proof (pw_le F E HF). rewrite bpow_plus. simpl (pw 2). pose proof (Rabs_pos X).
  assert (HM0 : 0 <= M) by lra. assert (Hku : k * u <= 1) by nra. pose proof (Rmult_le_compat_r M _ _ HM0 Hku). lra.
Qed.

(** One more rounding: [v] is the value of a double that computes [X], [c] the factor it is multiplied with. *)
Lemma scale_err v X M k F c e h E : Rabs X <= M -> Rabs (v - X) <= k * u * M + pw F -> 0 <= k <= 64 -> 
  Rabs e <= 9 / 4 * u -> Rabs h <= pw (-1075) -> Rabs c <= pw E -> (0 <= E)%Z -> (-1075 <= F)%Z ->
  Rabs (v * c * (1 + e) + h - X * c) <= (k + 5 / 2) * u * (M * Rabs c) + pw (F + E + 2).
Proof.
  intros HX HV Hk He Hh Hc HE HF. pose proof u_tiny as U.
  replace (v * c * (1 + e) + h - X * c) with (c * ((v - X) * (1 + e) + X * e) + h) by ring.
  eapply Rle_trans; [apply Rabs_triang|]. rewrite Rabs_mult.
  assert (K : Rabs ((v - X) * (1 + e) + X * e) <= (k + 5 / 2) * u * M + 2 * pw F).
  { eapply Rle_trans; [apply Rabs_triang|]. rewrite !Rabs_mult.
    assert (E1 : Rabs (1 + e) <= 1 + 9 / 4 * u). { apply Rabs_le. apply Rabs_le_inv in He. lra. }
    pose proof (Rabs_pos (v - X)). pose proof (Rabs_pos X). pose proof (Rabs_pos e). pose proof (pw_pos F).
    apply Rle_trans with ((k * u * M + pw F) * (1 + 9 / 4 * u) + M * (9 / 4 * u)).
    - apply Rplus_le_compat; [apply Rmult_le_compat; auto using Rabs_pos|apply Rmult_le_compat; auto].
    - assert (0 <= M) by lra. assert (k * u <= 64 / 1024) by nra. 
      replace ((k * u * M + pw F) * (1 + 9 / 4 * u) + M * (9 / 4 * u)) with (k * u * M + (9 / 4 * (k * u) + 9 / 4) * (u * M) + pw F * (1 + 9 / 4 * u)) by ring.
      assert (0 <= u * M) by nra. nra. }
  assert (K2 : Rabs c * Rabs ((v - X) * (1 + e) + X * e) <= (k + 5 / 2) * u * (M * Rabs c) + 2 * (pw F * pw E)).
  { pose proof (Rabs_pos c). pose proof (pw_pos F). apply Rle_trans with (Rabs c * ((k + 5 / 2) * u * M + 2 * pw F)); [apply Rmult_le_compat_l; auto|]. nra. }
  assert (K3 : Rabs h <= pw F * pw E). { eapply Rle_trans; [exact Hh|]. rewrite <- bpow_plus. apply pw_le. lia. }
  replace (pw (F + E + 2)) with (4 * (pw F * pw E)) by (rewrite (bpow_plus _ (F + E)), (bpow_plus _ F E), pw_2; ring).
  assert (0 < pw F * pw E) by (apply Rmult_lt_0_compat; apply pw_pos). lra.
Qed.

Lemma size_le a b E1 E2 E : Rabs a <= pw E1 -> Rabs b <= pw E2 -> (E1 + E2 <= E)%Z -> Rabs (a * b) <= pw E.
Proof.
  intros H1 H2 H. rewrite Rabs_mult. apply Rle_trans with (pw E1 * pw E2); [apply Rmult_le_compat; auto using Rabs_pos|].
  rewrite <- bpow_plus. now apply pw_le.
Qed.

(** Multiplying by a reduction, on either side. *)
Lemma near_mult x X M k E F r : near x X M k E F -> moderate_reduction r -> 0 <= k <= 64 -> (F <= E <= 900)%Z -> (-1075 <= F)%Z ->
  near (Bmult mode_NE x r) (X * B2R r) (M * Rabs (B2R r)) (k + 5 / 2) (E + 64) (F + 66) /\
  near (Bmult mode_NE r x) (X * B2R r) (M * Rabs (B2R r)) (k + 5 / 2) (E + 64) (F + 66).
Proof.
  intros Hn [Fr Hr] Hk HE HF. pose proof (near_size _ _ _ _ _ _ Hn Hk (proj1 HE)) as S. destruct Hn as (Fx & HX & HM & HV). pose proof u_tiny as U.
  assert (Hm : M * Rabs (B2R r) <= pw (E + 64)).
  { rewrite bpow_plus. apply Rmult_le_compat; try apply Rabs_pos; try lra. pose proof (Rabs_pos X). lra. }
  assert (HXr : Rabs (X * B2R r) <= M * Rabs (B2R r)) by (rewrite Rabs_mult; apply Rmult_le_compat_r; [apply Rabs_pos|exact HX]).
  assert (Sz : Rabs (B2R x * B2R r) <= pw 1010) by (eapply size_le; [exact S|exact (proj2 Hr)|lia]).
  split.
  - destruct (mult_err x r Fx Fr Sz) as (e & h & He & Hh & Ff & Ev). repeat split; auto. rewrite Ev.
    replace (F + 66)%Z with (F + 64 + 2)%Z by lia. apply scale_err; auto; try lia; lra.
  - rewrite Rmult_comm in Sz. destruct (mult_err r x Fr Fx Sz) as (e & h & He & Hh & Ff & Ev). repeat split; auto. rewrite Ev, (Rmult_comm (B2R r)).
    replace (F + 66)%Z with (F + 64 + 2)%Z by lia. apply scale_err; auto; try lia; lra.
Qed.

(** Dividing by a double [d] that computes a factor [D] to within one rounding. *)
Lemma near_div x X M k E F d D c ed : near x X M k E F -> B2R d = D * (1 + ed) -> Rabs ed <= u -> D <> 0 -> Rabs (/ D) <= pw c -> (0 <= c <= 200)%Z ->
  0 <= k <= 64 -> (F <= E <= 800)%Z -> (-1075 <= F)%Z ->
  near (Bdiv mode_NE x d) (X / D) (M / Rabs D) (k + 5 / 2) (E + c) (F + c + 2).
Proof.
  intros Hn Ed He HD Hc Hc0 Hk HE HF. pose proof (near_size _ _ _ _ _ _ Hn Hk (proj1 HE)) as S. destruct Hn as (Fx & HX & HM & HV). pose proof u_tiny as U.
  apply Rabs_le_inv in He. assert (N1 : 1 + ed <> 0) by lra. assert (Nd : B2R d <> 0) by (rewrite Ed; apply Rmult_integral_contrapositive; auto).
  assert (I : Rabs (/ (1 + ed)) <= 2). { rewrite Rabs_pos_eq; [|apply Rlt_le, Rinv_0_lt_compat; lra]. replace 2 with (/ (1 / 2)) by field. apply Rinv_le; lra. }
  assert (Sz : Rabs (B2R x / B2R d) <= pw 1010).
  { rewrite Ed. unfold Rdiv. rewrite Rinv_mult_distr by auto. rewrite <- Rmult_assoc.
    apply (size_le _ _ (E + 2 + c) 1); [eapply size_le; [exact S|exact Hc|lia]|simpl; lra|lia]. }
  destruct (div_err x d Fx Nd Sz) as (e & h & He' & Hh & Ff & Ev). unfold Rdiv in *.
  assert (Ra : Rabs (/ D) = / Rabs D) by now apply Rabs_Rinv.
  split; [exact Ff|]. split; [rewrite Rabs_mult, Ra; apply Rmult_le_compat_r; [rewrite <- Ra; apply Rabs_pos|exact HX]|].
  split; [rewrite bpow_plus; apply Rmult_le_compat; try lra; [pose proof (Rabs_pos X); lra|rewrite <- Ra; apply Rabs_pos]|].
  rewrite Ev, Ed, <- Ra. rewrite Rinv_mult_distr by auto.
  replace (B2R x * (/ D * / (1 + ed)) * (1 + e) + h) with (B2R x * / D * (1 + (e - ed) * / (1 + ed)) + h) by (field; auto).
  apply scale_err; auto; try lia. rewrite Rabs_mult. apply Rabs_le_inv in He'.
  assert (Rabs (e - ed) <= 2 * u) by (apply Rabs_le; lra).
  assert (I' : Rabs (/ (1 + ed)) <= 9 / 8). { rewrite Rabs_pos_eq; [|apply Rlt_le, Rinv_0_lt_compat; lra]. replace (9 / 8) with (/ (8 / 9)) by field. apply Rinv_le; lra. }
  pose proof (Rabs_pos (e - ed)). pose proof (Rabs_pos (/ (1 + ed))). nra.
Qed.

Lemma reduction_nonzero r : moderate_reduction r -> B2R r <> 0.
Proof. intros [_ [H _]] E. rewrite E, Rabs_R0 in H. pose proof (pw_pos (-64)). lra. Qed.
Lemma reduction_inv r : moderate_reduction r -> Rabs (/ B2R r) <= pw 64.
Proof.
  intros H. rewrite Rabs_Rinv by now apply reduction_nonzero. destruct H as [_ [H _]]. change (pw 64) with (pw (- (-64))). rewrite bpow_opp.
  apply Rinv_le; [apply pw_pos|exact H].
Qed.

Lemma near_div_red x X M k E F r : near x X M k E F -> moderate_reduction r -> 0 <= k <= 64 -> (F <= E <= 800)%Z -> (-1075 <= F)%Z ->
  near (Bdiv mode_NE x r) (X / B2R r) (M / Rabs (B2R r)) (k + 5 / 2) (E + 64) (F + 66).
Proof.
  intros Hn Hr Hk HE HF. replace (F + 66)%Z with (F + 64 + 2)%Z by lia. apply (near_div x X M k E F r (B2R r) 64 0); auto; try lia.
  - lra.
  - rewrite Rabs_R0. pose proof u_tiny. lra.
  - now apply reduction_nonzero.
  - now apply reduction_inv.
Qed.

(** [2 * r] is exact. *)
Lemma twice_reduction r : moderate_reduction r -> is_finite (Bmult mode_NE two64 r) = true /\ B2R (Bmult mode_NE two64 r) = 2 * B2R r.
Proof.
  intros [Fr Hr]. pose proof (Bmult_correct 53 1024 _ _ mode_NE two64 r) as H. cbv zeta in H.
  rewrite two64_val, (round_generic _ _ _ (2 * B2R r)) in H by apply twice_format, generic_format_B2R.
  rewrite Rlt_bool_true in H; [destruct H as (E & F & _); rewrite E, F; auto|].
  apply Rle_lt_trans with (pw (1 + 64)); [|apply bpow_lt; lia]. apply (size_le _ _ 1 64); [|exact (proj2 Hr)|lia]. simpl. rewrite Rabs_pos_eq; lra.
Qed.
Lemma near_div_two x X M k E F r : near x X M k E F -> moderate_reduction r -> 0 <= k <= 64 -> (F <= E <= 800)%Z -> (-1075 <= F)%Z ->
  near (Bdiv mode_NE x (Bmult mode_NE two64 r)) (X / (2 * B2R r)) (M / (2 * Rabs (B2R r))) (k + 5 / 2) (E + 64) (F + 66).
Proof.
  intros Hn Hr Hk HE HF. pose proof (reduction_nonzero r Hr) as N. replace (2 * Rabs (B2R r)) with (Rabs (2 * B2R r)) by (rewrite Rabs_mult, Rabs_pos_eq by lra; reflexivity).
  replace (F + 66)%Z with (F + 64 + 2)%Z by lia. apply (near_div x X M k E F _ (2 * B2R r) 64 0); auto; try lia.
  - rewrite (proj2 (twice_reduction r Hr)). ring.
  - rewrite Rabs_R0. pose proof u_tiny. lra.
  - rewrite Rinv_mult_distr by (auto; lra). rewrite Rabs_mult. pose proof (reduction_inv r Hr). rewrite (Rabs_pos_eq (/ 2)) by lra. pose proof (Rabs_pos (/ B2R r)). lra.
Qed.

(** The product of two reductions loses one rounding only. *)
Lemma product_reduction r s : moderate_reduction r -> moderate_reduction s ->
  exists e, Rabs e <= u /\ B2R (Bmult mode_NE r s) = B2R r * B2R s * (1 + e) /\ zero64 (Bmult mode_NE r s) = false.
Proof.
  intros Hr Hs. assert (In : tiny <= Rabs (B2R r * B2R s) <= big).
  { rewrite Rabs_mult. split.
    - apply Rle_trans with (pw (-64) * pw (-64)); [rewrite <- bpow_plus; apply pw_le; lia|]. apply Rmult_le_compat; try apply Rlt_le, pw_pos; [apply (proj2 Hr)|apply (proj2 Hs)].
    - apply Rle_trans with (pw 64 * pw 64); [|rewrite <- bpow_plus; apply pw_le; lia]. apply Rmult_le_compat; try apply Rabs_pos; [apply (proj2 Hr)|apply (proj2 Hs)]. }
  destruct (mult_near r s (proj1 Hr) (proj1 Hs) In) as (e & He & Ff & E). exists e. split; [exact He|]. split; [exact E|].
  destruct (Bmult mode_NE r s) as [z| | |]; try reflexivity. exfalso. simpl in E. pose proof u_tiny. apply Rabs_le_inv in He.
  pose proof (reduction_nonzero r Hr). pose proof (reduction_nonzero s Hs). symmetry in E. apply Rmult_integral in E as [E|E]; [|lra]. apply Rmult_integral in E. tauto.
Qed.
Lemma near_div_prod x X M k E F r s : near x X M k E F -> moderate_reduction r -> moderate_reduction s -> 0 <= k <= 64 -> (F <= E <= 800)%Z -> (-1075 <= F)%Z ->
  near (Bdiv mode_NE x (Bmult mode_NE r s)) (X / (B2R r * B2R s)) (M / (Rabs (B2R r) * Rabs (B2R s))) (k + 5 / 2) (E + 128) (F + 130).
Proof.
  intros Hn Hr Hs Hk HE HF. rewrite <- Rabs_mult. destruct (product_reduction r s Hr Hs) as (e & He & Ee & _).
  pose proof (reduction_nonzero r Hr). pose proof (reduction_nonzero s Hs).
  replace (F + 130)%Z with (F + 128 + 2)%Z by lia. apply (near_div x X M k E F _ (B2R r * B2R s) 128 e); auto; try lia.
  rewrite Rinv_mult_distr by auto. apply (size_le _ _ 64 64); [now apply reduction_inv..|lia].
Qed.

(** Adding and subtracting. *)
Lemma sum_err v w X Y M N k F G e : Rabs X <= M -> Rabs Y <= N -> Rabs (v - X) <= k * u * M + pw F -> Rabs (w - Y) <= k * u * N + pw F -> 0 <= k <= 64 ->
  Rabs e <= u -> G = (F + 2)%Z -> Rabs ((v + w) * (1 + e) - (X + Y)) <= (k + 5 / 2) * u * (M + N) + pw G.
Proof.
  intros HX HY HV HW Hk He ->. pose proof u_tiny as U.
  replace ((v + w) * (1 + e) - (X + Y)) with (((v - X) + (w - Y)) * (1 + e) + (X + Y) * e) by ring.
  eapply Rle_trans; [apply Rabs_triang|]. rewrite !Rabs_mult. rewrite bpow_plus. simpl (pw 2).
  assert (H1 : Rabs (v - X + (w - Y)) <= k * u * (M + N) + 2 * pw F) by (eapply Rle_trans; [apply Rabs_triang|]; lra).
  assert (H2 : Rabs (X + Y) <= M + N) by (eapply Rle_trans; [apply Rabs_triang|]; lra).
  assert (E1 : Rabs (1 + e) <= 1 + u). { apply Rabs_le. apply Rabs_le_inv in He. lra. }
  pose proof (Rabs_pos X). pose proof (Rabs_pos Y). pose proof (pw_pos F).
  apply Rle_trans with ((k * u * (M + N) + 2 * pw F) * (1 + u) + (M + N) * u).
  - apply Rplus_le_compat; apply Rmult_le_compat; auto using Rabs_pos.
  - assert (0 <= M + N) by lra. assert (k * u <= 64 / 1024) by nra. assert (0 <= u * (M + N)) by nra.
    replace ((k * u * (M + N) + 2 * pw F) * (1 + u) + (M + N) * u) with (k * u * (M + N) + (k * u + 1) * (u * (M + N)) + 2 * pw F * (1 + u)) by ring. nra.
Qed.
Lemma near_add x y X Y M N k E F : near x X M k E F -> near y Y N k E F -> 0 <= k <= 64 -> (F <= E <= 900)%Z ->
  near (Bplus mode_NE x y) (X + Y) (M + N) (k + 5 / 2) (E + 1) (F + 2) /\ near (Bminus mode_NE x y) (X - Y) (M + N) (k + 5 / 2) (E + 1) (F + 2).
Proof.
  intros Hx Hy Hk HE. pose proof (near_size _ _ _ _ _ _ Hx Hk (proj1 HE)) as Sx. pose proof (near_size _ _ _ _ _ _ Hy Hk (proj1 HE)) as Sy.
  destruct Hx as (Fx & HX & HM & HV), Hy as (Fy & HY & HN & HW).
  assert (S : forall b, Rabs b <= pw (E + 2) -> Rabs (B2R x + b) <= pw 1010).
  { intros b Hb. eapply Rle_trans; [apply Rabs_triang|]. apply Rle_trans with (pw (E + 2 + 1)); [rewrite pw_S; lra|apply pw_le; lia]. }
  assert (HMN : M + N <= pw (E + 1)) by (rewrite pw_S; lra).
  assert (HXY : Rabs (X + Y) <= M + N) by (eapply Rle_trans; [apply Rabs_triang|]; lra).
  assert (HXY' : Rabs (X - Y) <= M + N) by (unfold Rminus; eapply Rle_trans; [apply Rabs_triang|]; rewrite Rabs_Ropp; lra).
  split.
  - destruct (plus_err x y Fx Fy) as (e & He & Ff & Ev); [now apply S|]. repeat split; auto. rewrite Ev. eapply sum_err; eauto.
  - destruct (minus_err x y Fx Fy) as (e & He & Ff & Ev); [apply S; now rewrite Rabs_Ropp|]. repeat split; auto. rewrite Ev.
    apply (sum_err (B2R x) (- B2R y) X (- Y) M N k F _ e); auto; [now rewrite Rabs_Ropp|]. replace (- B2R y - - Y) with (- (B2R y - Y)) by ring. now rewrite Rabs_Ropp.
Qed.
