(** Whole transmission maps with doubles: the chains of operations of TransRound.v put together (RowSpec.v). *)
From Coq Require Import Reals Psatz.
From Flocq Require Import Core BinarySingleNaN.
From Verif Require Import TransModel TransSpec TransProofs TransHandle TransExact TransDouble TransRound RowSpec.
Open Scope R_scope.

(** After [n] operations. *)
Definition lvl (n : Z) (x : f64) (X M : R) : Prop := near x X M (5 / 2 * IZR n) (200 + 66 * n) (-1075 + 68 * n).

Lemma lvl_up n n' x X M : lvl n x X M -> (n <= n')%Z -> lvl n' x X M.
Proof. intros H L. eapply near_weaken; [exact H|apply IZR_le in L; lra|lia|lia]. Qed.
Lemma lvl_start x : ordinary_value x -> lvl 0 x (B2R x) (Rabs (B2R x)).
Proof. intros [F H]. pose proof (near_exact x 200 F H) as N. eapply near_weaken; [exact N|simpl; lra|lia|lia]. Qed.
Lemma lvl_eq n x X M X' M' : lvl n x X M -> X = X' -> M = M' -> lvl n x X' M'.
Proof. now intros H <- <-. Qed.

Ltac lvls n := pose proof (IZR_le 0 n ltac:(lia)); pose proof (IZR_le n 9 ltac:(lia)).

Lemma lvl_mult n x X M r : lvl n x X M -> ordinary_reduction r -> (0 <= n <= 9)%Z -> lvl (n + 1) (Bmult mode_NE x r) (X * B2R r) (M * Rabs (B2R r)).
Proof. intros H R N. lvls n. destruct (near_mult _ _ _ _ _ _ r H R) as [K _]; [lra|lia|lia|]. eapply near_weaken; [exact K|rewrite plus_IZR; lra|lia|lia]. Qed.
Lemma lvl_multl n x X M r : lvl n x X M -> ordinary_reduction r -> (0 <= n <= 9)%Z -> lvl (n + 1) (Bmult mode_NE r x) (X * B2R r) (M * Rabs (B2R r)).
Proof. intros H R N. lvls n. destruct (near_mult _ _ _ _ _ _ r H R) as [_ K]; [lra|lia|lia|]. eapply near_weaken; [exact K|rewrite plus_IZR; lra|lia|lia]. Qed.
Lemma lvl_div n x X M r : lvl n x X M -> ordinary_reduction r -> (0 <= n <= 9)%Z -> lvl (n + 1) (Bdiv mode_NE x r) (X / B2R r) (M / Rabs (B2R r)).
Proof. intros H R N. lvls n. pose proof (near_div_red _ _ _ _ _ _ r H R) as K. eapply near_weaken; [apply K; [lra|lia|lia]|rewrite plus_IZR; lra|lia|lia]. Qed.
Lemma lvl_div_two n x X M r : lvl n x X M -> ordinary_reduction r -> (0 <= n <= 9)%Z -> lvl (n + 1) (Bdiv mode_NE x (Bmult mode_NE two64 r)) (X / (2 * B2R r)) (M / (2 * Rabs (B2R r))).
Proof. intros H R N. lvls n. pose proof (near_div_two _ _ _ _ _ _ r H R) as K. eapply near_weaken; [apply K; [lra|lia|lia]|rewrite plus_IZR; lra|lia|lia]. Qed.
Lemma lvl_div_prod n x X M r s : lvl n x X M -> ordinary_reduction r -> ordinary_reduction s -> (0 <= n <= 8)%Z ->
  lvl (n + 2) (Bdiv mode_NE x (Bmult mode_NE r s)) (X / (B2R r * B2R s)) (M / (Rabs (B2R r) * Rabs (B2R s))).
Proof. intros H R S N. lvls n. pose proof (near_div_prod _ _ _ _ _ _ r s H R S) as K. eapply near_weaken; [apply K; [lra|lia|lia]|rewrite plus_IZR; lra|lia|lia]. Qed.
Lemma lvl_add n n' x y X Y M N : lvl n x X M -> lvl n' y Y N -> (0 <= n <= 9)%Z -> (0 <= n' <= 9)%Z ->
  lvl (Z.max n n' + 1) (Bplus mode_NE x y) (X + Y) (M + N).
Proof.
  intros H H' L L'. set (k := Z.max n n'). assert (0 <= k <= 9)%Z by lia. lvls k.
  destruct (near_add _ _ _ _ _ _ _ _ _ (lvl_up n k _ _ _ H ltac:(lia)) (lvl_up n' k _ _ _ H' ltac:(lia))) as [K _]; [lra|lia|].
  eapply near_weaken; [exact K|rewrite plus_IZR; lra|lia|lia].
Qed.
Lemma lvl_sub n n' x y X Y M N : lvl n x X M -> lvl n' y Y N -> (0 <= n <= 9)%Z -> (0 <= n' <= 9)%Z ->
  lvl (Z.max n n' + 1) (Bminus mode_NE x y) (X - Y) (M + N).
Proof.
  intros H H' L L'. set (k := Z.max n n'). assert (0 <= k <= 9)%Z by lia. lvls k.
  destruct (near_add _ _ _ _ _ _ _ _ _ (lvl_up n k _ _ _ H ltac:(lia)) (lvl_up n' k _ _ _ H' ltac:(lia))) as [_ K]; [lra|lia|].
  eapply near_weaken; [exact K|rewrite plus_IZR; lra|lia|lia].
Qed.

(** Each element after [n] operations. *)
Fixpoint lvls_of (n : Z) (xs : list f64) (Xs Ms : list R) : Prop :=
  match xs, Xs, Ms with
  | [], [], [] => True
  | x :: xs', X :: Xs', M :: Ms' => lvl n x X M /\ lvls_of n xs' Xs' Ms'
  | _, _, _ => False
  end.

Ltac build := first
  [ eassumption
  | eapply lvl_div_two; [build| |] | eapply lvl_div_prod; [build| | |] | eapply lvl_div; [build| |]
  | eapply lvl_add; [build|build| |] | eapply lvl_sub; [build|build| |]
  | eapply lvl_mult; [build| |] | eapply lvl_multl; [build| |]
  | apply lvl_start; eassumption ].
Ltac finish := first
  [ eassumption | lia
  | cbn; unfold value, weight; cbn [fst snd dot sum map]; rewrite ?Rabs_Ropp, ?Rabs_mult, ?Rabs_Rinv, ?Rabs_mult, ?Rabs_R0, ?Rabs_R1, ?(Rabs_pos_eq 2) by (repeat apply Rmult_integral_contrapositive_currified; auto; lra); try field; repeat split; auto using Rabs_no_R0 ].

Lemma divides x y : zero64 y = false -> divide doubled x y = Ok (Bdiv mode_NE x y).
Proof. intros H. unfold divide. change (is_zero doubled y) with (zero64 y). now rewrite H. Qed.
Lemma ordinary_zero r : ordinary_reduction r -> zero64 r = false.
Proof. intros H. destruct r; try reflexivity. exfalso. now apply (reduction_nonzero _ H). Qed.
Lemma ordinary_twice r : ordinary_reduction r -> zero64 (Bmult mode_NE two64 r) = false.
Proof.
  intros H. destruct (Bmult mode_NE two64 r) eqn:E; try reflexivity. exfalso. pose proof (proj2 (twice_reduction r H)) as K. rewrite E in K. simpl in K.
  pose proof (reduction_nonzero _ H). lra.
Qed.
Lemma ordinary_prod r s : ordinary_reduction r -> ordinary_reduction s -> zero64 (Bmult mode_NE r s) = false.
Proof. intros H H'. now destruct (product_reduction r s H H') as (_ & _ & _ & K). Qed.

(** Nothing is divided by zero, and the results are the exact values up to a few roundings. *)
Lemma joint_lvls t q n xs Xs Ms : params_ok doubled t -> ordinary t -> lvls_of n xs Xs Ms -> List.length xs = num_actuators doubled t -> (0 <= n <= 5)%Z ->
  exists ys, pure_a2j doubled t q xs = Ok ys /\ lvls_of (n + 5) ys (values (joint_rows t q) Xs) (weights (joint_rows t q) Ms).
Proof.
  intros HP HO HX HL HN.
  destruct t as [r o | ar jr off ign | ar jr off]; cbn in HL;
    [destruct HO as [Or Oo] | destruct HP as (a0 & a1 & j0 & j1 & o0 & o1 & -> & -> & -> & _), HO as [OR OO] ..];
    [destruct xs as [|x [|]]; try discriminate HL; destruct Xs as [|X [|]], Ms as [|M [|]]; try (exfalso; cbn in HX; tauto); destruct HX as [HX _]; pose proof (reduction_nonzero _ Or) as Nr
    | destruct xs as [|x [|y [|]]]; try discriminate HL; destruct Xs as [|X [|Y [|]]], Ms as [|M [|N [|]]]; try (exfalso; cbn in HX; tauto); destruct HX as (HX & HY & _);
      cbn in OR; inversion OR as [|? ? A0 OR1]; inversion OR1 as [|? ? A1 OR2]; inversion OR2 as [|? ? J0 OR3]; inversion OR3 as [|? ? J1 _]; inversion OO as [|? ? O0 OO1]; inversion OO1 as [|? ? O1 _]; subst;
      pose proof (reduction_nonzero _ A0); pose proof (reduction_nonzero _ A1); pose proof (reduction_nonzero _ J0); pose proof (reduction_nonzero _ J1); idtac ..];
    destruct q; try destruct ign; unfold pure_a2j;
    repeat (rewrite divides by (first [now apply ordinary_zero | now apply ordinary_twice | now apply ordinary_prod]); cbn [bind]);
    eexists; (split; [reflexivity|]); cbn [values weights joint_rows map lvls_of]; repeat match goal with |- _ /\ _ => split end; try exact I;
    (eapply lvl_up; [eapply lvl_eq; [build; finish|finish|finish]|lia]).
Qed.

Lemma actuator_lvls t q n xs Xs Ms : params_ok doubled t -> ordinary t -> both_ways q -> lvls_of n xs Xs Ms -> List.length xs = num_joints doubled t -> (0 <= n <= 5)%Z ->
  exists ys, pure_j2a doubled t q xs = Ok ys /\ lvls_of (n + 5) ys (values (actuator_rows t q) Xs) (weights (actuator_rows t q) Ms).
Proof.
  intros HP HO HB HX HL HN.
  destruct t as [r o | ar jr off ign | ar jr off]; cbn in HL;
    [destruct HO as [Or Oo] | destruct HP as (a0 & a1 & j0 & j1 & o0 & o1 & -> & -> & -> & _), HO as [OR OO] ..];
    [destruct xs as [|x [|]]; try discriminate HL; destruct Xs as [|X [|]], Ms as [|M [|]]; try (exfalso; cbn in HX; tauto); destruct HX as [HX _]; pose proof (reduction_nonzero _ Or) as Nr
    | destruct xs as [|x [|y [|]]]; try discriminate HL; destruct Xs as [|X [|Y [|]]], Ms as [|M [|N [|]]]; try (exfalso; cbn in HX; tauto); destruct HX as (HX & HY & _);
      cbn in OR; inversion OR as [|? ? A0 OR1]; inversion OR1 as [|? ? A1 OR2]; inversion OR2 as [|? ? J0 OR3]; inversion OR3 as [|? ? J1 _]; inversion OO as [|? ? O0 OO1]; inversion OO1 as [|? ? O1 _]; subst;
      pose proof (reduction_nonzero _ A0); pose proof (reduction_nonzero _ A1); pose proof (reduction_nonzero _ J0); pose proof (reduction_nonzero _ J1); idtac ..];
    destruct q; try (exfalso; destruct HB as [HB | [HB | HB]]; discriminate HB); unfold pure_j2a;
    repeat (rewrite divides by (first [now apply ordinary_zero | now apply ordinary_twice | now apply ordinary_prod]); cbn [bind]);
    eexists; (split; [reflexivity|]); cbn [values weights actuator_rows map lvls_of]; repeat match goal with |- _ /\ _ => split end; try exact I;
    (eapply lvl_up; [eapply lvl_eq; [build; finish|finish|finish]|lia]).
Qed.

(** In exact arithmetic the two directions are inverse to each other. *)
Lemma rows_inverse t q Xs : params_ok doubled t -> ordinary t -> both_ways q -> List.length Xs = num_actuators doubled t ->
  values (actuator_rows t q) (values (joint_rows t q) Xs) = Xs.
Proof.
  intros HP HO HB HL.
  destruct t as [r o | ar jr off ign | ar jr off]; cbn in HL;
    [destruct HO as [Or Oo] | destruct HP as (a0 & a1 & j0 & j1 & o0 & o1 & -> & -> & -> & _), HO as [OR OO] ..];
    [destruct Xs as [|X [|]]; try discriminate HL; pose proof (reduction_nonzero _ Or) as Nr
    | destruct Xs as [|X [|Y [|]]]; try discriminate HL;
      cbn in OR; inversion OR as [|? ? A0 OR1]; inversion OR1 as [|? ? A1 OR2]; inversion OR2 as [|? ? J0 OR3]; inversion OR3 as [|? ? J1 _]; subst;
      pose proof (reduction_nonzero _ A0); pose proof (reduction_nonzero _ A1); pose proof (reduction_nonzero _ J0); pose proof (reduction_nonzero _ J1); idtac ..];
    destruct q; try (exfalso; destruct HB as [HB | [HB | HB]]; discriminate HB); cbn; unfold value; cbn [fst snd dot sum]; repeat f_equal; field; auto.
Qed.
Lemma rows_inverse' t q Ys : params_ok doubled t -> ordinary t -> both_ways q -> List.length Ys = num_joints doubled t ->
  values (joint_rows t q) (values (actuator_rows t q) Ys) = Ys.
Proof.
  intros HP HO HB HL.
  destruct t as [r o | ar jr off ign | ar jr off]; cbn in HL;
    [destruct HO as [Or Oo] | destruct HP as (a0 & a1 & j0 & j1 & o0 & o1 & -> & -> & -> & _), HO as [OR OO] ..];
    [destruct Ys as [|X [|]]; try discriminate HL; pose proof (reduction_nonzero _ Or) as Nr
    | destruct Ys as [|X [|Y [|]]]; try discriminate HL;
      cbn in OR; inversion OR as [|? ? A0 OR1]; inversion OR1 as [|? ? A1 OR2]; inversion OR2 as [|? ? J0 OR3]; inversion OR3 as [|? ? J1 _]; subst;
      pose proof (reduction_nonzero _ A0); pose proof (reduction_nonzero _ A1); pose proof (reduction_nonzero _ J0); pose proof (reduction_nonzero _ J1); idtac ..];
    destruct q; try (exfalso; destruct HB as [HB | [HB | HB]]; discriminate HB); cbn; unfold value; cbn [fst snd dot sum]; repeat f_equal; field; auto.
Qed.

Lemma lvls_start xs : Forall ordinary_value xs -> lvls_of 0 xs (map B2R xs) (map Rabs (map B2R xs)).
Proof. induction 1; cbn; auto using lvl_start. Qed.
Lemma lvls_length n xs Xs Ms : lvls_of n xs Xs Ms -> List.length Xs = List.length xs.
Proof. revert Xs Ms. induction xs as [|x xs IH]; intros [|X Xs] [|M Ms]; cbn; try tauto. intros [_ H]. f_equal. eauto. Qed.

Lemma lvls_within n e f xs Xs Ms : lvls_of n xs Xs Ms -> 5 / 2 * IZR n * u <= e -> (-1075 + 68 * n <= f)%Z -> all_within e (pw f) xs Xs Ms.
Proof.
  intros H He Hf. revert Xs Ms H. induction xs as [|x xs IH]; intros [|X Xs] [|M Ms]; cbn; try tauto. intros [(Fx & HX & HM & HV) H]. split; [|auto].
  split; [exact Fx|]. eapply Rle_trans; [exact HV|]. pose proof (pw_le _ _ Hf). pose proof (Rabs_pos X).
  apply Rplus_le_compat; [apply Rmult_le_compat_r; lra|lra].
Qed.

Lemma joint_accuracy t q act jnt la lj n (m : mem doubled) Xs Ms :
  params_ok doubled t -> ordinary t -> linked doubled t q act jnt la lj -> NoDup lj -> disjoint la lj -> abs_ok doubled t q act ->
  lvls_of n (map m la) Xs Ms -> (0 <= n <= 5)%Z ->
  exists m', to_joint doubled q t act jnt m = Ok m' /\ unchanged_outside doubled lj m m' /\
    lvls_of (n + 5) (map m' lj) (values (joint_rows t q) Xs) (weights (joint_rows t q) Ms).
Proof.
  intros HP HO HL ND DJ HX HM HN. rewrite (a2j_eval doubled t q act jnt la lj m HP HL ND DJ HX). destruct HL as (_ & _ & La & Lj).
  destruct (joint_lvls t q n (map m la) Xs Ms HP HO HM) as (ys & E & H); [now rewrite map_length|exact HN|]. rewrite E. cbn [bind].
  exists (write doubled m lj ys). split; [reflexivity|]. split; [intros c Hc; now apply write_out|].
  rewrite write_in; auto. rewrite Lj. symmetry. exact (pure_a2j_len doubled _ _ _ _ E).
Qed.
Lemma actuator_accuracy t q act jnt la lj n (m : mem doubled) Xs Ms :
  params_ok doubled t -> ordinary t -> both_ways q -> linked doubled t q act jnt la lj -> NoDup la -> disjoint lj la ->
  lvls_of n (map m lj) Xs Ms -> (0 <= n <= 5)%Z ->
  exists m', to_actuator doubled q t jnt act m = Ok m' /\ unchanged_outside doubled la m m' /\
    lvls_of (n + 5) (map m' la) (values (actuator_rows t q) Xs) (weights (actuator_rows t q) Ms).
Proof.
  intros HP HO HB HL ND DJ HM HN. rewrite (j2a_eval doubled t q act jnt la lj m HP HB HL ND DJ). destruct HL as (_ & _ & La & Lj).
  destruct (actuator_lvls t q n (map m lj) Xs Ms HP HO HB HM) as (ys & E & H); [now rewrite map_length|exact HN|]. rewrite E. cbn [bind].
  exists (write doubled m la ys). split; [reflexivity|]. split; [intros c Hc; now apply write_out|].
  rewrite write_in; auto. rewrite La. symmetry. exact (pure_j2a_len doubled _ _ _ _ E).
Qed.

Lemma five_ops : 5 / 2 * IZR (0 + 5) * u <= pw (-49).
Proof. change (-49)%Z with (-53 + 4)%Z. rewrite (bpow_plus _ (-53) 4). simpl (pw 4). simpl (0 + 5)%Z. pose proof u_tiny. lra. Qed.
Lemma ten_ops : 5 / 2 * IZR (0 + 5 + 5) * u <= pw (-48).
Proof. change (-48)%Z with (-53 + 5)%Z. rewrite (bpow_plus _ (-53) 5). simpl (pw 5). simpl (0 + 5 + 5)%Z. pose proof u_tiny. lra. Qed.
