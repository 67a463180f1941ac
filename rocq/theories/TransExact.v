(** Transmissions in exact arithmetic: inverse maps, power, velocities as derivatives (TransSpec.v). *)
From Coq Require Import Arith Lia QArith Qfield Lqa.
From Verif Require Import TransModel TransSpec TransProofs TransHandle LimExact.

Lemma exact_doubling : doubling exactd.
Proof.
  intros [x|] H; [|reflexivity]. cbn in *. apply not_true_iff_false. rewrite <- not_true_iff_false in H.
  rewrite Qeq_bool_iff in *. intros K. apply H. lra.
Qed.

Lemma Qmult_nz a b : ~ a == 0 -> ~ b == 0 -> ~ a * b == 0.
Proof. intros Ha Hb K. apply Qmult_integral in K. tauto. Qed.

Lemma isz_some x : is_zero exactd (Some x) = false <-> ~ x == 0.
Proof. cbn. rewrite <- not_true_iff_false, Qeq_bool_iff. reflexivity. Qed.

Lemma exact_no_underflow t : params_ok exactd t -> no_underflow exactd t.
Proof.
  destruct t as [r o | ar jr off ign | ar jr off]; cbn [no_underflow]; auto.
  intros (a0 & a1 & j0 & j1 & o0 & o1 & -> & -> & -> & Z0 & _ & Z2 & _).
  destruct a0 as [a0|], j0 as [j0|]; cbn [no_underflow]; split; try reflexivity;
    apply isz_some in Z0, Z2; cbn; apply not_true_iff_false; rewrite Qeq_bool_iff; now apply Qmult_nz.
Qed.

Lemma divide_some x y : ~ y == 0 -> divide exactd (Some x) (Some y) = Ok (Some (x / y)).
Proof.
  intros H. unfold divide. rewrite (proj2 (isz_some y) H). cbn.
  destruct (Qeq_bool y 0) eqn:E; [|reflexivity]. apply Qeq_bool_iff in E. tauto.
Qed.

(** Lists of rationals as memory content. *)
Lemma rationals (m : mem exactd) l : Forall (fun a => rational (m a)) l -> exists xs, map m l = map Some xs.
Proof.
  induction l as [|a l IH]; intros H; [now exists []|]. inversion H; subst. destruct (IH H3) as (xs & E).
  cbn. unfold rational in H2. destruct (m a) as [x|] eqn:Ea; [|congruence].
  exists (x :: xs). cbn. f_equal. exact E.
Qed.

(** The parameters of a constructed transmission with rational parameters. *)
Definition nice (t : transmission exactd) : Prop :=
  match t with
  | Simple _ r o => exists r' o', r = Some r' /\ o = Some o' /\ ~ r' == 0
  | Differential _ ar jr off _ | FourBar _ ar jr off =>
      exists a0 a1 j0 j1 o0 o1, ar = [Some a0; Some a1] /\ jr = [Some j0; Some j1] /\ off = [Some o0; Some o1] /\
        ~ a0 == 0 /\ ~ a1 == 0 /\ ~ j0 == 0 /\ ~ j1 == 0
  end.

Lemma nice_intro t : params_ok exactd t -> Forall rational (parameters exactd t) -> nice t.
Proof.
  destruct t as [r o | ar jr off ign | ar jr off]; cbn [parameters]; intros HP HR.
  - cbn in HP. inversion HR; subst. inversion H2; subst. unfold rational in *.
    destruct r as [r|]; [|congruence]. destruct o as [o|]; [|congruence].
    exists r, o. repeat split. now apply isz_some.
  - destruct HP as (a0 & a1 & j0 & j1 & o0 & o1 & -> & -> & -> & Z0 & Z1 & Z2 & Z3). cbn [app] in HR.
    repeat match goal with H : Forall _ (_ :: _) |- _ => inversion H; subst; clear H end. unfold rational in *.
    destruct a0 as [a0|]; [|congruence]. destruct a1 as [a1|]; [|congruence].
    destruct j0 as [j0|]; [|congruence]. destruct j1 as [j1|]; [|congruence].
    destruct o0 as [o0|]; [|congruence]. destruct o1 as [o1|]; [|congruence].
    exists a0, a1, j0, j1, o0, o1. repeat split; now apply isz_some.
  - destruct HP as (a0 & a1 & j0 & j1 & o0 & o1 & -> & -> & -> & Z0 & Z1 & Z2 & Z3). cbn [app] in HR.
    repeat match goal with H : Forall _ (_ :: _) |- _ => inversion H; subst; clear H end. unfold rational in *.
    destruct a0 as [a0|]; [|congruence]. destruct a1 as [a1|]; [|congruence].
    destruct j0 as [j0|]; [|congruence]. destruct j1 as [j1|]; [|congruence].
    destruct o0 as [o0|]; [|congruence]. destruct o1 as [o1|]; [|congruence].
    exists a0, a1, j0, j1, o0, o1. repeat split; now apply isz_some.
Qed.

Lemma two_nz x : ~ x == 0 -> ~ 2 * x == 0.
Proof. intros H K. apply H. lra. Qed.
#[local] Hint Resolve two_nz Qmult_nz : nz.

Ltac lists := repeat match goal with
  | H : List.length ?l = 1%nat |- _ => destruct l as [|? [|? ?]]; try discriminate H; clear H
  | H : List.length ?l = 2%nat |- _ => destruct l as [|? [|? [|? ?]]]; try discriminate H; clear H
  end.

Ltac compute_divisions := repeat (
  match goal with |- context [divide exactd ?x ?y] =>
    let x' := eval cbn in x in let y' := eval cbn in y in
    change (divide exactd x y) with (divide exactd x' y');
    rewrite divide_some by auto with nz; cbn [bind] end).

Lemma pure_joint t q xs : nice t -> List.length xs = num_actuators exactd t ->
  exists ys, pure_a2j exactd t q (map Some xs) = Ok (map Some ys) /\ joint_formula t q xs ys.
Proof.
  destruct t as [r o | ar jr off ign | ar jr off]; cbn [num_actuators nice]; intros HN HL; lists.
  - destruct HN as (r' & o' & -> & -> & HZ). unfold pure_a2j. cbn [map].
    destruct q; compute_divisions; cbn;
      match goal with |- exists ys, Ok [Some ?v] = _ /\ _ => exists [v]; split; [reflexivity|]; try reflexivity; field; auto end.
  - destruct HN as (a0 & a1 & j0 & j1 & o0 & o1 & -> & -> & -> & Z0 & Z1 & Z2 & Z3). unfold pure_a2j. cbn [map].
    destruct q; try destruct ign; compute_divisions; cbn;
      match goal with |- exists ys, Ok [Some ?v; Some ?w] = _ /\ _ => exists [v; w]; split; [reflexivity|];
         try (split; reflexivity); split; field; auto end.
  - destruct HN as (a0 & a1 & j0 & j1 & o0 & o1 & -> & -> & -> & Z0 & Z1 & Z2 & Z3). unfold pure_a2j. cbn [map].
    destruct q; compute_divisions; cbn;
      match goal with |- exists ys, Ok [Some ?v; Some ?w] = _ /\ _ => exists [v; w]; split; [reflexivity|];
         try (split; reflexivity); split; field; auto end.
Qed.

Lemma pure_actuator t q ys : nice t -> both_ways q -> List.length ys = num_joints exactd t ->
  exists xs, pure_j2a exactd t q (map Some ys) = Ok (map Some xs) /\ actuator_formula t q ys xs.
Proof.
  destruct t as [r o | ar jr off ign | ar jr off]; cbn [num_joints nice]; intros HN HB HL; lists.
  - destruct HN as (r' & o' & -> & -> & HZ). unfold pure_j2a. cbn [map].
    destruct q; try (exfalso; destruct HB as [HB | [HB | HB]]; discriminate HB); compute_divisions; cbn;
      match goal with |- exists ys, Ok [Some ?v] = _ /\ _ => exists [v]; split; [reflexivity|]; try reflexivity; field; auto end.
  - destruct HN as (a0 & a1 & j0 & j1 & o0 & o1 & -> & -> & -> & Z0 & Z1 & Z2 & Z3). unfold pure_j2a. cbn [map].
    destruct q; try (exfalso; destruct HB as [HB | [HB | HB]]; discriminate HB); compute_divisions; cbn;
      match goal with |- exists ys, Ok [Some ?v; Some ?w] = _ /\ _ => exists [v; w]; split; [reflexivity|];
         try (split; reflexivity); split; field; auto end.
  - destruct HN as (a0 & a1 & j0 & j1 & o0 & o1 & -> & -> & -> & Z0 & Z1 & Z2 & Z3). unfold pure_j2a. cbn [map].
    destruct q; try (exfalso; destruct HB as [HB | [HB | HB]]; discriminate HB); compute_divisions; cbn;
      match goal with |- exists ys, Ok [Some ?v; Some ?w] = _ /\ _ => exists [v; w]; split; [reflexivity|];
         try (split; reflexivity); split; field; auto end.
Qed.

(** The formulas are inverse to each other. *)
Lemma formulas_inverse t q xs ys xs' : nice t -> both_ways q ->
  joint_formula t q xs ys -> actuator_formula t q ys xs' -> Forall2 Qeq xs' xs.
Proof.
  destruct t as [r o | ar jr off ign | ar jr off]; cbn [nice]; intros HN HB.
  - destruct HN as (r' & o' & -> & -> & HZ). unfold joint_formula, actuator_formula.
    destruct xs as [|x [|? ?]]; try tauto. destruct ys as [|y [|? ?]]; try tauto. destruct xs' as [|x' [|? ?]]; try (intros _ ?; contradiction).
    destruct q; try (exfalso; destruct HB as [HB | [HB | HB]]; discriminate HB); intros H1 H2;
      repeat constructor; rewrite H2, H1; field; auto.
  - destruct HN as (a0 & a1 & j0 & j1 & o0 & o1 & -> & -> & -> & Z0 & Z1 & Z2 & Z3). unfold joint_formula, actuator_formula.
    destruct xs as [|x1 [|x2 [|? ?]]]; try tauto. destruct ys as [|y1 [|y2 [|? ?]]]; try tauto.
    destruct xs' as [|x1' [|x2' [|? ?]]]; try (intros _ ?; contradiction).
    destruct q; try (exfalso; destruct HB as [HB | [HB | HB]]; discriminate HB); intros [H1 H1'] [H2 H2'];
      repeat constructor; rewrite ?H2, ?H2', H1, H1'; field; auto.
  - destruct HN as (a0 & a1 & j0 & j1 & o0 & o1 & -> & -> & -> & Z0 & Z1 & Z2 & Z3). unfold joint_formula, actuator_formula.
    destruct xs as [|x1 [|x2 [|? ?]]]; try tauto. destruct ys as [|y1 [|y2 [|? ?]]]; try tauto.
    destruct xs' as [|x1' [|x2' [|? ?]]]; try (intros _ ?; contradiction).
    destruct q; try (exfalso; destruct HB as [HB | [HB | HB]]; discriminate HB); intros [H1 H1'] [H2 H2'];
      repeat constructor; rewrite ?H2, ?H2', ?H1', ?H1; field; auto.
Qed.

Lemma formulas_inverse' t q xs ys ys' : nice t -> both_ways q ->
  actuator_formula t q ys xs -> joint_formula t q xs ys' -> Forall2 Qeq ys' ys.
Proof.
  destruct t as [r o | ar jr off ign | ar jr off]; cbn [nice]; intros HN HB.
  - destruct HN as (r' & o' & -> & -> & HZ). unfold joint_formula, actuator_formula.
    destruct xs as [|x [|? ?]]; try tauto. destruct ys as [|y [|? ?]]; try tauto. destruct ys' as [|y' [|? ?]]; try (intros _ ?; contradiction).
    destruct q; try (exfalso; destruct HB as [HB | [HB | HB]]; discriminate HB); intros H1 H2;
      repeat constructor; rewrite H2, H1; field; auto.
  - destruct HN as (a0 & a1 & j0 & j1 & o0 & o1 & -> & -> & -> & Z0 & Z1 & Z2 & Z3). unfold joint_formula, actuator_formula.
    destruct xs as [|x1 [|x2 [|? ?]]]; try tauto. destruct ys as [|y1 [|y2 [|? ?]]]; try tauto.
    destruct ys' as [|y1' [|y2' [|? ?]]]; try (intros _ ?; contradiction).
    destruct q; try (exfalso; destruct HB as [HB | [HB | HB]]; discriminate HB); intros [H1 H1'] [H2 H2'];
      repeat constructor; rewrite ?H2, ?H2', ?H1, ?H1'; field; auto.
  - destruct HN as (a0 & a1 & j0 & j1 & o0 & o1 & -> & -> & -> & Z0 & Z1 & Z2 & Z3). unfold joint_formula, actuator_formula.
    destruct xs as [|x1 [|x2 [|? ?]]]; try tauto. destruct ys as [|y1 [|y2 [|? ?]]]; try tauto.
    destruct ys' as [|y1' [|y2' [|? ?]]]; try (intros _ ?; contradiction).
    destruct q; try (exfalso; destruct HB as [HB | [HB | HB]]; discriminate HB); intros [H1 H1'] [H2 H2'];
      repeat constructor; rewrite ?H2, ?H2', ?H1', ?H1; field; auto.
Qed.

(** ** The maps on memories *)

Lemma wired_linked A (t : transmission A) q act jnt la lj : wired A t q act jnt la lj ->
  linked A t q act jnt la lj /\ NoDup la /\ NoDup lj /\ disjoint la lj /\ disjoint lj la.
Proof.
  intros (H1 & H2 & H3 & H4 & ND). repeat split; auto.
  - now apply nodup_app_l in ND.
  - now apply nodup_app_r in ND.
  - intros a Ha Hj. clear - ND Ha Hj. induction la as [|b la IH]; [destruct Ha|]. cbn in ND. inversion ND; subst.
    destruct Ha as [->|Ha]; [apply H1, in_or_app; now right | now apply IH].
  - intros a Hj Ha. clear - ND Ha Hj. induction la as [|b la IH]; [destruct Ha|]. cbn in ND. inversion ND; subst.
    destruct Ha as [->|Ha]; [apply H1, in_or_app; now right | now apply IH].
Qed.

Lemma map_some_inj (l l' : list Q) : map Some l = map Some l' -> l = l'.
Proof. revert l'. induction l as [|a l IH]; intros [|b l']; cbn; intros H; try discriminate; auto. injection H as -> H. f_equal. auto. Qed.

(** What an actuator-to-joint map computes. *)
Lemma joint_values t q act jnt la lj (m : mem exactd) xs :
  params_ok exactd t -> Forall rational (parameters exactd t) ->
  linked exactd t q act jnt la lj -> NoDup lj -> disjoint la lj -> abs_ok exactd t q act ->
  map m la = map Some xs ->
  exists m' ys, to_joint exactd q t act jnt m = Ok m' /\ unchanged_outside exactd lj m m' /\
    map m' lj = map Some ys /\ joint_formula t q xs ys.
Proof.
  intros HP HR HL ND DJ HX E. rewrite (a2j_eval exactd t q act jnt la lj m HP HL ND DJ HX).
  pose proof (nice_intro t HP HR) as HN. destruct HL as (_ & _ & La & Lj).
  assert (Lx : List.length xs = num_actuators exactd t) by (rewrite <- La, <- (map_length m la), E; symmetry; apply map_length).
  destruct (pure_joint t q xs HN Lx) as (ys & EP & HF). 
  assert (EP' : pure_a2j exactd t q (map m la) = Ok (map Some ys)) by (etransitivity; [|exact EP]; f_equal; exact E).
  rewrite EP'. cbn [bind]. exists (write exactd m lj (map Some ys)), ys.
  split; [reflexivity|]. split; [|split]; [| |exact HF].
  - intros c Hc. now apply write_out.
  - apply write_in; auto. rewrite Lj. symmetry. exact (pure_a2j_len exactd _ _ _ _ EP).
Qed.

(** What a joint-to-actuator map computes. *)
Lemma actuator_values t q act jnt la lj (m : mem exactd) ys :
  params_ok exactd t -> Forall rational (parameters exactd t) -> both_ways q ->
  linked exactd t q act jnt la lj -> NoDup la -> disjoint lj la ->
  map m lj = map Some ys ->
  exists m' xs, to_actuator exactd q t jnt act m = Ok m' /\ unchanged_outside exactd la m m' /\
    map m' la = map Some xs /\ actuator_formula t q ys xs.
Proof.
  intros HP HR HB HL ND DJ E. rewrite (j2a_eval exactd t q act jnt la lj m HP HB HL ND DJ).
  pose proof (nice_intro t HP HR) as HN. destruct HL as (_ & _ & La & Lj).
  assert (Ly : List.length ys = num_joints exactd t) by (rewrite <- Lj, <- (map_length m lj), E; symmetry; apply map_length).
  destruct (pure_actuator t q ys HN HB Ly) as (xs & EP & HF).
  assert (EP' : pure_j2a exactd t q (map m lj) = Ok (map Some xs)) by (etransitivity; [|exact EP]; f_equal; exact E).
  rewrite EP'. cbn [bind]. exists (write exactd m la (map Some xs)), xs.
  split; [reflexivity|]. split; [|split]; [| |exact HF].
  - intros c Hc. now apply write_out.
  - apply write_in; auto. rewrite La. symmetry. exact (pure_j2a_len exactd _ _ _ _ EP).
Qed.

Lemma same_values (m m' : mem exactd) l xs xs' :
  map m l = map Some xs -> map m' l = map Some xs' -> Forall2 Qeq xs' xs -> Forall (fun a => same (m' a) (m a)) l.
Proof.
  revert xs xs'. induction l as [|a l IH]; intros xs xs' E E' H; constructor;
    destruct xs as [|x xs]; try discriminate E; destruct xs' as [|x' xs']; try discriminate E';
    cbn in E, E'; injection E as E1 E2; injection E' as E1' E2'; inversion H; subst.
  - unfold same. rewrite E1, E1'. assumption.
  - eapply IH; eauto.
Qed.

Lemma abs_both A (t : transmission A) q act : both_ways q -> abs_ok A t q act.
Proof. intros [-> | [-> | ->]]; destruct t; exact I. Qed.

Lemma keep_values (m m' : mem exactd) l l' xs : disjoint l l' -> unchanged_outside exactd l' m m' ->
  map m l = map Some xs -> map m' l = map Some xs.
Proof. intros D U E. rewrite <- E. apply map_agree. intros a Ha. apply U. now apply D. Qed.

Lemma round_trip t q act jnt la lj m :
  constructed exactd t -> Forall rational (parameters exactd t) -> both_ways q ->
  wired exactd t q act jnt la lj -> Forall (fun a => rational (m a)) la ->
  exists m1 m2, to_joint exactd q t act jnt m = Ok m1 /\ to_actuator exactd q t jnt act m1 = Ok m2 /\
    Forall (fun a => same (m2 a) (m a)) la /\ unchanged_outside exactd (la ++ lj) m m2.
Proof.
  intros HC HR HB HW HM. apply constructed_params in HC. apply wired_linked in HW as (HL & NA & NJ & D & D').
  destruct (rationals m la HM) as (xs & E).
  destruct (joint_values t q act jnt la lj m xs) as (m1 & ys & E1 & U1 & V1 & F1); auto using abs_both.
  destruct (actuator_values t q act jnt la lj m1 ys) as (m2 & xs' & E2 & U2 & V2 & F2); auto.
  exists m1, m2. split; [exact E1|]. split; [exact E2|]. split.
  - eapply same_values; eauto. eapply formulas_inverse; eauto using nice_intro.
  - intros c Hc. rewrite U2 by (intros K; apply Hc, in_or_app; auto). apply U1. intros K. apply Hc, in_or_app. auto.
Qed.

Lemma round_trip' t q act jnt la lj m :
  constructed exactd t -> Forall rational (parameters exactd t) -> both_ways q ->
  wired exactd t q act jnt la lj -> Forall (fun a => rational (m a)) lj ->
  exists m1 m2, to_actuator exactd q t jnt act m = Ok m1 /\ to_joint exactd q t act jnt m1 = Ok m2 /\
    Forall (fun a => same (m2 a) (m a)) lj /\ unchanged_outside exactd (la ++ lj) m m2.
Proof.
  intros HC HR HB HW HM. apply constructed_params in HC. apply wired_linked in HW as (HL & NA & NJ & D & D').
  destruct (rationals m lj HM) as (ys & E).
  destruct (actuator_values t q act jnt la lj m ys) as (m1 & xs & E1 & U1 & V1 & F1); auto.
  destruct (joint_values t q act jnt la lj m1 xs) as (m2 & ys' & E2 & U2 & V2 & F2); auto using abs_both.
  exists m1, m2. split; [exact E1|]. split; [exact E2|]. split.
  - eapply same_values; eauto. eapply formulas_inverse'; eauto using nice_intro.
  - intros c Hc. rewrite U2 by (intros K; apply Hc, in_or_app; auto). apply U1. intros K. apply Hc, in_or_app. auto.
Qed.

(** ** Power *)

(** Sum of products. *)
Definition dot (xs ys : list Q) : Q := fold_right (fun ev s => fst ev * snd ev + s) 0 (combine xs ys).

Lemma power_values m le lv xs ys : map m le = map Some xs -> map m lv = map Some ys ->
  power m le lv = Some (dot xs ys).
Proof.
  revert lv xs ys. induction le as [|a le IH]; intros lv xs ys E1 E2; destruct xs as [|x xs]; try discriminate E1; [reflexivity|].
  cbn in E1. injection E1 as E1 E1'. destruct lv as [|b lv]; destruct ys as [|y ys]; try discriminate E2; [reflexivity|].
  cbn in E2. injection E2 as E2 E2'. specialize (IH lv xs ys E1' E2').
  unfold power, dot in *. cbn. rewrite IH. cbn in E1, E2. rewrite E1, E2. reflexivity.
Qed.

Lemma power_formula t e v e' v' : nice t -> joint_formula t Effort e e' -> joint_formula t Velocity v v' ->
  dot e' v' == dot e v + surplus t e v.
Proof.
  destruct t as [r o | ar jr off ign | ar jr off]; cbn [nice]; intros HN.
  - destruct HN as (r' & o' & -> & -> & HZ). unfold joint_formula.
    destruct e as [|x [|? ?]]; try tauto. destruct e' as [|y [|? ?]]; try tauto.
    destruct v as [|x' [|? ?]]; try (intros _ ?; contradiction). destruct v' as [|y' [|? ?]]; try (intros _ ?; contradiction).
    intros H1 H2. unfold dot; cbn. rewrite H1, H2. field; auto.
  - destruct HN as (a0 & a1 & j0 & j1 & o0 & o1 & -> & -> & -> & Z0 & Z1 & Z2 & Z3). unfold joint_formula.
    destruct e as [|x1 [|x2 [|? ?]]]; try tauto. destruct e' as [|y1 [|y2 [|? ?]]]; try tauto.
    destruct v as [|w1 [|w2 [|? ?]]]; try (intros _ ?; contradiction). destruct v' as [|z1 [|z2 [|? ?]]]; try (intros _ ?; contradiction).
    intros [H1 H1'] [H2 H2']. unfold dot; cbn. rewrite H1, H1', H2, H2'. field; auto.
  - destruct HN as (a0 & a1 & j0 & j1 & o0 & o1 & -> & -> & -> & Z0 & Z1 & Z2 & Z3). unfold joint_formula.
    destruct e as [|x1 [|x2 [|? ?]]]; try tauto. destruct e' as [|y1 [|y2 [|? ?]]]; try tauto.
    destruct v as [|w1 [|w2 [|? ?]]]; try (intros _ ?; contradiction). destruct v' as [|z1 [|z2 [|? ?]]]; try (intros _ ?; contradiction).
    intros [H1 H1'] [H2 H2']. unfold dot; cbn. rewrite H1, H1', H2, H2'. field; auto.
Qed.

Lemma disjoint_sym l l' : disjoint l l' -> disjoint l' l.
Proof. intros D a Ha Hb. exact (D a Hb Ha). Qed.

Lemma power_maps t act jnt lae lje lav ljv m :
  constructed exactd t -> Forall rational (parameters exactd t) ->
  wired exactd t Effort act jnt lae lje -> wired exactd t Velocity act jnt lav ljv ->
  disjoint lav lje -> disjoint lje ljv ->
  Forall (fun a => rational (m a)) (lae ++ lav) ->
  exists m1 m2 e v, to_joint exactd Effort t act jnt m = Ok m1 /\ to_joint exactd Velocity t act jnt m1 = Ok m2 /\
    map m lae = map Some e /\ map m lav = map Some v /\
    same (power m2 lje ljv) (lift2 Qplus (power m lae lav) (Some (surplus t e v))).
Proof.
  intros HC HR HW HW' D1 D2 HM. apply constructed_params in HC.
  apply wired_linked in HW as (HL & NA & NJ & D & D'). apply wired_linked in HW' as (HL' & NA' & NJ' & D3 & D3').
  apply Forall_app in HM as [M1 M2].
  destruct (rationals m lae M1) as (e & E). destruct (rationals m lav M2) as (v & V).
  destruct (joint_values t Effort act jnt lae lje m e) as (m1 & e' & E1 & U1 & V1 & F1); auto.
  { apply abs_both. right. now right. }
  pose proof (keep_values m m1 lav lje v D1 U1 V) as V'.
  destruct (joint_values t Velocity act jnt lav ljv m1 v) as (m2 & v' & E2 & U2 & V2 & F2); auto.
  { apply abs_both. right. now left. }
  exists m1, m2, e, v. repeat split; auto.
  pose proof (keep_values m1 m2 lje ljv e' D2 U2 V1) as V1'.
  rewrite (power_values m2 lje ljv e' v' V1' V2), (power_values m lae lav e v E V).
  unfold same, lift2. apply power_formula; auto using nice_intro.
Qed.

Lemma power_formula' t e v e' v' : nice t -> actuator_formula t Effort e e' -> actuator_formula t Velocity v v' ->
  match t with FourBar _ _ _ _ => False | _ => True end -> dot e' v' == dot e v.
Proof.
  destruct t as [r o | ar jr off ign | ar jr off]; cbn [nice]; intros HN.
  - destruct HN as (r' & o' & -> & -> & HZ). unfold actuator_formula.
    destruct e' as [|y [|? ?]]; try tauto. destruct e as [|x [|? ?]]; try tauto.
    destruct v' as [|y' [|? ?]]; try (intros _ ?; contradiction). destruct v as [|x' [|? ?]]; try (intros _ ?; contradiction).
    intros H1 H2 _. unfold dot; cbn. rewrite H1, H2. field; auto.
  - destruct HN as (a0 & a1 & j0 & j1 & o0 & o1 & -> & -> & -> & Z0 & Z1 & Z2 & Z3). unfold actuator_formula.
    destruct e' as [|y1 [|y2 [|? ?]]]; try tauto. destruct e as [|x1 [|x2 [|? ?]]]; try tauto.
    destruct v' as [|z1 [|z2 [|? ?]]]; try (intros _ ?; contradiction). destruct v as [|w1 [|w2 [|? ?]]]; try (intros _ ?; contradiction).
    intros [H1 H1'] [H2 H2'] _. unfold dot; cbn. rewrite H1, H1', H2, H2'. field; auto.
  - intros _ _ [].
Qed.

Lemma power_maps' t act jnt lae lje lav ljv m :
  constructed exactd t -> Forall rational (parameters exactd t) -> ~ four_bar t ->
  wired exactd t Effort act jnt lae lje -> wired exactd t Velocity act jnt lav ljv ->
  disjoint ljv lae -> disjoint lae lav ->
  Forall (fun a => rational (m a)) (lje ++ ljv) ->
  exists m1 m2 : mem exactd, to_actuator exactd Effort t jnt act m = Ok m1 /\ to_actuator exactd Velocity t jnt act m1 = Ok m2 /\
    same (power m2 lae lav) (power m lje ljv).
Proof.
  intros HC HR HF HW HW' D1 D2 HM. apply constructed_params in HC.
  apply wired_linked in HW as (HL & NA & NJ & D & D'). apply wired_linked in HW' as (HL' & NA' & NJ' & D3 & D3').
  apply Forall_app in HM as [M1 M2].
  destruct (rationals m lje M1) as (e & E). destruct (rationals m ljv M2) as (v & V).
  assert (BE : both_ways Effort) by (right; now right). assert (BV : both_ways Velocity) by (right; now left).
  destruct (actuator_values t Effort act jnt lae lje m e) as (m1 & e' & E1 & U1 & V1 & F1); auto.
  pose proof (keep_values m m1 ljv lae v D1 U1 V) as V'.
  destruct (actuator_values t Velocity act jnt lav ljv m1 v) as (m2 & v' & E2 & U2 & V2 & F2); auto.
  exists m1, m2. repeat split; auto.
  pose proof (keep_values m1 m2 lae lav e' D2 U2 V1) as V1'.
  rewrite (power_values m2 lae lav e' v' V1' V2), (power_values m lje ljv e v E V).
  unfold same. eapply power_formula'; eauto using nice_intro. unfold four_bar in HF. destruct t; auto.
Qed.

(** ** Positions and velocities *)

Definition move (dt : Q) (p v : list Q) : list Q := map (fun pv => fst pv + snd pv * dt) (combine p v).

Lemma joint_linear t p v dt p' v' p'' : nice t ->
  joint_formula t Position p p' -> joint_formula t Velocity v v' -> joint_formula t Position (move dt p v) p'' ->
  Forall2 Qeq p'' (move dt p' v').
Proof.
  destruct t as [r o | ar jr off ign | ar jr off]; cbn [nice]; intros HN.
  - destruct HN as (r' & o' & -> & -> & HZ). unfold joint_formula.
    destruct p as [|x [|? ?]]; try tauto. destruct p' as [|y [|? ?]]; try tauto.
    destruct v as [|x' [|? ?]]; try (intros _ ?; contradiction). destruct v' as [|y' [|? ?]]; try (intros _ ?; contradiction).
    destruct p'' as [|z [|? ?]]; try (intros _ _ ?; contradiction).
    intros H1 H2 H3. cbn in *. repeat constructor. rewrite H1, H2, H3. field; auto.
  - destruct HN as (a0 & a1 & j0 & j1 & o0 & o1 & -> & -> & -> & Z0 & Z1 & Z2 & Z3). unfold joint_formula.
    destruct p as [|x1 [|x2 [|? ?]]]; try tauto. destruct p' as [|y1 [|y2 [|? ?]]]; try tauto.
    destruct v as [|w1 [|w2 [|? ?]]]; try (intros _ ?; contradiction). destruct v' as [|z1 [|z2 [|? ?]]]; try (intros _ ?; contradiction).
    destruct p'' as [|q1 [|q2 [|? ?]]]; try (intros _ _ ?; contradiction).
    intros [H1 H1'] [H2 H2'] [H3 H3']. cbn in *. repeat constructor; rewrite ?H1, ?H1', ?H2, ?H2', ?H3, ?H3'; field; auto.
  - destruct HN as (a0 & a1 & j0 & j1 & o0 & o1 & -> & -> & -> & Z0 & Z1 & Z2 & Z3). unfold joint_formula.
    destruct p as [|x1 [|x2 [|? ?]]]; try tauto. destruct p' as [|y1 [|y2 [|? ?]]]; try tauto.
    destruct v as [|w1 [|w2 [|? ?]]]; try (intros _ ?; contradiction). destruct v' as [|z1 [|z2 [|? ?]]]; try (intros _ ?; contradiction).
    destruct p'' as [|q1 [|q2 [|? ?]]]; try (intros _ _ ?; contradiction).
    intros [H1 H1'] [H2 H2'] [H3 H3']. cbn in *. repeat constructor; rewrite ?H1, ?H1', ?H2, ?H2', ?H3, ?H3'; field; auto.
Qed.

Lemma actuator_linear t p v dt p' v' p'' : nice t ->
  actuator_formula t Position p p' -> actuator_formula t Velocity v v' -> actuator_formula t Position (move dt p v) p'' ->
  Forall2 Qeq p'' (move dt p' v').
Proof.
  destruct t as [r o | ar jr off ign | ar jr off]; cbn [nice]; intros HN.
  - destruct HN as (r' & o' & -> & -> & HZ). unfold actuator_formula.
    destruct p' as [|y [|? ?]]; try tauto. destruct p as [|x [|? ?]]; try tauto.
    destruct v' as [|y' [|? ?]]; try (intros _ ?; contradiction). destruct v as [|x' [|? ?]]; try (intros _ ?; contradiction).
    destruct p'' as [|z [|? ?]]; try (intros _ _ ?; contradiction).
    intros H1 H2 H3. cbn in *. repeat constructor. rewrite H1, H2, H3. field; auto.
  - destruct HN as (a0 & a1 & j0 & j1 & o0 & o1 & -> & -> & -> & Z0 & Z1 & Z2 & Z3). unfold actuator_formula.
    destruct p' as [|y1 [|y2 [|? ?]]]; try tauto. destruct p as [|x1 [|x2 [|? ?]]]; try tauto.
    destruct v' as [|z1 [|z2 [|? ?]]]; try (intros _ ?; contradiction). destruct v as [|w1 [|w2 [|? ?]]]; try (intros _ ?; contradiction).
    destruct p'' as [|q1 [|q2 [|? ?]]]; try (intros _ _ ?; contradiction).
    intros [H1 H1'] [H2 H2'] [H3 H3']. cbn in *. repeat constructor; rewrite ?H1, ?H1', ?H2, ?H2', ?H3, ?H3'; field; auto.
  - destruct HN as (a0 & a1 & j0 & j1 & o0 & o1 & -> & -> & -> & Z0 & Z1 & Z2 & Z3). unfold actuator_formula.
    destruct p' as [|y1 [|y2 [|? ?]]]; try tauto. destruct p as [|x1 [|x2 [|? ?]]]; try tauto.
    destruct v' as [|z1 [|z2 [|? ?]]]; try (intros _ ?; contradiction). destruct v as [|w1 [|w2 [|? ?]]]; try (intros _ ?; contradiction).
    destruct p'' as [|q1 [|q2 [|? ?]]]; try (intros _ _ ?; contradiction).
    intros [H1 H1'] [H2 H2'] [H3 H3']. cbn in *. repeat constructor; rewrite ?H1, ?H1', ?H2, ?H2', ?H3, ?H3'; field; auto.
Qed.

Lemma moved_values dt m m' lp lv p v : moved dt m m' lp lv -> map m lp = map Some p -> map m lv = map Some v ->
  map m' lp = map Some (move dt p v).
Proof.
  intros H. revert p v. induction H as [|a b lp lv Hab H IH]; intros p v E1 E2.
  - destruct p; [reflexivity | discriminate E1].
  - destruct p as [|x p]; [discriminate E1|]. destruct v as [|y v]; [discriminate E2|].
    cbn in E1, E2. injection E1 as E1 E1'. injection E2 as E2 E2'. cbn. f_equal.
    + rewrite Hab. cbn in E1, E2. now rewrite E1, E2.
    + now apply IH.
Qed.

Lemma move_same dt (n n' k : mem exactd) lp lv p v p'' :
  map n lp = map Some p -> map k lv = map Some v -> map n' lp = map Some p'' -> List.length lp = List.length lv ->
  Forall2 Qeq p'' (move dt p v) ->
  Forall2 (fun a b => same (n' a) (lift2 Qplus (n a) (lift2 Qmult (k b) (Some dt)))) lp lv.
Proof.
  revert lv p v p''. induction lp as [|a lp IH]; intros [|b lv] p v p'' E1 E2 E3 HL HF; try discriminate HL; constructor;
    destruct p as [|x p]; try discriminate E1; destruct v as [|y v]; try discriminate E2; destruct p'' as [|z p'']; try discriminate E3;
    cbn in E1, E2, E3; injection E1 as E1 E1'; injection E2 as E2 E2'; injection E3 as E3 E3'; cbn in HF; inversion HF; subst.
  - cbn in E1, E2, E3. unfold same. rewrite E1, E2, E3. assumption.
  - injection HL as HL. eapply IH; eauto.
Qed.

Lemma joint_moves t act jnt lpa lpj lva lvj m m' dt :
  constructed exactd t -> Forall rational (parameters exactd t) ->
  wired exactd t Position act jnt lpa lpj -> wired exactd t Velocity act jnt lva lvj ->
  Forall (fun a => rational (m a)) (lpa ++ lva) -> moved dt m m' lpa lva ->
  exists n n' k, to_joint exactd Position t act jnt m = Ok n /\ to_joint exactd Position t act jnt m' = Ok n' /\
    to_joint exactd Velocity t act jnt m = Ok k /\
    Forall2 (fun p v => same (n' p) (lift2 Qplus (n p) (lift2 Qmult (k v) (Some dt)))) lpj lvj.
Proof.
  intros HC HR HW HW' HM MV. apply constructed_params in HC.
  apply wired_linked in HW as (HL & NA & NJ & D & D'). apply wired_linked in HW' as (HL' & NA' & NJ' & D3 & D3').
  apply Forall_app in HM as [M1 M2].
  destruct (rationals m lpa M1) as (p & P). destruct (rationals m lva M2) as (v & V).
  destruct (joint_values t Position act jnt lpa lpj m p) as (n & p' & E1 & U1 & V1 & F1); auto.
  { apply abs_both. now left. }
  destruct (joint_values t Position act jnt lpa lpj m' (move dt p v)) as (n' & p'' & E2 & U2 & V2 & F2); auto.
  { apply abs_both. now left. }
  { eapply moved_values; eauto. }
  destruct (joint_values t Velocity act jnt lva lvj m v) as (k & v' & E3 & U3 & V3 & F3); auto.
  { apply abs_both. right. now left. }
  exists n, n', k. repeat split; auto. eapply move_same; eauto.
  - destruct HL as (_ & _ & _ & ->), HL' as (_ & _ & _ & ->). reflexivity.
  - eapply joint_linear; eauto using nice_intro.
Qed.

Lemma actuator_moves t act jnt lpa lpj lva lvj m m' dt :
  constructed exactd t -> Forall rational (parameters exactd t) ->
  wired exactd t Position act jnt lpa lpj -> wired exactd t Velocity act jnt lva lvj ->
  Forall (fun a => rational (m a)) (lpj ++ lvj) -> moved dt m m' lpj lvj ->
  exists n n' k, to_actuator exactd Position t jnt act m = Ok n /\ to_actuator exactd Position t jnt act m' = Ok n' /\
    to_actuator exactd Velocity t jnt act m = Ok k /\
    Forall2 (fun p v => same (n' p) (lift2 Qplus (n p) (lift2 Qmult (k v) (Some dt)))) lpa lva.
Proof.
  intros HC HR HW HW' HM MV. apply constructed_params in HC.
  apply wired_linked in HW as (HL & NA & NJ & D & D'). apply wired_linked in HW' as (HL' & NA' & NJ' & D3 & D3').
  apply Forall_app in HM as [M1 M2].
  destruct (rationals m lpj M1) as (p & P). destruct (rationals m lvj M2) as (v & V).
  assert (BP : both_ways Position) by now left. assert (BV : both_ways Velocity) by (right; now left).
  destruct (actuator_values t Position act jnt lpa lpj m p) as (n & p' & E1 & U1 & V1 & F1); auto.
  destruct (actuator_values t Position act jnt lpa lpj m' (move dt p v)) as (n' & p'' & E2 & U2 & V2 & F2); auto.
  { eapply moved_values; eauto. }
  destruct (actuator_values t Velocity act jnt lva lvj m v) as (k & v' & E3 & U3 & V3 & F3); auto.
  exists n, n', k. repeat split; auto. eapply move_same; eauto.
  - destruct HL as (_ & _ & -> & _), HL' as (_ & _ & -> & _). reflexivity.
  - eapply actuator_linear; eauto using nice_intro.
Qed.

Lemma four_disjoint (a b c d : list addr) : NoDup (a ++ b ++ c ++ d) ->
  disjoint c b /\ disjoint b d /\ disjoint d a /\ disjoint a c.
Proof.
  intros H.
  assert (K : forall l l' : list addr, NoDup (l ++ l') -> disjoint l l').
  { clear. induction l as [|x l IH]; intros l' H y Hy Hy'; [destruct Hy|]. cbn in H. inversion H; subst.
    destruct Hy as [->|Hy]; [apply H2, in_or_app; now right | exact (IH l' H3 y Hy Hy')]. }
  pose proof (K _ _ H) as K1. pose proof (K _ _ (nodup_app_r _ _ H)) as K2.
  repeat split; intros x Hx Hy; [apply (K2 x)|apply (K2 x)|apply (K1 x)|apply (K1 x)]; auto using in_or_app.
Qed.

Lemma power_four_bar t act jnt lae lje lav ljv m :
  constructed exactd t -> Forall rational (parameters exactd t) ->
  wired exactd t Effort act jnt lae lje -> wired exactd t Velocity act jnt lav ljv ->
  NoDup (lae ++ lje ++ lav ++ ljv) -> Forall (fun a => rational (m a)) (lae ++ lav) ->
  exists m1 m2 e v, to_joint exactd Effort t act jnt m = Ok m1 /\ to_joint exactd Velocity t act jnt m1 = Ok m2 /\
    map m lae = map Some e /\ map m lav = map Some v /\
    same (power m2 lje ljv) (lift2 Qplus (power m lae lav) (Some (surplus t e v))).
Proof. intros HC HR HW HW' ND HM. destruct (four_disjoint _ _ _ _ ND) as (D1 & D2 & _). now apply power_maps. Qed.

Lemma power_conserved t act jnt lae lje lav ljv m :
  constructed exactd t -> Forall rational (parameters exactd t) -> ~ four_bar t ->
  wired exactd t Effort act jnt lae lje -> wired exactd t Velocity act jnt lav ljv ->
  NoDup (lae ++ lje ++ lav ++ ljv) ->
  (Forall (fun a => rational (m a)) (lae ++ lav) ->
   exists m1 m2, to_joint exactd Effort t act jnt m = Ok m1 /\ to_joint exactd Velocity t act jnt m1 = Ok m2 /\
     same (power m2 lje ljv) (power m lae lav)) /\
  (Forall (fun a => rational (m a)) (lje ++ ljv) ->
   exists m1 m2, to_actuator exactd Effort t jnt act m = Ok m1 /\ to_actuator exactd Velocity t jnt act m1 = Ok m2 /\
     same (power m2 lae lav) (power m lje ljv)).
Proof.
  intros HC HR HF HW HW' ND. destruct (four_disjoint _ _ _ _ ND) as (D1 & D2 & D3 & D4). split; intros HM.
  - destruct (power_maps t act jnt lae lje lav ljv m) as (m1 & m2 & e & v & E1 & E2 & Ee & Ev & S); auto.
    exists m1, m2. split; [exact E1|]. split; [exact E2|].
    replace (surplus t e v) with 0 in S by (destruct t; try reflexivity; destruct HF; exact I).
    destruct (power m lae lav) as [p|]; destruct (power m2 lje ljv) as [p'|]; cbn in *; auto. rewrite S. ring.
  - now apply power_maps'.
Qed.
