(** Exact arithmetic as an instance of the dictionary of LimModel.v: a rational number, or
    [None] for NaN.  Every double is a rational, so this is the code of
    joint_limits_interface.h:53-524 without rounding. *)
From Coq Require Import QArith Lqa.
From Verif Require Import LimLaws.

(** Lifting of an operation: NaN if one operand is. *)
Definition lift2 (f : Q -> Q -> Q) (a b : option Q) : option Q :=
  match a, b with Some x, Some y => Some (f x y) | _, _ => None end.

(** Strict comparison of rationals. *)
Definition Qlt_bool (x y : Q) : bool := negb (Qle_bool y x).

(** The largest double, (2^53 - 1) * 2^971 ([std::numeric_limits<double>::max()],
    joint_limits_interface.h:77-78, 474). *)
Definition Qmaxnum : Q := inject_Z ((2 ^ 53 - 1) * 2 ^ 971).

(** The dictionary (LimModel.v) for joint_limits_interface.h:53-524 with exact numbers. *)
Definition exact : arith := mkArith (option Q)
  (lift2 Qplus) (lift2 Qminus) (lift2 Qmult) (option_map Qopp)
  (fun a b => match a, b with Some x, Some y => Qlt_bool x y | _, _ => false end)
  (fun a => match a with None => true | _ => false end)
  (Some 0) (Some Qmaxnum) None.

Lemma Qlt_bool_iff x y : Qlt_bool x y = true <-> x < y.
Proof.
  unfold Qlt_bool. rewrite negb_true_iff.
  rewrite <- not_true_iff_false, Qle_bool_iff. split; [apply Qnot_le_lt | apply Qlt_not_le].
Qed.

Lemma Qlt_bool_false x y : Qlt_bool x y = false <-> y <= x.
Proof. unfold Qlt_bool. rewrite negb_false_iff. apply Qle_bool_iff. Qed.

Lemma exact_le (a b : num exact) :
  le a b <-> exists x y, a = Some x /\ b = Some y /\ x <= y.
Proof.
  unfold le, numeric. destruct a as [x|], b as [y|]; simpl; split; intros H;
    try (destruct H as (? & ? & ?); congruence);
    try (destruct H as (? & ? & ? & ? & ?); congruence).
  - destruct H as (_ & _ & H). apply Qlt_bool_false in H. eauto.
  - destruct H as (x' & y' & E1 & E2 & H). injection E1 as <-. injection E2 as <-.
    rewrite Qlt_bool_false. auto.
Qed.

Lemma exact_le_some (x y : Q) : @le exact (Some x) (Some y) <-> x <= y.
Proof.
  rewrite exact_le. split.
  - intros (x' & y' & E1 & E2 & H). injection E1 as <-. injection E2 as <-. auto.
  - intros H. exists x, y. auto.
Qed.

(** Any rational is finite and tame. *)
Definition rational (a : num exact) : Prop := a <> None.

Lemma exact_laws : laws exact rational rational.
Proof.
  assert (N : forall a : num exact, rational a -> exists x, a = Some x).
  { intros [x|] H; [eauto | now elim H]. }
  assert (NM : forall a : num exact, rational a -> numeric a).
  { intros a H. apply N in H as (x & ->). reflexivity. }
  assert (LN : forall a b : num exact, le a b -> exists x y, a = Some x /\ b = Some y /\ x <= y).
  { intros a b. apply exact_le. }
  assert (R : forall x : Q, rational (Some x)) by (intros x; unfold rational; discriminate).
  constructor; auto.
  - intros [x|] b H; [discriminate|reflexivity].
  - intros [x|] b H; [discriminate|reflexivity].
  - intros a b H. destruct a, b; simpl in *; try discriminate; split; reflexivity.
  - intros a b H. destruct a as [x|], b as [y|]; simpl in *; try discriminate.
    apply Qlt_bool_iff in H. apply Qlt_bool_false. lra.
  - intros a b c H1 H2. apply LN in H1 as (x & y & -> & -> & H1).
    apply LN in H2 as (y' & z & E & -> & H2). injection E as <-.
    apply exact_le_some. lra.
  - intros lo hi a _ _ [H _]. apply LN in H as (x & y & -> & -> & H). auto.
  - intros lo hi a _ _ [H _]. apply LN in H as (x & y & -> & -> & H). auto.
  - apply R.
  - apply R.
  - apply exact_le_some. apply Qle_bool_iff. vm_compute. reflexivity.
  - intros [x|]; [reflexivity | discriminate].
  - intros a H. apply N in H as (x & ->). apply R.
  - intros a H. apply N in H as (x & ->). apply R.
  - intros a b H. apply LN in H as (x & y & -> & -> & H). apply exact_le_some. lra.
  - split; apply exact_le_some; lra.
  - intros [[p q]|]; simpl; [|reflexivity]. unfold Qopp. simpl. now rewrite Z.opp_involutive.
  - intros a b c Ha H. apply N in Ha as (w & ->). apply LN in H as (x & y & -> & -> & H).
    apply exact_le_some. lra.
  - intros a Ha. apply N in Ha as (w & ->). split; apply exact_le_some; lra.
  - intros a b c Ha H. apply N in Ha as (w & ->). apply LN in H as (x & y & -> & -> & H).
    apply exact_le_some. lra.
  - intros a b c _ _ Hc H. apply N in Hc as (w & ->). apply LN in H as (x & y & -> & -> & H).
    apply exact_le_some. lra.
  - intros a Ha. apply N in Ha as (w & ->). split; apply exact_le_some; lra.
  - intros a Ha. apply N in Ha as (w & ->). split; apply exact_le_some; lra.
  - intros a b Ha Hb. apply N in Ha as (w & ->). apply N in Hb as (v & ->). apply R.
  - intros a b Ha Hb. apply N in Ha as (w & ->). apply N in Hb as (v & ->).
    split; apply exact_le_some; lra.
  - intros a b d _ _ _ Hd H. apply LN in H as (x & y & -> & -> & H).
    apply LN in Hd as (z & w & E & -> & Hd). injection E as <-. apply exact_le_some.
    apply Qmult_le_compat_r; auto.
  - intros k a b _ _ _ Hk H. apply LN in H as (x & y & -> & -> & H).
    apply LN in Hk as (w & z & -> & E & Hk). injection E as <-. apply exact_le_some. nra.
  - intros d Hd. apply N in Hd as (w & ->). split; apply exact_le_some; lra.
  - intros d Hd. apply N in Hd as (w & ->). split; apply exact_le_some; lra.
  - intros a b Ha Hb. apply N in Ha as (w & ->). apply N in Hb as (v & ->).
    split; apply exact_le_some; lra.
Qed.
