(** The two kinds of position limit handles in the control loop. *)
From Coq Require Import List QArith Lqa.
From Verif Require Import LimModel LimLaws LimSpec LimExact LimProofs LimRest LimGain TransModel TransSpec LoopModel LoopSpec LoopProofs.
Import ListNotations.

Definition inside (lo hi : num exact) (x : option Q) : Prop := within lo hi x.

Lemma within_num lo hi (x : option Q) : inside lo hi x -> rational x.
Proof. intros [H _]. apply exact_le in H as (a & b & _ & -> & _). discriminate. Qed.
Lemma within_eq lo hi x y : inside lo hi (Some x) -> (x == y)%Q -> inside lo hi (Some y).
Proof.
  intros [H1 H2] E. apply exact_le in H1 as (a & b & -> & Eb & H1). apply exact_le in H2 as (c & d & Ec & -> & H2).
  injection Eb as <-. injection Ec as <-. split; apply exact_le_some; lra.
Qed.
Lemma within_between lo hi a b x : inside lo hi (Some a) -> inside lo hi (Some b) -> between a b x -> inside lo hi (Some x).
Proof.
  intros [H1 H2] [H3 H4] B. apply exact_le in H1 as (a' & b' & -> & Eb & H1). apply exact_le in H2 as (c & d & Ec & -> & H2).
  injection Eb as <-. injection Ec as <-. apply exact_le_some in H3, H4.
  destruct B as [[B1 B2]|[B1 B2]]; split; apply exact_le_some; lra.
Qed.

(** PositionJointSaturationHandle. *)
Section Saturation.
Context (L : nat -> limits exact).
Definition sat_inv (k : nat) (h : pos_sat exact) : Prop :=
  pos_limits_ok rational (L k) /\ exists fresh, ps_inv (within (min_position (L k)) (max_position (L k))) (L k) fresh h.

Lemma sat_step k h (j : joint exact) dt : sat_inv k h -> period_ok rational dt ->
  inside (min_position (L k)) (max_position (L k)) (j_pos j) -> rational (j_cmd j) ->
  exists h' j', Some (pos_sat_enforce h j dt) = Some (h', j') /\ sat_inv k h' /\
    inside (min_position (L k)) (max_position (L k)) (j_cmd j').
Proof.
  intros [Hl [fresh Hi]] Hdt Hz Hc.
  assert (N : isnan exact (j_cmd j) = false) by (destruct (j_cmd j); [reflexivity|now elim Hc]).
  pose proof (inside_kept exact_laws _ Hl) as K.
  pose proof (ps_inv_step exact_laws _ _ _ h j dt K Hi Hdt (fun _ => Hz)) as Hi'. rewrite N in Hi'.
  exists (fst (pos_sat_enforce h j dt)), (snd (pos_sat_enforce h j dt)). split; [now destruct (pos_sat_enforce h j dt)|].
  split; [split; eauto|]. destruct Hi' as (_ & _ & _ & _ & Hp). specialize (Hp eq_refl).
  assert (E : ps_prev (fst (pos_sat_enforce h j dt)) = j_cmd (snd (pos_sat_enforce h j dt)))
    by (rewrite (ps_enforce_eq h j dt _ eq_refl); reflexivity).
  rewrite E in Hp. exact Hp.
Qed.

Lemma sat_reset k h : sat_inv k h -> sat_inv k (pos_sat_reset h).
Proof.
  intros [Hl [fresh (E1 & E2 & E3 & _)]]. split; [exact Hl|]. exists true. unfold pos_sat_reset, ps_inv. cbn.
  repeat split; auto; discriminate.
Qed.
End Saturation.

(** PositionJointSoftLimitsHandle; [Z]: the hard limits, or both. *)
Section Soft.
Context (L : nat -> limits exact) (S : nat -> soft_limits exact) (used : nat -> Prop).
Context (Z : nat -> option Q -> Prop).
Context (HZ : forall k, soft_position_ok rational (L k) (S k) -> @kept exact rational gain_exact (Z k) (L k) (S k)).
Definition soft_inv (k : nat) (h : pos_soft exact) : Prop :=
  used k /\ soft_position_ok rational (L k) (S k) /\ exists fresh, @pf_inv exact (Z k) (L k) (S k) fresh h.

Lemma soft_step k h (j : joint exact) dt : soft_inv k h ->
  (forall k, used k -> soft_period rational gain_exact (S k) dt) ->
  Z k (j_pos j) -> rational (j_cmd j) ->
  exists h' j', pos_soft_enforce h j dt = Some (h', j') /\ soft_inv k h' /\ Z k (j_cmd j').
Proof.
  intros (Hu & Hl & fresh & Hi) Hdt Hz Hc.
  assert (N : isnan exact (j_cmd j) = false) by (destruct (j_cmd j); [reflexivity|now elim Hc]).
  destruct (pf_inv_step exact_laws (Z k) _ _ _ h j dt (HZ k Hl) Hi (Hdt k Hu) (fun _ => Hz)) as (h' & j' & E & Hi' & P & _).
  rewrite N in Hi'. exists h', j'. split; [exact E|]. split; [split; [exact Hu|split; [exact Hl|eauto]]|].
  destruct Hi' as (_ & _ & _ & Hp). rewrite <- P. exact (Hp eq_refl).
Qed.

Lemma soft_reset k h : soft_inv k h -> soft_inv k (pos_soft_reset h).
Proof.
  intros (Hu & Hl & fresh & E1 & E2 & _). split; [exact Hu|]. split; [exact Hl|]. exists true. unfold pos_soft_reset, pf_inv. cbn.
  repeat split; auto; discriminate.
Qed.
End Soft.
