(** What the maps of a transmission write to, whatever they are given. *)
From Verif Require Import TransModel TransSpec TransProofs TransHandle.
Local Open Scope list_scope.

Section Frame.
Context (A : darith).

(** If it returns, only [T] has been written to. *)
Definition frames (T : list addr) (m : mem A) (r : res (mem A)) : Prop := forall m', r = Ok m' -> unchanged_outside A T m m'.

Lemma frames_ok T m : frames T m (Ok m).
Proof. intros m' [= <-] c _. reflexivity. Qed.
Lemma frames_bind {X} T m (r : res X) k : (forall x, frames T m (k x)) -> frames T m (bind r k).
Proof. intros H m'. destruct r; cbn; try discriminate. apply H. Qed.
Lemma frames_seq T m r k : frames T m r -> (forall m1, frames T m1 (k m1)) -> frames T m (bind r k).
Proof.
  intros H K m'. destruct r as [m1| | |]; cbn; try discriminate. intros E c Hc. rewrite (K m1 m' E c Hc). now apply H.
Qed.
Lemma frames_store T m v i x : incl (addrs v) T -> frames T m (store A m v i x).
Proof.
  intros I m'. unfold store, at_. destruct (nth_error v i) as [[a|]|] eqn:E; cbn; try discriminate.
  intros [= <-] c Hc. unfold upd. destruct (Nat.eqb_spec c a) as [->|]; [|reflexivity].
  exfalso. apply Hc, I. unfold addrs. apply in_flat_map. exists (Some a). split; [eapply nth_error_In; eauto | now left].
Qed.
Lemma frames_incl T T' m r : incl T T' -> frames T m r -> frames T' m r.
Proof. intros I H m' E c Hc. apply (H m' E). intros K. apply Hc, I, K. Qed.

Ltac frame :=
  repeat first
    [ apply frames_store; apply incl_refl
    | apply frames_ok
    | match goal with
      | |- frames _ _ (bind ?r _) => match type of r with res (mem _) => apply frames_seq; [|intro] end
      | |- frames _ _ (bind ?r _) => apply frames_bind; intro
      | |- frames _ _ (if ?b then _ else _) => destruct b
      end ].

Lemma to_joint_frame q t act jnt m : frames (addrs (side q jnt)) m (to_joint A q t act jnt m).
Proof.
  destruct q, t; cbn [to_joint side a2j_position a2j_velocity a2j_effort a2j_absolute a2j_torque];
    cbv [simple_a2j_effort simple_a2j_velocity simple_a2j_position simple_a2j_absolute simple_a2j_torque
         diff_a2j_effort diff_a2j_velocity diff_a2j_position diff_a2j_absolute diff_a2j_torque
         four_a2j_effort four_a2j_velocity four_a2j_position four_a2j_absolute four_a2j_torque]; frame.
Qed.
Lemma to_actuator_frame q t jnt act m : frames (addrs (side q act)) m (to_actuator A q t jnt act m).
Proof.
  destruct q, t; cbn [to_actuator side j2a_position j2a_velocity j2a_effort]; try (intros ? ?; discriminate);
    cbv [simple_j2a_effort simple_j2a_velocity simple_j2a_position
         diff_j2a_effort diff_j2a_velocity diff_j2a_position
         four_j2a_effort four_j2a_velocity four_j2a_position]; frame.
Qed.

Lemma run_seq_frame {X} (f : X -> mem A -> res (mem A)) (Tg : X -> list addr) l :
  (forall x m, In x l -> frames (Tg x) m (f x m)) -> forall m, frames (flat_map Tg l) m (run_seq A (map f l) m).
Proof.
  induction l as [|x l IH]; intros H m; cbn [map run_seq flat_map]; [apply frames_ok|].
  apply frames_seq; [|intros m1]; (eapply frames_incl; [|first [apply H; now left | apply IH; intros y n Hy; apply H; now right]]).
  - apply incl_appl, incl_refl.
  - apply incl_appr, incl_refl.
Qed.

Lemma propagate_only k h m : frames (targets A k h) m (propagate A k h m).
Proof.
  rewrite propagate_seq. unfold targets. apply run_seq_frame. intros q m1 _. unfold single_map, target_data.
  destruct (toward_joints k); [apply to_joint_frame | apply to_actuator_frame].
Qed.
Lemma propagate_all_only k i m m' : propagate_all A k i m = Ok m' -> unchanged_outside A (flat_map (targets A k) (map snd i)) m m'.
Proof. rewrite propagate_all_seq. apply run_seq_frame. intros h m1 _. apply propagate_only. Qed.
End Frame.
