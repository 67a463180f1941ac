(** What the constructors of transmissions and of transmission handles make, stated
    independently of them, and the proofs. *)
From Coq Require Import Bool Lia.
From Verif Require Import TransModel TransSpec TransHandle TransExact.

Section Make.
Context (A : darith).

(** A vector that is not used or has the right size. *)
Definition sized (n : nat) (v : vec) : Prop := v = [] \/ List.length v = n.
(** A vector without null pointers. *)
Definition no_null (v : vec) : Prop := ~ In None v.

(** What the constructor of TransmissionHandle accepts: a transmission, some data for
    position, velocity or effort, vectors of the right sizes and no null pointers.  The
    number of torque sensors of the actuators is not looked at. *)
Definition acceptable (tr : option (transmission A)) (act jnt : data) : Prop :=
  exists t, tr = Some t /\
    (exists q, both_ways q /\ (side q act <> [] \/ side q jnt <> [])) /\
    (forall q, q <> TorqueSensor -> sized (num_actuators A t) (side q act)) /\
    (forall q, sized (num_joints A t) (side q jnt)) /\
    (forall q, no_null (side q act) /\ no_null (side q jnt)).

Lemma sized_iff n v : sized n v <-> (negb (empty v) && negb (List.length v =? n)%nat)%bool = false.
Proof.
  unfold sized. destruct v as [|p v]; cbn [empty negb andb].
  - split; auto.
  - rewrite negb_false_iff, Nat.eqb_eq. split; [intros [H|H]; [discriminate|auto] | auto].
Qed.

Lemma no_null_iff v : no_null v <-> negb (valid_pointers v) = false.
Proof.
  rewrite negb_false_iff. unfold no_null. induction v as [|[a|] v IH]; cbn.
  - split; auto.
  - rewrite <- IH. split; intros H G; apply H; auto. destruct G as [G|G]; [discriminate|auto].
  - split; [intros H; exfalso; apply H; auto | discriminate].
Qed.

Lemma no_null_iff' v : no_null v <-> (negb (empty v) && negb (valid_pointers v))%bool = false.
Proof. rewrite no_null_iff. destruct v as [|p v]; cbn [empty negb andb]; tauto. Qed.

Lemma empties_iff act jnt :
  (exists q, both_ways q /\ (side q act <> [] \/ side q jnt <> [])) <->
  (empty (d_position act) && empty (d_velocity act) && empty (d_effort act) &&
   empty (d_position jnt) && empty (d_velocity jnt) && empty (d_effort jnt))%bool = false.
Proof.
  assert (E : forall v : vec, v <> [] <-> empty v = false) by (intros [|p v]; cbn; split; congruence).
  rewrite !andb_false_iff, <- !E. split.
  - intros (q & [-> | [-> | ->]] & [H|H]); cbn in H; tauto.
  - intros H.
    destruct H as [[[[[H|H]|H]|H]|H]|H];
      [exists Position | exists Velocity | exists Effort | exists Position | exists Velocity | exists Effort];
      unfold both_ways; cbn; auto.
Qed.

Lemma make_handle_iff name tr act jnt :
  make_handle A name tr act jnt <> None <-> acceptable tr act jnt.
Proof.
  destruct tr as [t|].
  2:{ cbn. split; [congruence | intros (t & H & _); discriminate]. }
  assert (Q : forall P : quantity -> Prop, (forall q, P q) <->
    P Position /\ P Velocity /\ P Effort /\ P AbsolutePosition /\ P TorqueSensor).
  { intros P. split; [auto 10|]. intros (? & ? & ? & ? & ?) []; auto. }
  assert (S : acceptable (Some t) act jnt <->
    (exists q, both_ways q /\ (side q act <> [] \/ side q jnt <> [])) /\
    (forall q, q <> TorqueSensor -> sized (num_actuators A t) (side q act)) /\
    (forall q, sized (num_joints A t) (side q jnt)) /\
    (forall q, no_null (side q act) /\ no_null (side q jnt))).
  { unfold acceptable. split; [intros (t' & [= <-] & H); exact H | intros H; exists t; auto]. }
  rewrite S. clear S. rewrite empties_iff, !Q. cbn [side].
  assert (N : forall P Q : Prop, P -> ((P -> Q) <-> Q)) by (intros; tauto).
  rewrite !(N (_ <> TorqueSensor)) by discriminate.
  unfold make_handle. rewrite !sized_iff, !no_null_iff.
  assert (V : forall v : vec, (negb (empty v) && negb (valid_pointers v))%bool = negb (valid_pointers v))
    by (intros [|p v]; reflexivity).
  rewrite !V.
  repeat (match goal with
          | |- (if ?b then _ else _) <> None <-> _ => let E := fresh "E" in destruct b eqn:E
          end; [split; [congruence|]; intros H; exfalso;
                repeat match goal with H : _ /\ _ |- _ => destruct H end; congruence|]).
  split; [intros _ | discriminate]. repeat apply conj; first [assumption | intros; congruence].
Qed.

Lemma make_handle_content name tr act jnt h : make_handle A name tr act jnt = Some h ->
  h_name A h = name /\ tr = Some (h_trans A h) /\ h_act A h = act /\ h_jnt A h = jnt.
Proof.
  unfold make_handle. destruct tr as [t|]; [|discriminate].
  repeat (match goal with |- (if ?b then _ else _) = _ -> _ => destruct b; [discriminate|] end).
  intros [= <-]. cbn. auto.
Qed.
End Make.

(** The documented formulas with the parameters passed to the constructor. *)
Lemma made_simple A r o t : make_simple A r o = Some t -> t = Simple A r o.
Proof. unfold make_simple. destruct (is_zero A r); congruence. Qed.
Lemma made_differential A ar jr off ign t : make_differential A ar jr off ign = Some t -> t = Differential A ar jr off ign.
Proof. unfold make_differential. destruct (_ || _)%bool; [discriminate|]. destruct (zero_reduction A ar jr); congruence. Qed.
Lemma made_four_bar A ar jr off t : make_four_bar A ar jr off = Some t -> t = FourBar A ar jr off.
Proof. unfold make_four_bar. destruct (_ || _)%bool; [discriminate|]. destruct (zero_reduction A ar jr); congruence. Qed.
