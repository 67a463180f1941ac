(** Property theorems about the constructors of transmissions and transmission handles. *)
From Coq Require Import QArith.
From Verif Require Import LimExact TransModel TransSpec TransProofs TransHandle TransExact TransMake PropsTrans.
Local Open Scope string_scope.
Local Open Scope list_scope.
Local Open Scope nat_scope.

(** ** C83: the formulas, in terms of the parameters passed to the constructor *)

Theorem C83_simple_parameters : forall r o t q act jnt la lj m,
  make_simple exactd (Some r) (Some o) = Some t -> wired exactd t q act jnt la lj ->
  (forall xs, map m la = map Some xs ->
   exists m' ys, to_joint exactd q t act jnt m = Ok m' /\ unchanged_outside exactd lj m m' /\
     map m' lj = map Some ys /\ joint_formula (Simple exactd (Some r) (Some o)) q xs ys) /\
  (forall ys, both_ways q -> map m lj = map Some ys ->
   exists m' xs, to_actuator exactd q t jnt act m = Ok m' /\ unchanged_outside exactd la m m' /\
     map m' la = map Some xs /\ actuator_formula (Simple exactd (Some r) (Some o)) q ys xs).
Proof.
  intros r o t q act jnt la lj m HM HW.
  assert (HC : constructed exactd t) by (left; eauto).
  apply made_simple in HM. subst t.
  assert (HR : Forall rational (parameters exactd (Simple exactd (Some r) (Some o))))
    by (repeat constructor; discriminate).
  apply wired_linked in HW as (HL & NA & NJ & D & D'). split.
  - intros xs HX. apply (joint_values _ q act jnt la lj m xs); auto using constructed_params.
    destruct q; cbn; auto.
  - intros ys HB HX. apply (actuator_values _ q act jnt la lj m ys); auto using constructed_params.
Qed.
Print Assumptions C83_simple_parameters.

Theorem C83_differential_parameters : forall ar jr off ign t q act jnt la lj m,
  make_differential exactd ar jr off ign = Some t -> Forall rational (ar ++ jr ++ off) ->
  wired exactd t q act jnt la lj ->
  (forall xs, (q = AbsolutePosition -> exists p v, side Position act = Some p :: v) ->
   map m la = map Some xs ->
   exists m' ys, to_joint exactd q t act jnt m = Ok m' /\ unchanged_outside exactd lj m m' /\
     map m' lj = map Some ys /\ joint_formula (Differential exactd ar jr off ign) q xs ys) /\
  (forall ys, both_ways q -> map m lj = map Some ys ->
   exists m' xs, to_actuator exactd q t jnt act m = Ok m' /\ unchanged_outside exactd la m m' /\
     map m' la = map Some xs /\ actuator_formula (Differential exactd ar jr off ign) q ys xs).
Proof.
  intros ar jr off ign t q act jnt la lj m HM HR HW.
  assert (HC : constructed exactd t) by (right; left; eauto).
  apply made_differential in HM. subst t. split.
  - intros xs HX HE. now apply (C83_joint_formulas _ q act jnt la lj m xs).
  - intros ys HB HX. now apply (C83_actuator_formulas _ q act jnt la lj m ys).
Qed.
Print Assumptions C83_differential_parameters.

Theorem C83_four_bar_parameters : forall ar jr off t q act jnt la lj m,
  make_four_bar exactd ar jr off = Some t -> Forall rational (ar ++ jr ++ off) ->
  wired exactd t q act jnt la lj ->
  (forall xs, map m la = map Some xs ->
   exists m' ys, to_joint exactd q t act jnt m = Ok m' /\ unchanged_outside exactd lj m m' /\
     map m' lj = map Some ys /\ joint_formula (FourBar exactd ar jr off) q xs ys) /\
  (forall ys, both_ways q -> map m lj = map Some ys ->
   exists m' xs, to_actuator exactd q t jnt act m = Ok m' /\ unchanged_outside exactd la m m' /\
     map m' la = map Some xs /\ actuator_formula (FourBar exactd ar jr off) q ys xs).
Proof.
  intros ar jr off t q act jnt la lj m HM HR HW.
  assert (HC : constructed exactd t) by (right; right; eauto).
  apply made_four_bar in HM. subst t. split.
  - intros xs HE. apply wired_linked in HW as (HL & NA & NJ & D & D').
    apply (joint_values _ q act jnt la lj m xs); auto using constructed_params. destruct q; cbn; auto.
  - intros ys HB HX. now apply (C83_actuator_formulas _ q act jnt la lj m ys).
Qed.
Print Assumptions C83_four_bar_parameters.
Example C83_parameters_example :
  make_simple exactd (n_ (-50)) (n_ 3) = Some t_simple /\
  make_differential exactd [n_ 50; n_ (-20)] [n_ 2; n_ 3] [n_ 1; n_ (-1)] true = Some (t_diff true) /\
  make_four_bar exactd [n_ 50; n_ (-20)] [n_ 2; n_ 3] [n_ 1; n_ (-1)] = Some t_four /\
  wired exactd t_four Effort act2 jnt2 [2; 12] [7; 17].
Proof. split; [reflexivity|]. split; [reflexivity|]. split; [reflexivity|]. wires. Qed.

(** ** C101: what a transmission handle accepts and holds *)

Theorem C101_accepts : forall A name tr act jnt,
  make_handle A name tr act jnt <> None <-> acceptable A tr act jnt.
Proof. exact make_handle_iff. Qed.
Print Assumptions C101_accepts.
Theorem C101_holds : forall A name tr act jnt h, make_handle A name tr act jnt = Some h ->
  h_name A h = name /\ tr = Some (h_trans A h) /\ h_act A h = act /\ h_jnt A h = jnt.
Proof. exact make_handle_content. Qed.
Print Assumptions C101_holds.
Example C101_example :
  acceptable exactd (Some (t_diff true)) act2 jnt2 /\
  ~ acceptable exactd (Some (t_diff true)) act1 jnt2 /\
  ~ acceptable exactd None act2 jnt2 /\
  ~ acceptable exactd (Some t_simple) (mkData [] [] [] [Some 3] [Some 4]) (mkData [] [] [] [Some 8] [Some 9]) /\
  ~ acceptable exactd (Some t_simple) (mkData [None] [] [] [] []) jnt1.
Proof. rewrite <- !(C101_accepts exactd "x"). repeat split; try discriminate; intros H; now apply H. Qed.
(** The number of torque sensors of the actuators is not checked: a handle for two actuators
    with one torque sensor is constructed, and cannot be propagated. *)
Theorem C101_torque_sensors_refuted : exists h,
  make_handle exactd "d" (Some (t_diff true))
    (mkData [Some 0; Some 10] [Some 1; Some 11] [Some 2; Some 12] [] [Some 4]) jnt2 = Some h /\
  List.length (d_torque_sensor (h_act exactd h)) <> num_actuators exactd (h_trans exactd h) /\
  propagate exactd ActToJntState h m_ = Assertion.
Proof. eexists. split; [reflexivity|]. split; [discriminate|reflexivity]. Qed.
Print Assumptions C101_torque_sensors_refuted.
