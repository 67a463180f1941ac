(** Property theorems about transmissions. *)
From Coq Require Import Reals QArith Qfield Psatz.
From Flocq Require Import Core BinarySingleNaN.
From Verif Require Import LimExact LimDouble TransModel TransSpec TransProofs TransHandle TransExact TransDouble SMapProofs.
Local Open Scope string_scope.
Local Open Scope list_scope.
Local Open Scope nat_scope.

(** ** Things for the examples *)

Definition n_ (x : Z) : option Q := Some (inject_Z x).
(** A simple transmission, a differential with different reductions everywhere, a four-bar linkage. *)
Definition t_simple : transmission exactd := Simple exactd (n_ (-50)) (n_ 3).
Definition t_diff (ign : bool) : transmission exactd :=
  Differential exactd [n_ 50; n_ (-20)] [n_ 2; n_ 3] [n_ 1; n_ (-1)] ign.
Definition t_four : transmission exactd := FourBar exactd [n_ 50; n_ (-20)] [n_ 2; n_ 3] [n_ 1; n_ (-1)].
(** Variable [i] holds [i] squared plus one, a rational everywhere. *)
Definition m_ : mem exactd := fun a => n_ (Z.of_nat (a * a + 1)).
(** One actuator (variables 0 to 4) and one joint (5 to 9). *)
Definition act1 : data := mkData [Some 0] [Some 1] [Some 2] [Some 3] [Some 4].
Definition jnt1 : data := mkData [Some 5] [Some 6] [Some 7] [Some 8] [Some 9].
(** Two of each. *)
Definition act2 : data := mkData [Some 0; Some 10] [Some 1; Some 11] [Some 2; Some 12] [Some 3; Some 13] [Some 4; Some 14].
Definition jnt2 : data := mkData [Some 5; Some 15] [Some 6; Some 16] [Some 7; Some 17] [Some 8; Some 18] [Some 9; Some 19].

Lemma m_rational l : Forall (fun a => rational (m_ a)) l.
Proof. apply Forall_forall. intros a _. discriminate. Qed.

Lemma all_out s t : forallb (fun a => negb (existsb (Nat.eqb a) t)) s = true -> forall a, In a s -> ~ In a t.
Proof.
  intros H a Ha Ht. rewrite forallb_forall in H. specialize (H a Ha). apply Bool.negb_true_iff in H.
  rewrite <- Bool.not_true_iff_false in H. apply H. apply existsb_exists. exists a. split; [exact Ht | apply Nat.eqb_refl].
Qed.

Ltac nodup := repeat (constructor; [cbn; intuition discriminate|]); constructor.
Ltac wires := repeat split; cbn; auto; nodup.

(** ** Doubles and rationals double alike *)

Theorem doubling_exact : doubling exactd.
Proof. exact exact_doubling. Qed.
Theorem doubling_double : doubling doubled.
Proof. exact doubled_doubling. Qed.
Print Assumptions doubling_exact.
Print Assumptions doubling_double.

(** ** C60: a simple transmission's maps are mutually inverse *)

Theorem C60_simple_inverse : forall r o t q act jnt la lj m,
  make_simple exactd (Some r) (Some o) = Some t -> both_ways q -> wired exactd t q act jnt la lj ->
  (Forall (fun a => rational (m a)) la ->
   exists m1 m2, to_joint exactd q t act jnt m = Ok m1 /\ to_actuator exactd q t jnt act m1 = Ok m2 /\
     Forall (fun a => same (m2 a) (m a)) la /\ unchanged_outside exactd (la ++ lj) m m2) /\
  (Forall (fun a => rational (m a)) lj ->
   exists m1 m2, to_actuator exactd q t jnt act m = Ok m1 /\ to_joint exactd q t act jnt m1 = Ok m2 /\
     Forall (fun a => same (m2 a) (m a)) lj /\ unchanged_outside exactd (la ++ lj) m m2).
Proof.
  intros r o t q act jnt la lj m HM HB HW.
  assert (HC : constructed exactd t) by (left; eauto).
  assert (HR : Forall rational (parameters exactd t)).
  { unfold make_simple in HM. destruct (is_zero exactd (Some r)); [discriminate|]. injection HM as <-.
    repeat constructor; discriminate. }
  split; [apply round_trip | apply round_trip']; assumption.
Qed.
Print Assumptions C60_simple_inverse.

Example C60_simple_inverse_nonvacuous :
  make_simple exactd (n_ (-50)) (n_ 3) = Some t_simple /\ wired exactd t_simple Position act1 jnt1 [0] [5] /\
  match to_joint exactd Position t_simple act1 jnt1 m_ with
  | Ok m1 => same (m1 5) (Some (149 # 50)) /\
      match to_actuator exactd Position t_simple jnt1 act1 (upd exactd m1 0 None) with
      | Ok m2 => same (m2 0) (m_ 0) | _ => False end
  | _ => False end.
Proof. split; [reflexivity|]. split; [wires|]. cbn. split; reflexivity. Qed.

(** ** C61: a differential's maps are mutually inverse *)

Theorem C61_differential_inverse : forall ar jr off ign t q act jnt la lj m,
  make_differential exactd ar jr off ign = Some t -> Forall rational (ar ++ jr ++ off) ->
  both_ways q -> wired exactd t q act jnt la lj ->
  (Forall (fun a => rational (m a)) la ->
   exists m1 m2, to_joint exactd q t act jnt m = Ok m1 /\ to_actuator exactd q t jnt act m1 = Ok m2 /\
     Forall (fun a => same (m2 a) (m a)) la /\ unchanged_outside exactd (la ++ lj) m m2) /\
  (Forall (fun a => rational (m a)) lj ->
   exists m1 m2, to_actuator exactd q t jnt act m = Ok m1 /\ to_joint exactd q t act jnt m1 = Ok m2 /\
     Forall (fun a => same (m2 a) (m a)) lj /\ unchanged_outside exactd (la ++ lj) m m2).
Proof.
  intros ar jr off ign t q act jnt la lj m HM HR HB HW.
  assert (HC : constructed exactd t) by (right; left; eauto).
  assert (HR' : Forall rational (parameters exactd t)).
  { unfold make_differential in HM. destruct (negb _ || _ || _)%bool; [discriminate|].
    destruct (zero_reduction exactd ar jr); [discriminate|]. injection HM as <-. exact HR. }
  split; [apply round_trip | apply round_trip']; assumption.
Qed.
Print Assumptions C61_differential_inverse.

Example C61_differential_inverse_nonvacuous :
  make_differential exactd [n_ 50; n_ (-20)] [n_ 2; n_ 3] [n_ 1; n_ (-1)] false = Some (t_diff false) /\
  wired exactd (t_diff false) Position act2 jnt2 [0; 10] [5; 15] /\
  match to_joint exactd Position (t_diff false) act2 jnt2 m_ with
  | Ok m1 => same (m1 5) (Some (-103 # 400)) /\ same (m1 15) (Some (-31 # 200)) /\
      match to_actuator exactd Position (t_diff false) jnt2 act2 (upd exactd (upd exactd m1 0 None) 10 None) with
      | Ok m2 => same (m2 0) (m_ 0) /\ same (m2 10) (m_ 10) | _ => False end
  | _ => False end.
Proof. split; [reflexivity|]. split; [wires|]. cbn. repeat split; reflexivity. Qed.

(** ** C62: a four-bar linkage's maps are mutually inverse *)

Theorem C62_four_bar_inverse : forall ar jr off t q act jnt la lj m,
  make_four_bar exactd ar jr off = Some t -> Forall rational (ar ++ jr ++ off) ->
  both_ways q -> wired exactd t q act jnt la lj ->
  (Forall (fun a => rational (m a)) la ->
   exists m1 m2, to_joint exactd q t act jnt m = Ok m1 /\ to_actuator exactd q t jnt act m1 = Ok m2 /\
     Forall (fun a => same (m2 a) (m a)) la /\ unchanged_outside exactd (la ++ lj) m m2) /\
  (Forall (fun a => rational (m a)) lj ->
   exists m1 m2, to_actuator exactd q t jnt act m = Ok m1 /\ to_joint exactd q t act jnt m1 = Ok m2 /\
     Forall (fun a => same (m2 a) (m a)) lj /\ unchanged_outside exactd (la ++ lj) m m2).
Proof.
  intros ar jr off t q act jnt la lj m HM HR HB HW.
  assert (HC : constructed exactd t) by (right; right; eauto).
  assert (HR' : Forall rational (parameters exactd t)).
  { unfold make_four_bar in HM. destruct (negb _ || _ || _)%bool; [discriminate|].
    destruct (zero_reduction exactd ar jr); [discriminate|]. injection HM as <-. exact HR. }
  split; [apply round_trip | apply round_trip']; assumption.
Qed.
Print Assumptions C62_four_bar_inverse.

Example C62_four_bar_inverse_nonvacuous :
  make_four_bar exactd [n_ 50; n_ (-20)] [n_ 2; n_ 3] [n_ 1; n_ (-1)] = Some t_four /\
  wired exactd t_four Effort act2 jnt2 [2; 12] [7; 17] /\
  match to_joint exactd Effort t_four act2 jnt2 m_ with
  | Ok m1 => same (m1 7) (n_ 500) /\ same (m1 17) (n_ (-10200)) /\
      match to_actuator exactd Effort t_four jnt2 act2 (upd exactd (upd exactd m1 2 None) 12 None) with
      | Ok m2 => same (m2 2) (m_ 2) /\ same (m2 12) (m_ 12) | _ => False end
  | _ => False end.
Proof. split; [reflexivity|]. split; [wires|]. cbn. repeat split; reflexivity. Qed.

(** ** C63: power is conserved by simple and differential transmissions, not by four-bar linkages *)

Theorem C63_power_conserved : forall t act jnt lae lje lav ljv m,
  constructed exactd t -> Forall rational (parameters exactd t) -> ~ four_bar t ->
  wired exactd t Effort act jnt lae lje -> wired exactd t Velocity act jnt lav ljv ->
  NoDup (lae ++ lje ++ lav ++ ljv) ->
  (Forall (fun a => rational (m a)) (lae ++ lav) ->
   exists m1 m2, to_joint exactd Effort t act jnt m = Ok m1 /\ to_joint exactd Velocity t act jnt m1 = Ok m2 /\
     same (power m2 lje ljv) (power m lae lav)) /\
  (Forall (fun a => rational (m a)) (lje ++ ljv) ->
   exists m1 m2, to_actuator exactd Effort t jnt act m = Ok m1 /\ to_actuator exactd Velocity t jnt act m1 = Ok m2 /\
     same (power m2 lae lav) (power m lje ljv)).
Proof. exact power_conserved. Qed.
Print Assumptions C63_power_conserved.

(** The difference for a four-bar linkage: joint power is actuator power plus [surplus]. *)
Theorem C63_power_four_bar : forall t act jnt lae lje lav ljv m,
  constructed exactd t -> Forall rational (parameters exactd t) ->
  wired exactd t Effort act jnt lae lje -> wired exactd t Velocity act jnt lav ljv ->
  NoDup (lae ++ lje ++ lav ++ ljv) -> Forall (fun a => rational (m a)) (lae ++ lav) ->
  exists m1 m2 e v, to_joint exactd Effort t act jnt m = Ok m1 /\ to_joint exactd Velocity t act jnt m1 = Ok m2 /\
    map m lae = map Some e /\ map m lav = map Some v /\
    same (power m2 lje ljv) (lift2 Qplus (power m lae lav) (Some (surplus t e v))).
Proof. exact power_four_bar. Qed.
Print Assumptions C63_power_four_bar.

Example C63_power_conserved_nonvacuous :
  constructed exactd (t_diff false) /\ wired exactd (t_diff false) Effort act2 jnt2 [2; 12] [7; 17] /\
  wired exactd (t_diff false) Velocity act2 jnt2 [1; 11] [6; 16] /\ NoDup ([2; 12] ++ [7; 17] ++ [1; 11] ++ [6; 16]) /\
  same (power m_ [2; 12] [1; 11]) (n_ (5 * 2 + 145 * 122)).
Proof. split; [right; left; now exists [n_ 50; n_ (-20)], [n_ 2; n_ 3], [n_ 1; n_ (-1)], false|]. split; [wires|]. split; [wires|]. split; [nodup|reflexivity]. Qed.

(** Equal reductions of one, no offsets, the same effort and velocity on both actuators:
    twice as much power goes in as comes out. *)
Theorem C63_power_four_bar_refuted : exists t m m1 m2,
  make_four_bar exactd [n_ 1; n_ 1] [n_ 1; n_ 1] [n_ 0; n_ 0] = Some t /\
  to_joint exactd Effort t act2 jnt2 m = Ok m1 /\ to_joint exactd Velocity t act2 jnt2 m1 = Ok m2 /\
  same (power m [2; 12] [1; 11]) (n_ 2) /\ same (power m2 [7; 17] [6; 16]) (n_ 1).
Proof.
  exists (FourBar exactd [n_ 1; n_ 1] [n_ 1; n_ 1] [n_ 0; n_ 0]), (fun _ => n_ 1).
  eexists. eexists. repeat split; reflexivity.
Qed.
Print Assumptions C63_power_four_bar_refuted.

(** ** C64: the velocity maps are the linear part of the position maps *)

Theorem C64_position_velocity : forall t act jnt lpa lpj lva lvj m m' dt,
  constructed exactd t -> Forall rational (parameters exactd t) ->
  wired exactd t Position act jnt lpa lpj -> wired exactd t Velocity act jnt lva lvj ->
  (Forall (fun a => rational (m a)) (lpa ++ lva) -> moved dt m m' lpa lva ->
   exists n n' k, to_joint exactd Position t act jnt m = Ok n /\ to_joint exactd Position t act jnt m' = Ok n' /\
     to_joint exactd Velocity t act jnt m = Ok k /\
     Forall2 (fun p v => same (n' p) (lift2 Qplus (n p) (lift2 Qmult (k v) (Some dt)))) lpj lvj) /\
  (Forall (fun a => rational (m a)) (lpj ++ lvj) -> moved dt m m' lpj lvj ->
   exists n n' k, to_actuator exactd Position t jnt act m = Ok n /\ to_actuator exactd Position t jnt act m' = Ok n' /\
     to_actuator exactd Velocity t jnt act m = Ok k /\
     Forall2 (fun p v => same (n' p) (lift2 Qplus (n p) (lift2 Qmult (k v) (Some dt)))) lpa lva).
Proof. intros; split; intros; [eapply joint_moves | eapply actuator_moves]; eauto. Qed.
Print Assumptions C64_position_velocity.

Example C64_position_velocity_nonvacuous :
  let m' := upd exactd (upd exactd m_ 0 (Some (1 + 2 * (1 # 2))%Q)) 10 (Some (101 + 122 * (1 # 2))%Q) in
  wired exactd t_four Position act2 jnt2 [0; 10] [5; 15] /\ wired exactd t_four Velocity act2 jnt2 [1; 11] [6; 16] /\
  moved (1 # 2) m_ m' [0; 10] [1; 11] /\
  match to_joint exactd Position t_four act2 jnt2 m_, to_joint exactd Position t_four act2 jnt2 m' with
  | Ok n, Ok n' => ~ same (n' 5) (n 5) /\ ~ same (n' 15) (n 15) | _, _ => False end.
Proof.
  cbv zeta. split; [wires|]. split; [wires|]. split; [repeat constructor|]. cbn. split; discriminate.
Qed.

(** ** C65: constructed transmissions do not divide by zero *)

(** What the constructors accept. *)
Theorem C65_constructors : forall A,
  (forall r o, make_simple A r o <> None <-> is_zero A r = false) /\
  (forall ar jr off ign, make_differential A ar jr off ign <> None <-> two_each A ar jr off) /\
  (forall ar jr off, make_four_bar A ar jr off <> None <-> two_each A ar jr off).
Proof.
  intros A. split; [exact (make_simple_iff A)|]. split; [exact (make_differential_iff A) | exact (make_four_bar_iff A)].
Qed.
Print Assumptions C65_constructors.

(** For rationals, whatever data is passed: no division by zero, and no invalid access
    except in a differential's map of absolute positions (see C82). *)
Theorem C65_no_division_by_zero : forall t q act jnt m,
  constructed exactd t ->
  to_joint exactd q t act jnt m <> DivZero /\
  (to_joint exactd q t act jnt m = Invalid -> q = AbsolutePosition /\ exists ar jr off ign, t = Differential exactd ar jr off ign) /\
  (both_ways q -> (exists m', to_actuator exactd q t jnt act m = Ok m') \/ to_actuator exactd q t jnt act m = Assertion).
Proof.
  intros t q act jnt m HC. apply constructed_params in HC. pose proof (exact_no_underflow t HC) as HU.
  destruct (a2j_outcome exactd t q act jnt m exact_doubling HC HU) as [H1 H2].
  repeat split; auto; try (now apply H2). intros HB. now apply j2a_outcome; auto using exact_doubling.
Qed.
Print Assumptions C65_no_division_by_zero.

(** For doubles the same if the product of the first reductions of a four-bar linkage is not
    rounded to zero; NaN and infinite parameters included. *)
Theorem C65_no_division_by_zero_double : forall t q act jnt m,
  constructed doubled t -> no_underflow doubled t ->
  to_joint doubled q t act jnt m <> DivZero /\
  (to_joint doubled q t act jnt m = Invalid -> q = AbsolutePosition /\ exists ar jr off ign, t = Differential doubled ar jr off ign) /\
  (both_ways q -> (exists m', to_actuator doubled q t jnt act m = Ok m') \/ to_actuator doubled q t jnt act m = Assertion).
Proof.
  intros t q act jnt m HC HU. apply constructed_params in HC.
  destruct (a2j_outcome doubled t q act jnt m doubled_doubling HC HU) as [H1 H2].
  repeat split; auto; try (now apply H2). intros HB. now apply j2a_outcome; auto using doubled_doubling.
Qed.
Print Assumptions C65_no_division_by_zero_double.

Local Notation flt s m e :=
  (@B754_finite 53 1024 s m e (eq_refl : SpecFloat.bounded 53 1024 m e = true)).
(** One; and 2 to the power of -600, about 2.4e-181. *)
Definition u1 : num doubled := flt false 4503599627370496 (-52).
Definition tiny600 : num doubled := flt false 4503599627370496 (-652).
Definition z0 : num doubled := B754_zero false.

Example C65_no_division_by_zero_double_nonvacuous :
  (exists t, make_differential doubled [u1; u1] [tiny600; u1] [z0; z0] false = Some t /\ constructed doubled t /\ no_underflow doubled t) /\
  (exists t, make_four_bar doubled [u1; u1] [tiny600; u1] [z0; z0] = Some t /\ constructed doubled t /\ no_underflow doubled t).
Proof.
  split; (eexists; split; [reflexivity|]; split).
  - right; left. now exists [u1; u1], [tiny600; u1], [z0; z0], false.
  - exact I.
  - right; right. now exists [u1; u1], [tiny600; u1], [z0; z0].
  - split; reflexivity.
Qed.

(** A four-bar linkage that could be constructed and divides by zero at its first velocity. *)
Theorem C65_four_bar_double_refuted : exists t,
  make_four_bar doubled [tiny600; u1] [tiny600; u1] [z0; z0] = Some t /\
  to_joint doubled Velocity t act2 jnt2 (fun _ => u1) = DivZero /\
  to_joint doubled Position t act2 jnt2 (fun _ => u1) = DivZero /\
  to_actuator doubled Effort t jnt2 act2 (fun _ => u1) = DivZero.
Proof. eexists. repeat split; reflexivity. Qed.
Print Assumptions C65_four_bar_double_refuted.

(** ** C66: what happens when a constructed handle is propagated *)

(** Either the vectors needed are there and [propagate] ends normally, or the first thing that
    goes wrong is a failing assertion (in both directions: never an invalid access or a
    division by zero).  Variables may coincide. *)
Theorem C66_propagate_outcome : forall A name tr act jnt h k m,
  doubling A -> make_handle A name tr act jnt = Some h ->
  constructed A (h_trans A h) -> no_underflow A (h_trans A h) ->
  (needed A k h -> exists m', propagate A k h m = Ok m') /\
  (~ needed A k h -> propagate A k h m = Assertion).
Proof.
  intros A name tr act jnt h k m HD HM HC HU. apply constructed_params in HC.
  split; intros HN; [eapply propagate_total | eapply propagate_missing]; eauto.
Qed.
Print Assumptions C66_propagate_outcome.

Example C66_propagate_outcome_nonvacuous :
  exists h, make_handle exactd "d" (Some (t_diff true)) act2 jnt2 = Some h /\
    needed exactd ActToJntState h /\ constructed exactd (h_trans exactd h) /\ no_underflow exactd (h_trans exactd h) /\
    quantities exactd ActToJntState h = [Position; Velocity; Effort; AbsolutePosition; TorqueSensor].
Proof.
  eexists. split; [reflexivity|]. split; [|split; [|split; [exact I | reflexivity]]].
  - split; [|reflexivity]. intros q _. destruct q; split; discriminate.
  - right; left. now exists [n_ 50; n_ (-20)], [n_ 2; n_ 3], [n_ 1; n_ (-1)], true.
Qed.

(** Handles that could be constructed and fail an assertion: the required effort vectors are
    missing; three torque sensors for two actuators; absolute positions on the actuator
    side only. *)
Theorem C66_propagate_refuted :
  (exists h, make_handle exactd "d" (Some (t_diff true))
     (mkData [Some 0; Some 10] [Some 1; Some 11] [] [] []) (mkData [Some 5; Some 15] [Some 6; Some 16] [] [] []) = Some h /\
     propagate exactd ActToJntState h m_ = Assertion /\ propagate exactd JntToActEffort h m_ = Assertion /\
     exists m', propagate exactd ActToJntVelocity h m_ = Ok m') /\
  (exists h, make_handle exactd "d" (Some (t_diff true))
     (mkData [Some 0; Some 10] [Some 1; Some 11] [Some 2; Some 12] [] [Some 3; Some 4; Some 14]) jnt2 = Some h /\
     propagate exactd ActToJntState h m_ = Assertion) /\
  (exists h, make_handle exactd "d" (Some (t_diff true)) act2
     (mkData [Some 5; Some 15] [Some 6; Some 16] [Some 7; Some 17] [] []) = Some h /\
     propagate exactd ActToJntState h m_ = Assertion).
Proof.
  split; [|split]; eexists; (split; [reflexivity|]); try reflexivity.
  split; [reflexivity|]. split; [reflexivity|]. eexists. reflexivity.
Qed.
Print Assumptions C66_propagate_refuted.

(** ** C67: propagation writes the target side only *)

Theorem C67_propagate_frame : forall A name tr act jnt h k m,
  doubling A -> make_handle A name tr act jnt = Some h ->
  constructed A (h_trans A h) -> no_underflow A (h_trans A h) -> needed A k h -> separate A k h ->
  exists m', propagate A k h m = Ok m' /\ unchanged_outside A (targets A k h) m m' /\
    (forall q m1, In q (quantities A k h) -> single_map A k h q m = Ok m1 ->
       map m' (addrs (side q (target_data A k h))) = map m1 (addrs (side q (target_data A k h)))) /\
    (forall n, map n (sources A k h) = map m (sources A k h) ->
       exists n', propagate A k h n = Ok n' /\ map n' (targets A k h) = map m' (targets A k h)).
Proof. exact propagate_frame. Qed.
Print Assumptions C67_propagate_frame.

(** All handles of an interface: each contributes what it computes on its own from the values
    before the call, and nothing else changes. *)
Theorem C67_interface_frame : forall A k i m,
  doubling A ->
  (forall h, In h (map snd i) -> constructed A (h_trans A h) /\ no_underflow A (h_trans A h) /\
     (exists name tr act jnt, make_handle A name tr act jnt = Some h) /\ needed A k h) ->
  all_separate A k (map snd i) ->
  exists m', propagate_all A k i m = Ok m' /\
    unchanged_outside A (flat_map (targets A k) (map snd i)) m m' /\
    forall h m1, In h (map snd i) -> propagate A k h m = Ok m1 -> map m' (targets A k h) = map m1 (targets A k h).
Proof.
  intros A k i m HD HH HS. apply interface_writer; auto. intros h Hh. destruct (HH h Hh) as (HC & HR).
  split; [now apply constructed_params | exact HR].
Qed.
Print Assumptions C67_interface_frame.

(** The handles of an interface are the ones registered last under each name, in the order of their names. *)
Theorem C67_registered (A : darith) (regs : list (handle A)) :
  let i := fold_left (fun m h => register_handle A h m) regs [] in
  Sorted.StronglySorted slt (skeys i) /\
  forall n h, In (n, h) i <-> find (fun h => String.eqb (h_name A h) n) (rev regs) = Some h.
Proof.
  cbv zeta. unfold register_handle. destruct (fold_sset (h_name A) (fun h => h) regs [] "" sset_nil_sorted) as [S _]. split; [exact S|].
  intros n h. rewrite <- (sfind_in n h _ S). destruct (fold_sset (h_name A) (fun h => h) regs [] n sset_nil_sorted) as [_ E]. cbv zeta in E. rewrite E.
  destruct (find _ _); reflexivity.
Qed.
Print Assumptions C67_registered.

(** The two-joint differential of above next to a simple transmission with its own variables. *)
Definition act_s : data := mkData [Some 20] [Some 21] [Some 22] [] [].
Definition jnt_s : data := mkData [Some 25] [Some 26] [Some 27] [] [].
Definition h_d : handle exactd := mkHandle exactd "d" (t_diff false) act2 jnt2.
Definition h_s : handle exactd := mkHandle exactd "s" t_simple act_s jnt_s.
Example C67_registered_nonvacuous :
  let h_s' := mkHandle exactd "s" (t_diff false) act2 jnt2 in
  fold_left (fun m h => register_handle exactd h m) [h_s; h_d; h_s'] [] = [("d", h_d); ("s", h_s')].
Proof. reflexivity. Qed.
Example C67_interface_frame_nonvacuous :
  make_handle exactd "d" (Some (t_diff false)) act2 jnt2 = Some h_d /\
  make_handle exactd "s" (Some t_simple) act_s jnt_s = Some h_s /\
  map snd (register_handle exactd h_s (register_handle exactd h_d [])) = [h_d; h_s] /\
  all_separate exactd ActToJntState [h_d; h_s] /\
  needed exactd ActToJntState h_d /\ needed exactd ActToJntState h_s /\
  match propagate_all exactd ActToJntState (register_handle exactd h_s (register_handle exactd h_d [])) m_ with
  | Ok m' => same (m' 15) (Some (-31 # 200)) /\ same (m' 27) (n_ (-24250)) /\ same (m' 9) (n_ (-6180))
  | _ => False end.
Proof.
  split; [reflexivity|]. split; [reflexivity|]. split; [reflexivity|]. split; [|split; [|split]].
  - split; [cbn; nodup|]. apply all_out. reflexivity.
  - split; [|reflexivity]. intros q _. destruct q; split; discriminate.
  - split; [|cbn; intuition discriminate]. intros q Hq. cbn in Hq.
      destruct Hq as [<- | [<- | [<- | []]]]; split; discriminate.
  - vm_compute. repeat split; reflexivity.
Qed.

(** Sharing a variable between the two sides breaks the claim: the second joint position is
    computed from the overwritten first actuator position. *)
Example C67_sharing_matters :
  let jnt := mkData [Some 0; Some 15] [] [] [] [] in
  match to_joint exactd Position (t_diff false) act2 jnt m_, to_joint exactd Position (t_diff false) act2 jnt2 m_ with
  | Ok m1, Ok m2 => ~ same (m1 15) (m2 15) | _, _ => False end.
Proof. cbn. discriminate. Qed.

(** ** C82: a map only needs its own vectors *)

Theorem C82_own_vectors : forall A t q act jnt act' jnt' m,
  side q act = side q act' -> side q jnt = side q jnt' ->
  ((q = AbsolutePosition -> forall ar jr off ign, t <> Differential A ar jr off ign) ->
   to_joint A q t act jnt m = to_joint A q t act' jnt' m) /\
  (both_ways q -> to_actuator A q t jnt act m = to_actuator A q t jnt' act' m).
Proof. intros; split; intros; [now apply a2j_own | now apply j2a_own]. Qed.
Print Assumptions C82_own_vectors.

Example C82_own_vectors_nonvacuous :
  let act := mkData [] [Some 1; Some 11] [None] [] [] in
  side Velocity act = side Velocity act2 /\
  exists m', to_joint exactd Velocity (t_diff false) act jnt2 m_ = Ok m' /\ ~ same (m' 6) (m_ 6).
Proof. cbv zeta. split; [reflexivity|]. eexists. split; [reflexivity|]. discriminate. Qed.

(** Absolute positions through a differential: without position vector there is an access
    outside a vector, and a null absolute position passes the assertions. *)
Theorem C82_differential_absolute_refuted :
  (exists act jnt, side AbsolutePosition act = [Some 3; Some 13] /\ side AbsolutePosition jnt = [Some 8; Some 18] /\
     to_joint exactd AbsolutePosition (t_diff false) act jnt m_ = Invalid) /\
  (exists act jnt, side AbsolutePosition act = [None; Some 13] /\ side AbsolutePosition jnt = [Some 8; Some 18] /\
     to_joint exactd AbsolutePosition (t_diff false) act jnt m_ = Invalid).
Proof.
  split; [exists (mkData [] [] [] [Some 3; Some 13] []) | exists (mkData [Some 0; Some 10] [] [] [None; Some 13] [])];
    exists (mkData [] [] [] [Some 8; Some 18] []); repeat split; reflexivity.
Qed.
Print Assumptions C82_differential_absolute_refuted.

(** ** C83: the maps compute the documented formulas *)

Theorem C83_joint_formulas : forall t q act jnt la lj m xs,
  constructed exactd t -> Forall rational (parameters exactd t) -> wired exactd t q act jnt la lj ->
  (q = AbsolutePosition -> exists p v, side Position act = Some p :: v) ->
  map m la = map Some xs ->
  exists m' ys, to_joint exactd q t act jnt m = Ok m' /\ unchanged_outside exactd lj m m' /\
    map m' lj = map Some ys /\ joint_formula t q xs ys.
Proof.
  intros t q act jnt la lj m xs HC HR HW HX HM. apply wired_linked in HW as (HL & NA & NJ & D & D').
  apply (joint_values t q act jnt la lj m xs); auto using constructed_params.
  destruct t, q; cbn; auto.
Qed.
Print Assumptions C83_joint_formulas.

Theorem C83_actuator_formulas : forall t q act jnt la lj m ys,
  constructed exactd t -> Forall rational (parameters exactd t) -> both_ways q -> wired exactd t q act jnt la lj ->
  map m lj = map Some ys ->
  exists m' xs, to_actuator exactd q t jnt act m = Ok m' /\ unchanged_outside exactd la m m' /\
    map m' la = map Some xs /\ actuator_formula t q ys xs.
Proof.
  intros t q act jnt la lj m ys HC HR HB HW HM. apply wired_linked in HW as (HL & NA & NJ & D & D').
  apply (actuator_values t q act jnt la lj m ys); auto using constructed_params.
Qed.
Print Assumptions C83_actuator_formulas.

Example C83_formulas_nonvacuous :
  (forall q, exists la lj, wired exactd (t_diff false) q act2 jnt2 la lj /\ exists xs, map m_ la = map Some xs) /\
  joint_formula (t_diff false) TorqueSensor [1; 2]%Q [20; 270]%Q /\
  ~ joint_formula (t_diff false) TorqueSensor [1; 2]%Q [20; 30]%Q.
Proof.
  split; [|split].
  - intros q. destruct q.
    + exists [0; 10], [5; 15]. split; [wires|]. now exists [inject_Z 1; inject_Z 101].
    + exists [1; 11], [6; 16]. split; [wires|]. now exists [inject_Z 2; inject_Z 122].
    + exists [2; 12], [7; 17]. split; [wires|]. now exists [inject_Z 5; inject_Z 145].
    + exists [3; 13], [8; 18]. split; [wires|]. now exists [inject_Z 10; inject_Z 170].
    + exists [4; 14], [9; 19]. split; [wires|]. now exists [inject_Z 17; inject_Z 197].
  - cbn. split; reflexivity.
  - cbn. intros [_ H]. discriminate H.
Qed.

(** ** C84: rounding in a simple transmission *)

(** With doubles, a velocity or an effort that goes to the other side and back changes by at most
    three units of 2^-53 relative to itself, if neither it nor the value on the other side over-
    or underflows. *)
Theorem C84_simple_round_trip_double : forall r o t q act jnt a j (m : mem doubled),
  make_simple doubled r o = Some t -> is_finite r = true ->
  side q act = [Some a] -> side q jnt = [Some j] -> a <> j ->
  (is_finite (m a) = true -> (bpow radix2 (-1021) <= Rabs (B2R (m a)) <= bpow radix2 1022)%R ->
   match q with
   | Velocity => in_range (B2R (m a) / B2R r)
   | Effort => in_range (B2R (m a) * B2R r)
   | _ => False
   end ->
   exists m1 m2, to_joint doubled q t act jnt m = Ok m1 /\ to_actuator doubled q t jnt act m1 = Ok m2 /\
     is_finite (m2 a) = true /\ (Rabs (B2R (m2 a) - B2R (m a)) <= 3 * bpow radix2 (-53) * Rabs (B2R (m a)))%R) /\
  (is_finite (m j) = true -> (bpow radix2 (-1021) <= Rabs (B2R (m j)) <= bpow radix2 1022)%R ->
   match q with
   | Velocity => in_range (B2R (m j) * B2R r)
   | Effort => in_range (B2R (m j) / B2R r)
   | _ => False
   end ->
   exists m1 m2, to_actuator doubled q t jnt act m = Ok m1 /\ to_joint doubled q t act jnt m1 = Ok m2 /\
     is_finite (m2 j) = true /\ (Rabs (B2R (m2 j) - B2R (m j)) <= 3 * bpow radix2 (-53) * Rabs (B2R (m j)))%R).
Proof. intros; split; intros; [eapply simple_there | eapply simple_back]; eauto. Qed.
Print Assumptions C84_simple_round_trip_double.

(** Three; a third of one is not a double. *)
Definition u3 : num doubled := flt false 6755399441055744 (-51).
Example C84_simple_round_trip_double_nonvacuous :
  (exists t, make_simple doubled u3 z0 = Some t) /\ is_finite u3 = true /\
  in_range (B2R u1 / B2R u3) /\ (bpow radix2 (-1021) <= Rabs (B2R u1) <= bpow radix2 1022)%R.
Proof. exact simple_example. Qed.

(** The round trip is not exact: an underflowing middle value loses everything. *)
Theorem C84_underflow_refuted : exists t m1 m2,
  make_simple doubled tiny600 z0 = Some t /\
  to_joint doubled Effort t act1 jnt1 (fun _ => tiny600) = Ok m1 /\ to_actuator doubled Effort t jnt1 act1 m1 = Ok m2 /\
  is_zero doubled (m2 2) = true.
Proof. eexists. eexists. eexists. repeat split; reflexivity. Qed.
Print Assumptions C84_underflow_refuted.
