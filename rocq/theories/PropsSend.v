(** The limits hold at the actuators also when velocities or efforts are commanded. *)
From Coq Require Import List String QArith Lqa.
From Verif Require Import LimModel LimLaws LimSpec LimExact LimProofs LimRest LimNearSpec LimNear TransModel TransSpec TransProofs PropsTrans
  LoopModel LoopSpec LoopProofs PropsLoop SendSpec SendProofs.
Import ListNotations.
Local Open Scope string_scope.
Local Open Scope nat_scope.

(** ** C135: velocity and effort limits hold at the actuators *)

Lemma numeric_rational (x : num exact) : numeric x -> rational x.
Proof. destruct x; [discriminate|]. intros K. discriminate K. Qed.
Lemma rational_numeric (x : num exact) : rational x -> numeric x.
Proof. destruct x; [reflexivity|]. intros K. now elim K. Qed.
Lemma bounded_rational (m w : num exact) : bounded m w -> rational w.
Proof. intros [_ (H & _)]. now apply numeric_rational. Qed.

Lemma soft_gains (s : soft_limits exact) : soft_ok rational s -> gains_ok rational s.
Proof. intros (H1 & H2 & _ & H3 & H4). repeat split; auto; apply H3 || apply H4. Qed.

(** A period as the velocity limiter asserts it. *)
Definition positive (dt : num exact) : Prop := rational dt /\ lt (zero exact) dt.

(** With VelocityJointSaturationHandles. *)
Theorem C135_velocity : forall (L : nat -> limits exact) r i,
  wired_for JntToActVelocity r -> each_limited JntToActVelocity Velocity r i ->
  (forall nm h, In (nm, h) i -> vel_sat_make (L (lh_joint h)) = Some (lh_state h) /\ vel_limits_ok rational (L (lh_joint h))) ->
  commands_limited vel_sat_enforce (fun _ _ => True) positive JntToActVelocity Velocity r i
    (fun n before j dt w =>
       bounded (max_velocity (L n)) w /\
       (has_acceleration_limits (L n) = true -> near (mul exact (max_acceleration (L n)) dt) before w) /\
       (bounded (max_velocity (L n)) (j_cmd j) ->
        (has_acceleration_limits (L n) = true -> near (mul exact (max_acceleration (L n)) dt) before (j_cmd j)) ->
        w = j_cmd j)).
Proof.
  intros L r i W AL HL.
  apply writes_limited with (inv := fun n p h => vel_limits_ok rational (L n) /\ vs_inv (L n) h /\ vs_prev h = p); auto.
  - right. left. auto.
  - intros n p h j dt (HO & HV & <-) [R P] Rc _.
    destruct (vs_step exact_laws (L n) h j dt HO HV) as (h' & j' & Ee & HV' & Ep & Hn & Ht).
    { split; [now apply rational_numeric | split; assumption]. }
    exists h', j'. split; [exact Ee|].
    assert (B : bounded (max_velocity (L n)) (j_cmd j')) by (rewrite <- Ep; apply HV').
    split; [auto|]. split; [now apply bounded_rational with (max_velocity (L n))|]. auto.
  - intros nm h Hi. destruct (HL nm h Hi) as [Em HO]. split; [exact HO|].
    unfold vel_sat_make in Em. rewrite (proj1 HO) in Em. injection Em as <-.
    split; [|reflexivity]. split; [reflexivity|]. destruct HO as (_ & (_ & P) & _).
    split; [exact (opp_nonpos exact_laws _ P) | exact P].
Qed.
Print Assumptions C135_velocity.

(** With VelocityJointSoftLimitsHandles: near a soft position limit the velocity towards it is small, beyond it the
    joint is sent back. *)
Theorem C135_velocity_soft : forall (L : nat -> limits exact) (S : nat -> soft_limits exact) r i,
  wired_for JntToActVelocity r -> each_limited JntToActVelocity Velocity r i ->
  (forall nm h, In (nm, h) i -> let l := L (lh_joint h) in let s := S (lh_joint h) in
     lh_state h = vel_soft_make l s /\ has_velocity_limits l = true /\ bound_ok rational (max_velocity l) /\
     soft_ok rational s /\ (has_acceleration_limits l = true -> bound_ok rational (max_acceleration l))) ->
  commands_limited (fun h j dt => Some (h, vel_soft_enforce h j dt))
    (fun n j => rational (j_pos j) /\ (has_acceleration_limits (L n) = true -> bounded (max_velocity (L n)) (j_vel j)))
    (period_ok rational) JntToActVelocity Velocity r i
    (fun n _ j dt w =>
       bounded (max_velocity (L n)) w /\
       (has_position_limits (L n) = true ->
        le w (opp exact (mul exact (k_position (S n)) (sub exact (j_pos j) (soft_max (S n))))) \/
        le w (opp exact (max_velocity (L n)))) /\
       (has_position_limits (L n) = true -> has_acceleration_limits (L n) = false ->
        le (opp exact (mul exact (k_position (S n)) (sub exact (j_pos j) (soft_min (S n))))) w \/
        le (max_velocity (L n)) w) /\
       (has_acceleration_limits (L n) = true -> le w (add exact (j_vel j) (mul exact (max_acceleration (L n)) dt))) /\
       exists lo hi, soft_velocity_window (L n) (S n) j dt lo hi /\ nearest lo hi (j_cmd j) w).
Proof.
  intros L S r i W AL HL.
  apply writes_limited with (inv := fun n p h => h = vel_soft_make (L n) (S n) /\ has_velocity_limits (L n) = true /\
    bound_ok rational (max_velocity (L n)) /\ soft_ok rational (S n) /\
    (has_acceleration_limits (L n) = true -> bound_ok rational (max_acceleration (L n)))); auto.
  - right. left. auto.
  - intros n p h j dt (-> & HV & HB & HS & HA) Hdt Rc [Rp Hj].
    assert (Emax : vf_max (vel_soft_make (L n) (S n)) = max_velocity (L n)) by (unfold vel_soft_make; cbn; now rewrite HV).
    exists (vel_soft_make (L n) (S n)), (vel_soft_enforce (vel_soft_make (L n) (S n)) j dt). split; [reflexivity|].
    split; [auto|].
    pose proof (vel_soft_spec exact_laws (L n) (vel_soft_make (L n) (S n)) j dt) as K. cbv zeta in K. rewrite Emax in K.
    destruct K as (K1 & K2 & K3 & K4); auto.
    { split; [reflexivity|]. rewrite Emax. auto. }
    { now apply rational_numeric. }
    destruct (vel_soft_limited exact_laws (L n) (S n) j dt (soft_gains _ HS)) as (lo & hi & K5 & _ & _ & K6); auto.
    { intros Ha. split; [now apply HA|]. split; [|exact Hdt]. now apply bounded_rational with (max_velocity (L n)), Hj. }
    { now apply rational_numeric. }
    split; [now apply bounded_rational with (max_velocity (L n))|].
    split; [exact K1|]. split; [exact K2|]. split; [exact K3|]. split; [exact K4|]. now exists lo, hi.
Qed.
Print Assumptions C135_velocity_soft.

(** With EffortJointSaturationHandles: a joint outside its position or velocity limits is not pushed further. *)
Theorem C135_effort : forall (L : nat -> limits exact) r i,
  wired_for JntToActEffort r -> each_limited JntToActEffort Effort r i ->
  (forall nm h, In (nm, h) i -> let l := L (lh_joint h) in eff_sat_make l = Some (lh_state h) /\
     eff_limits_ok rational l /\ (has_position_limits l = true -> le (min_position l) (max_position l))) ->
  commands_limited (fun h j dt => Some (h, eff_sat_enforce h j dt)) (fun _ _ => True) (fun _ => True) JntToActEffort Effort r i
    (fun n _ j _ w =>
       bounded (max_effort (L n)) w /\
       (beyond_low (L n) j -> le (zero exact) w) /\ (beyond_high (L n) j -> le w (zero exact)) /\
       (bounded (max_effort (L n)) (j_cmd j) -> (beyond_low (L n) j -> le (zero exact) (j_cmd j)) ->
        (beyond_high (L n) j -> le (j_cmd j) (zero exact)) -> w = j_cmd j)).
Proof.
  intros L r i W AL HL.
  apply writes_limited with (inv := fun n p h => h = L n /\ eff_limits_ok rational (L n) /\
    (has_position_limits (L n) = true -> le (min_position (L n)) (max_position (L n)))); auto.
  - right. right. auto.
  - intros n p h j dt (-> & HO & HP) _ Rc _.
    exists (L n), (eff_sat_enforce (L n) j dt). split; [reflexivity|]. split; [auto|].
    pose proof (eff_sat_spec exact_laws (L n) j dt HO (rational_numeric _ Rc) HP) as K. cbv zeta in K.
    split; [now apply bounded_rational with (max_effort (L n))|]. exact K.
  - intros nm h Hi. destruct (HL nm h Hi) as (Em & HO & HP). unfold eff_sat_make in Em.
    rewrite (proj1 HO), (proj1 (proj2 HO)) in Em. cbn in Em. injection Em as <-. auto.
Qed.
Print Assumptions C135_effort.

(** With EffortJointSoftLimitsHandles: a joint too fast, or too far beyond a soft limit, is not pushed further. *)
Theorem C135_effort_soft : forall (L : nat -> limits exact) (S : nat -> soft_limits exact) r i,
  wired_for JntToActEffort r -> each_limited JntToActEffort Effort r i ->
  (forall nm h, In (nm, h) i -> let l := L (lh_joint h) in let s := S (lh_joint h) in
     eff_soft_make l s = Some (lh_state h) /\ eff_soft_limits_ok rational l /\ soft_ok rational s) ->
  commands_limited (fun h j dt => Some (h, eff_soft_enforce h j dt))
    (fun _ j => rational (j_pos j) /\ rational (j_vel j)) (fun _ => True) JntToActEffort Effort r i
    (fun n _ j _ w =>
       bounded (max_effort (L n)) w /\
       (has_position_limits (L n) = true ->
        le (max_velocity (L n)) (mul exact (k_position (S n)) (sub exact (j_pos j) (soft_max (S n)))) ->
        le (opp exact (max_velocity (L n))) (j_vel j) -> le w (zero exact)) /\
       (has_position_limits (L n) = true ->
        le (max_velocity (L n)) (opp exact (mul exact (k_position (S n)) (sub exact (j_pos j) (soft_min (S n))))) ->
        le (j_vel j) (max_velocity (L n)) -> le (zero exact) w) /\
       (le (max_velocity (L n)) (j_vel j) -> le w (zero exact)) /\
       (le (j_vel j) (opp exact (max_velocity (L n))) -> le (zero exact) w) /\
       exists lo hi, soft_effort_window (L n) (S n) j lo hi /\ nearest lo hi (j_cmd j) w).
Proof.
  intros L S r i W AL HL.
  apply writes_limited with (inv := fun n p h => h = mkEffSoft (L n) (S n) /\ eff_soft_limits_ok rational (L n) /\
    soft_ok rational (S n)); auto.
  - right. right. auto.
  - intros n p h j dt (-> & HO & HS) _ Rc [Rp Rv].
    exists (mkEffSoft (L n) (S n)), (eff_soft_enforce (mkEffSoft (L n) (S n)) j dt). split; [reflexivity|]. split; [auto|].
    pose proof (eff_soft_spec exact_laws (L n) (S n) j dt HO HS Rp Rv (rational_numeric _ Rc)) as K. cbv zeta in K.
    destruct K as (K1 & K2 & K3 & K4 & K5). pose proof HO as (V1 & V2 & V3 & V4).
    assert (Em : eff_soft_make (L n) (S n) = Some (mkEffSoft (L n) (S n))) by (unfold eff_soft_make; now rewrite V1, V2).
    destruct (eff_soft_limited exact_laws (L n) (S n) _ j dt Em (soft_gains _ HS) V3 V4 Rp Rv (rational_numeric _ Rc))
      as (lo & hi & K6 & _ & _ & K7).
    split; [now apply bounded_rational with (max_effort (L n))|].
    split; [exact K1|]. split; [exact K2|]. split; [exact K3|]. split; [exact K4|]. split; [exact K5|]. now exists lo, hi.
  - intros nm h Hi. destruct (HL nm h Hi) as (Em & HO & HS). unfold eff_soft_make in Em.
    rewrite (proj1 HO), (proj1 (proj2 HO)) in Em. cbn in Em. injection Em as <-. auto.
Qed.
Print Assumptions C135_effort_soft.

(** The robot of PropsLoop.v with velocity commands (or effort commands) instead of position commands. *)
Definition vel_hc1 := mkHandle exactd "sim_trans" doc_simple
  (mkData [] [Some 9] [] [] []) (mkData [] [Some 29] [] [] []).
Definition vel_hc2 := mkHandle exactd "dif_trans" doc_diff
  (mkData [] [Some 10; Some 11] [] [] []) (mkData [] [Some 30; Some 31] [] [] []).
Definition vel_robot : robot exactd := mkRobot exactd (rb_state exactd doc_robot)
  (register_handle exactd vel_hc2 (register_handle exactd vel_hc1 []))
  (fun k => 20 + k) (fun k => 23 + k) (fun k => 29 + k).
Definition eff_hc1 := mkHandle exactd "sim_trans" doc_simple
  (mkData [] [] [Some 9] [] []) (mkData [] [] [Some 29] [] []).
Definition eff_hc2 := mkHandle exactd "dif_trans" doc_diff
  (mkData [] [] [Some 10; Some 11] [] []) (mkData [] [] [Some 30; Some 31] [] []).
Definition eff_robot : robot exactd := mkRobot exactd (rb_state exactd doc_robot)
  (register_handle exactd eff_hc2 (register_handle exactd eff_hc1 []))
  (fun k => 20 + k) (fun k => 23 + k) (fun k => 29 + k).
(** Between -1 and 2, at most 10 per second, 20 per second squared, effort at most 3. *)
Definition send_limits : limits exact :=
  @mkLimits exact (n_ (-1)) (n_ 2) (n_ 10) (n_ 20) (n_ 0) (n_ 3) true true true false true false.
Definition send_lims {H} (h : H) : lim_iface H := [("j0", mkLim h 0); ("j1", mkLim h 1); ("j2", mkLim h 2)].
Definition shown (m : mem exactd) (l : list addr) : list Q :=
  map (fun a => match m a with Some x => Qred x | None => 999%Q end) l.

Lemma vel_sends hc ks : sends vel_robot Velocity hc ks -> hc = vel_hc1 /\ ks = [0] \/ hc = vel_hc2 /\ ks = [1; 2].
Proof.
  intros [Hc Ej]. cbn in Hc. destruct Hc as [<- | [<- | []]]; cbn in Ej; [right | left]; (split; [reflexivity|]).
  - destruct ks as [|[|[|?]] [|[|[|[|?]]] [|? ?]]]; cbn in Ej; try discriminate Ej. reflexivity.
  - destruct ks as [|[|?] [|? ?]]; cbn in Ej; try discriminate Ej. reflexivity.
Qed.
Lemma eff_sends hc ks : sends eff_robot Effort hc ks -> hc = eff_hc1 /\ ks = [0] \/ hc = eff_hc2 /\ ks = [1; 2].
Proof.
  intros [Hc Ej]. cbn in Hc. destruct Hc as [<- | [<- | []]]; cbn in Ej; [right | left]; (split; [reflexivity|]).
  - destruct ks as [|[|[|?]] [|[|[|[|?]]] [|? ?]]]; cbn in Ej; try discriminate Ej. reflexivity.
  - destruct ks as [|[|?] [|? ?]]; cbn in Ej; try discriminate Ej. reflexivity.
Qed.

Lemma all_rational (l : list (num exact)) :
  forallb (fun x => match x with Some _ => true | None => false end) l = true -> Forall rational l.
Proof.
  intros Hq. apply Forall_forall. intros x Hx. rewrite forallb_forall in Hq. specialize (Hq x Hx). now destruct x.
Qed.

Lemma vel_wired : wired_for JntToActVelocity vel_robot.
Proof.
  destruct doc_made as (_ & _ & _ & _ & C1 & C2). split; [|split; [cbn; nodup | apply all_out; reflexivity]].
  intros h Hh. cbn in Hh. destruct Hh as [<- | [<- | []]]; (split; [|split; [apply all_rational; reflexivity|split]]).
  - right. left. eauto.
  - exists "dif_trans", (Some doc_diff), (h_act exactd vel_hc2), (h_jnt exactd vel_hc2). reflexivity.
  - split; [|cbn; intuition discriminate]. intros q Hq. cbn in Hq. destruct Hq as [<- | []]; split; discriminate.
  - left. eauto.
  - exists "sim_trans", (Some doc_simple), (h_act exactd vel_hc1), (h_jnt exactd vel_hc1). reflexivity.
  - split; [|cbn; intuition discriminate]. intros q Hq. cbn in Hq. destruct Hq as [<- | []]; split; discriminate.
Qed.
Lemma eff_wired : wired_for JntToActEffort eff_robot.
Proof.
  destruct doc_made as (_ & _ & _ & _ & C1 & C2). split; [|split; [cbn; nodup | apply all_out; reflexivity]].
  intros h Hh. cbn in Hh. destruct Hh as [<- | [<- | []]]; (split; [|split; [apply all_rational; reflexivity|split]]).
  - right. left. eauto.
  - exists "dif_trans", (Some doc_diff), (h_act exactd eff_hc2), (h_jnt exactd eff_hc2). reflexivity.
  - split; [|cbn; intuition discriminate]. intros q Hq. cbn in Hq. destruct Hq as [<- | []]; split; discriminate.
  - left. eauto.
  - exists "sim_trans", (Some doc_simple), (h_act exactd eff_hc1), (h_jnt exactd eff_hc1). reflexivity.
  - split; [|cbn; intuition discriminate]. intros q Hq. cbn in Hq. destruct Hq as [<- | []]; split; discriminate.
Qed.

Lemma send_covered {H} (s : H) n : In n [0; 1; 2] -> exists nm h, In (nm, h) (send_lims s) /\ lh_joint h = n.
Proof.
  intros [<- | [<- | [<- | []]]]; do 2 eexists; (split; [|shelve]);
    [left; reflexivity | right; left; reflexivity | right; right; left; reflexivity].
  Unshelve. all: reflexivity.
Qed.
Lemma vel_limited {H} (s : H) : each_limited JntToActVelocity Velocity vel_robot (send_lims s).
Proof.
  split; [cbn; nodup|]. split.
  - intros nm h Hi. cbn in Hi. destruct Hi as [K | [K | [K | []]]]; injection K as <- <-;
      (split; [|cbn; split; intuition discriminate]).
    + exists vel_hc1, [0]. split; [split; [cbn; auto | reflexivity] | now left].
    + exists vel_hc2, [1; 2]. split; [split; [cbn; auto | reflexivity] | now left].
    + exists vel_hc2, [1; 2]. split; [split; [cbn; auto | reflexivity] | now right; left].
  - intros hc ks n Hd Hn. apply send_covered. apply vel_sends in Hd as [[_ ->] | [_ ->]]; cbn in *; tauto.
Qed.
Lemma eff_limited {H} (s : H) : each_limited JntToActEffort Effort eff_robot (send_lims s).
Proof.
  split; [cbn; nodup|]. split.
  - intros nm h Hi. cbn in Hi. destruct Hi as [K | [K | [K | []]]]; injection K as <- <-;
      (split; [|cbn; split; intuition discriminate]).
    + exists eff_hc1, [0]. split; [split; [cbn; auto | reflexivity] | now left].
    + exists eff_hc2, [1; 2]. split; [split; [cbn; auto | reflexivity] | now left].
    + exists eff_hc2, [1; 2]. split; [split; [cbn; auto | reflexivity] | now right; left].
  - intros hc ks n Hd Hn. apply send_covered. apply eff_sends in Hd as [[_ ->] | [_ ->]]; cbn in *; tauto.
Qed.

(** Velocities 5, -3 and 1/2 asked twice, with a period of 1/10: 2, -2, 1/2 and then 4, -3, 1/2 are sent. *)
Example C135_velocity_nonvacuous :
  wired_for JntToActVelocity vel_robot /\ vel_sat_make send_limits = Some (mkVelSat send_limits (Some 0%Q)) /\
  vel_limits_ok rational send_limits /\
  each_limited JntToActVelocity Velocity vel_robot (send_lims (mkVelSat send_limits (Some 0%Q))) /\
  callable (fun _ _ => True) positive Velocity vel_robot (doc_asked doc_mem) (Some (1 # 10)%Q) /\
  match robot_send exactd vel_sat_enforce JntToActVelocity vel_robot (send_lims (mkVelSat send_limits (Some 0%Q)))
          (doc_asked doc_mem) (Some (1 # 10)%Q) with
  | Ok (i1, m1) =>
      shown m1 [29; 30; 31; 9; 10; 11] = [2; -(2); 1 # 2; -(20); -(15 # 2); -(25 # 2)]%Q /\
      match robot_send exactd vel_sat_enforce JntToActVelocity vel_robot i1 (doc_asked m1) (Some (1 # 10)%Q) with
      | Ok (_, m2) => shown m2 [29; 30; 31; 9; 10; 11] = [4; -(3); 1 # 2; -(40); -(25 # 2); -(35 # 2)]%Q
      | _ => False
      end
  | _ => False
  end.
Proof.
  split; [exact vel_wired|]. split; [reflexivity|]. split; [repeat split; try discriminate; reflexivity|].
  split; [apply vel_limited|]. split; [|vm_compute; split; reflexivity].
  split; [split; [discriminate | reflexivity]|]. intros hc ks n Hd Hn. split; [|exact I].
  apply vel_sends in Hd as [[_ ->] | [_ ->]]; cbn in Hn; destruct Hn as [<- | [<- | []]] || destruct Hn as [<- | []]; discriminate.
Qed.

(** Joints 0 and 1 at 1 and 3, joint 2 at 0; efforts 5, 1 and -1 asked: joint 1 is above its maximum, so 3, 0 and
    -1 are sent. *)
Definition eff_mem : mem exactd :=
  upd exactd (upd exactd (upd exactd (upd exactd (upd exactd doc_mem 20 (n_ 1)) 21 (n_ 3)) 29 (n_ 5)) 30 (n_ 1)) 31 (n_ (-1)).
Example C135_effort_nonvacuous :
  wired_for JntToActEffort eff_robot /\ eff_sat_make send_limits = Some send_limits /\ eff_limits_ok rational send_limits /\
  le (min_position send_limits) (max_position send_limits) /\
  each_limited JntToActEffort Effort eff_robot (send_lims send_limits) /\
  callable (fun _ _ => True) (fun _ => True) Effort eff_robot eff_mem (Some (1 # 10)%Q) /\
  beyond_high send_limits (joint_seen exactd eff_robot eff_mem 1) /\
  match robot_send exactd (fun h j dt => Some (h, eff_sat_enforce h j dt)) JntToActEffort eff_robot (send_lims send_limits)
          eff_mem (Some (1 # 10)%Q) with
  | Ok (_, m1) => shown m1 [29; 30; 31; 9; 10; 11] = [3; 0; -(1); -(3 # 10); -(1 # 10); 1 # 10]%Q
  | _ => False
  end.
Proof.
  split; [exact eff_wired|]. split; [reflexivity|]. split; [repeat split; try discriminate; reflexivity|].
  split; [apply exact_le_some; discriminate|]. split; [apply eff_limited|].
  split; [|split; [left; split; reflexivity | vm_compute; reflexivity]].
  split; [exact I|]. intros hc ks n Hd Hn. split; [|exact I].
  apply eff_sends in Hd as [[_ ->] | [_ ->]]; cbn in Hn; destruct Hn as [<- | [<- | []]] || destruct Hn as [<- | []]; discriminate.
Qed.

(** The same robots with the soft limits of PropsLoop.v (-1/2 to 3/2, gain 5), velocity gain 2. *)
Definition send_softs : soft_limits exact := @mkSoft exact (Some (-(1 # 2))%Q) (Some (3 # 2)%Q) (n_ 5) (n_ 2).
Example C135_soft_nonvacuous :
  soft_ok rational send_softs /\ bound_ok rational (max_velocity send_limits) /\ bound_ok rational (max_acceleration send_limits) /\
  eff_soft_limits_ok rational send_limits /\ eff_soft_make send_limits send_softs = Some (mkEffSoft send_limits send_softs) /\
  each_limited JntToActVelocity Velocity vel_robot (send_lims (vel_soft_make send_limits send_softs)) /\
  each_limited JntToActEffort Effort eff_robot (send_lims (mkEffSoft send_limits send_softs)) /\
  callable (fun _ j => rational (j_pos j) /\
      (has_acceleration_limits send_limits = true -> bounded (max_velocity send_limits) (j_vel j))) (period_ok rational)
    Velocity vel_robot eff_mem (Some (1 # 10)%Q) /\
  callable (fun _ j => rational (j_pos j) /\ rational (j_vel j)) (fun _ => True) Effort eff_robot eff_mem (Some (1 # 10)%Q) /\
  match robot_send exactd (fun h j dt => Some (h, vel_soft_enforce h j dt)) JntToActVelocity vel_robot
          (send_lims (vel_soft_make send_limits send_softs)) eff_mem (Some (1 # 10)%Q) with
  | Ok (_, m1) => (* joint 0 may go up at 5/2 but accelerate by 2 only; joint 1, beyond its soft limit, is sent back at 15/2 *)
      shown m1 [29; 30; 31] = [2; -(15 # 2); -(1)]%Q
  | _ => False
  end /\
  match robot_send exactd (fun h j dt => Some (h, eff_soft_enforce h j dt)) JntToActEffort eff_robot
          (send_lims (mkEffSoft send_limits send_softs)) eff_mem (Some (1 # 10)%Q) with
  | Ok (_, m1) => shown m1 [29; 30; 31] = [3; -(3); -(1)]%Q
  | _ => False
  end.
Proof.
  split; [repeat split; try discriminate; reflexivity|].
  split; [repeat split; try discriminate; reflexivity|]. split; [repeat split; try discriminate; reflexivity|].
  split; [repeat split; try discriminate; reflexivity|]. split; [reflexivity|].
  split; [apply vel_limited|]. split; [apply eff_limited|]. split; [|split; [|split; vm_compute; reflexivity]].
  - split; [split; [discriminate | apply exact_le_some; discriminate]|]. intros hc ks n Hd Hn.
    apply vel_sends in Hd as [[_ ->] | [_ ->]]; cbn in Hn; destruct Hn as [<- | [<- | []]] || destruct Hn as [<- | []];
      (split; [discriminate|]; split; [discriminate|]; intros _; split; apply exact_le_some; discriminate).
  - split; [exact I|]. intros hc ks n Hd Hn.
    apply eff_sends in Hd as [[_ ->] | [_ ->]]; cbn in Hn; destruct Hn as [<- | [<- | []]] || destruct Hn as [<- | []];
      (split; [discriminate|]; split; discriminate).
Qed.
